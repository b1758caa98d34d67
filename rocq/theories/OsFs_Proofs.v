From Verif Require Import Common CommonLemmas ContentRange_Model ContentRange_Proofs PathLex_Model PathLex_Proofs Resolve_Model Resolve_Spec Resolve_Kernel OsFs_Model OsFs_Spec.
Open Scope nat_scope.

(* ---- names ---- *)
Lemma skip_step root st c : is_skip c -> clean_step root st c = st.
Proof. intros [-> | ->]; reflexivity. Qed.
Lemma proper_step root st c : proper c -> clean_step root st c = c :: st.
Proof. intros H. unfold clean_step. destruct (proper_tests c H) as (-> & -> & ->). reflexivity. Qed.
Lemma skip_not_proper c : is_skip c -> ~ proper c.
Proof. intros [-> | ->] (H1 & H2 & _); [apply H1|apply H2]; reflexivity. Qed.
Lemma dd_not_proper : ~ proper [dot; dot].
Proof. intros (_ & _ & H & _). apply H. reflexivity. Qed.
Lemma dd_not_skip : ~ is_skip [dot; dot].
Proof. intros [H|H]; discriminate. Qed.
Lemma comp_cases c : sepfree c -> is_skip c \/ c = [dot; dot] \/ proper c.
Proof.
  intros H. destruct (is_empty c) eqn:E1; [left; left; apply is_empty_true; exact E1|].
  destruct (is_dot c) eqn:E2; [left; right; apply is_dot_true; exact E2|].
  destruct (is_dotdot c) eqn:E3; [right; left; apply is_dotdot_true; exact E3|].
  right. right. repeat split; [intros ->; discriminate|intros ->; discriminate|intros ->; discriminate|exact H].
Qed.

Lemma goes_fold don l r : goes don l r -> Forall proper don ->
  fold_left (clean_step false) l (rev don) = rev r /\ Forall proper r.
Proof.
  induction 1 as [don|don c l r Hc _ IH|don x l r _ IH|don c l r Hc _ IH]; intros Hd; cbn [fold_left].
  - auto.
  - rewrite skip_step by exact Hc. apply IH. exact Hd.
  - apply Forall_app in Hd as [Hd Hx]. apply Forall_cons_iff in Hx as [Hx _]. rewrite rev_app_distr. cbn [rev app].
    assert (clean_step false (x :: rev don) [dot; dot] = rev don) as ->.
    { unfold clean_step. cbn [is_empty orb]. change (is_dot [dot; dot]) with false. change (is_dotdot [dot; dot]) with true.
      destruct (proper_tests x Hx) as (_ & _ & ->). reflexivity. }
    apply IH. exact Hd.
  - rewrite proper_step by exact Hc. specialize (IH ltac:(apply Forall_app; auto)).
    rewrite rev_app_distr in IH. exact IH.
Qed.

Lemma dd_stays l : forall xs, exists ys, fold_left (clean_step false) l (xs ++ [[dot; dot]]) = ys ++ [[dot; dot]].
Proof.
  induction l as [|c l IH]; intros xs; cbn [fold_left]; [exists xs; reflexivity|].
  assert (exists ys, clean_step false (xs ++ [[dot; dot]]) c = ys ++ [[dot; dot]]) as (ys & ->); [|apply IH].
  unfold clean_step. destruct (is_empty c || is_dot c); [exists xs; reflexivity|].
  destruct (is_dotdot c) eqn:E; [|exists (c :: xs); reflexivity].
  destruct xs as [|x xs]; cbn [app].
  - change (is_dotdot [dot; dot]) with true. exists [c]. reflexivity.
  - destruct (is_dotdot x); [exists (c :: x :: xs)|exists xs]; reflexivity.
Qed.

Lemma fold_goes l : Forall sepfree l -> forall don r, Forall proper don -> Forall proper r ->
  fold_left (clean_step false) l (rev don) = rev r -> goes don l r.
Proof.
  induction 1 as [|c l Hc Hl IH]; intros don r Hd Hr E; cbn [fold_left] in E.
  - apply (f_equal (@rev _)) in E. rewrite !rev_involutive in E. subst r. constructor.
  - destruct (comp_cases c Hc) as [Hs|[-> |Hp]].
    + rewrite skip_step in E by exact Hs. apply goes_skip; [exact Hs|]. apply IH; assumption.
    + destruct (rev don) as [|x st] eqn:Er.
      * change (clean_step false [] [dot; dot]) with ([] ++ [[dot; dot]]) in E.
        destruct (dd_stays l []) as (ys & E2). rewrite E2 in E.
        exfalso. assert (In [dot; dot] r) as Hin by (apply in_rev; rewrite <- E; apply in_or_app; right; left; reflexivity).
        rewrite Forall_forall in Hr. exact (dd_not_proper (Hr _ Hin)).
      * apply (f_equal (@rev _)) in Er. rewrite rev_involutive in Er. cbn [rev] in Er. subst don.
        apply Forall_app in Hd as [Hd Hx]. apply Forall_cons_iff in Hx as [Hx _].
        apply goes_up. apply IH; [exact Hd|exact Hr|]. rewrite rev_involutive.
        unfold clean_step in E. cbn [is_empty orb] in E. change (is_dot [dot; dot]) with false in E. change (is_dotdot [dot; dot]) with true in E.
        destruct (proper_tests x Hx) as (_ & _ & Hx2). rewrite Hx2 in E. exact E.
    + apply goes_down; [exact Hp|]. rewrite proper_step in E by exact Hp.
      apply IH; [apply Forall_app; auto|exact Hr|]. rewrite rev_app_distr. exact E.
Qed.

Lemma rooted_iff name : rooted name = true <-> exists r, name = sep :: r.
Proof.
  destruct name as [|c r]; cbn [rooted]; [split; [discriminate|intros (x & E); discriminate]|].
  destruct (N.eqb_spec c sep) as [->|H]; split; intros X; try discriminate; try reflexivity; [exists r; reflexivity|].
  destruct X as (x & E). congruence.
Qed.

Lemma means_comps name l : means name l <-> rooted name = false /\ clean_comps false (split_sep name) = l /\ Forall proper l.
Proof.
  unfold means. split.
  - intros [Hn Hg]. split; [destruct (rooted name) eqn:E; [|reflexivity]; apply rooted_iff in E as (r & E); contradiction (Hn r E)|].
    destruct (goes_fold _ _ _ Hg (Forall_nil _)) as [F P]. split; [|exact P]. unfold clean_comps. cbn [rev] in F. rewrite F. apply rev_involutive.
  - intros (Hr & E & P). split.
    + intros r ->. cbn in Hr. discriminate.
    + apply fold_goes; [apply split_sepfree|constructor|exact P|]. cbn [rev]. unfold clean_comps in E. rewrite <- E, rev_involutive. reflexivity.
Qed.

Lemma proper_normal root l : Forall proper l -> normal root l.
Proof. intros H. exists 0, l. auto. Qed.

Lemma join2_path R l : Forall proper R -> Forall proper l -> join2 (render true R) (render false l) = path_of (R ++ l).
Proof.
  intros HR Hl. assert (join2 (render true R) (render false l) = clean (render true R ++ sep :: render false l)) as ->.
  { unfold join2. cbn [render]. destruct (match l with [] => [dot] | _ => join_sep l end); reflexivity. }
  unfold clean. assert (rooted (render true R ++ sep :: render false l) = true) as -> by reflexivity.
  change (path_of (R ++ l)) with (render true (R ++ l)). f_equal.
  unfold clean_comps. rewrite split_app_gen, fold_left_app.
  pose proof (comps_render true R (proper_normal _ _ HR)) as E1. unfold clean_comps in E1.
  apply (f_equal (@rev _)) in E1. rewrite rev_involutive in E1. rewrite E1.
  rewrite (split_render false l (proper_normal _ _ Hl)). destruct l as [|x l].
  - cbn [fold_left]. change (clean_step true (rev R) [dot]) with (rev R). rewrite rev_involutive, app_nil_r. reflexivity.
  - rewrite fold_proper by exact Hl. rewrite rev_app_distr, !rev_involutive. reflexivity.
Qed.

Lemma resolve_spec R name q : Forall proper R ->
  (resolve_path (path_of R) name = Some q <-> exists l, means name l /\ q = path_of (R ++ l)).
Proof.
  intros HR. unfold resolve_path.
  assert (bytes_eqb (clean name) [dot] = true <-> means name []) as Hdot.
  { rewrite bytes_eqb_eq, means_comps. unfold clean. destruct (rooted name) eqn:Er.
    - split; [intros H; discriminate|intros (H & _); discriminate].
    - split.
      + intros E. split; [reflexivity|]. split; [|constructor].
        apply (render_inj false); [apply clean_comps_normal; apply split_sepfree|apply normal_nil|exact E].
      + intros (_ & -> & _). reflexivity. }
  destruct (bytes_eqb (clean name) [dot]) eqn:E.
  { pose proof (proj1 Hdot eq_refl) as Hm. split.
    - intros H. apply some_inj in H. subst q. exists []. rewrite app_nil_r. auto.
    - intros (l & Hl & ->). apply means_comps in Hl as (_ & E1 & _). apply means_comps in Hm as (_ & E2 & _).
      assert (l = []) as -> by congruence. rewrite app_nil_r. reflexivity. }
  destruct (is_local (clean name)) eqn:El; cbn [negb].
  - apply is_local_comps in El as (_ & Hr & Hp). rewrite rooted_clean in Hr.
    assert (clean_comps false (split_sep (clean name)) = clean_comps false (split_sep name)) as Hc.
    { unfold clean. rewrite Hr. apply comps_render. apply clean_comps_normal. apply split_sepfree. }
    rewrite Hc in Hp. set (l := clean_comps false (split_sep name)) in *.
    assert (means name l) as Hm by (apply means_comps; auto).
    assert (clean name = render false l) as -> by (unfold clean; rewrite Hr; reflexivity).
    change (path_of R) with (render true R). rewrite join2_path by assumption. split.
    + intros H. apply some_inj in H. subst q. exists l. auto.
    + intros (l' & Hl' & ->). apply means_comps in Hl' as (_ & E2 & _). unfold l in *. rewrite E2. reflexivity.
  - split; [discriminate|]. intros (l & Hl & _). exfalso. apply means_comps in Hl as (Hr & E2 & Hp).
    assert (is_local (clean name) = true) as X; [|congruence].
    apply is_local_comps. split; [apply clean_nonempty|]. rewrite rooted_clean. split; [exact Hr|].
    unfold clean. rewrite Hr, comps_render; [rewrite E2; exact Hp|apply clean_comps_normal; apply split_sepfree].
Qed.

Lemma means_unique name l1 l2 : means name l1 -> means name l2 -> l1 = l2.
Proof. rewrite !means_comps. intros (_ & E1 & _) (_ & E2 & _). congruence. Qed.
Lemma means_proper name l : means name l -> Forall proper l.
Proof. rewrite means_comps. tauto. Qed.

Lemma path_of_inj a b : Forall proper a -> Forall proper b -> path_of a = path_of b -> a = b.
Proof. intros Ha Hb E. exact (render_inj true a b (proper_normal _ _ Ha) (proper_normal _ _ Hb) E). Qed.

Lemma resolve_cases R name : Forall proper R ->
  (exists l, means name l /\ resolve_path (path_of R) name = Some (path_of (R ++ l)) /\ (path_of (R ++ l) = path_of R <-> l = [])) \/
  ((forall l, ~ means name l) /\ resolve_path (path_of R) name = None).
Proof.
  intros HR. destruct (resolve_path (path_of R) name) as [q|] eqn:E.
  - left. apply (resolve_spec R name q HR) in E as (l & Hl & ->). exists l. split; [exact Hl|]. split; [reflexivity|].
    split; [|intros ->; rewrite app_nil_r; reflexivity]. intros X.
    apply path_of_inj in X; [|apply Forall_app; split; [exact HR|exact (means_proper _ _ Hl)]|exact HR].
    rewrite <- (app_nil_r R) in X at 2. exact (app_inv_head _ _ _ X).
  - right. split; [|reflexivity]. intros l Hl.
    assert (resolve_path (path_of R) name = Some (path_of (R ++ l))) as X by (apply resolve_spec; [exact HR|exists l; auto]).
    congruence.
Qed.

Lemma ends_with_dot_iff name : ends_with_dot name = true <-> last_is_dot name.
Proof.
  unfold ends_with_dot, last_is_dot. destruct (bytes_eqb name [dot]) eqn:E.
  { apply bytes_eqb_eq in E. subst name. split; [|reflexivity]. intros _. exists []. reflexivity. }
  split.
  - intros H. destruct (rev name) as [|c [|d r]] eqn:Er; try discriminate.
    apply andb_true_iff in H as [H1 H2]. apply N.eqb_eq in H1, H2. subst c d.
    apply (f_equal (@rev _)) in Er. rewrite rev_involutive in Er. cbn [rev] in Er. rewrite <- app_assoc in Er. cbn [app] in Er.
    exists (split_sep (rev r)). rewrite Er, split_app_gen. reflexivity.
  - intros (l & Hl). pose proof (join_split name) as Hj. rewrite Hl in Hj. destruct l as [|x l].
    + cbn in Hj. subst name. discriminate.
    + rewrite join_app in Hj by discriminate. change (join_sep [[dot]]) with [dot] in Hj. rewrite <- Hj.
      rewrite rev_app_distr. cbn [rev app]. rewrite !N.eqb_refl. reflexivity.
Qed.

(* ---- calls ---- *)
Lemma one_ok R n (o : fsop) k : Forall proper R -> given o = [n] -> ~ refused o ->
  (forall l, means n l -> paths (k (path_of (R ++ l))) = [path_of (R ++ l)] /\
     exists b, counterpart b o (k (path_of (R ++ l))) /\ (b = true <-> l = [])) ->
  call_ok R o (one (path_of R) n k).
Proof.
  intros HR Hg Hr Hk. unfold one. destruct (resolve_cases R n HR) as [(l & Hl & -> & _)|[Hn ->]].
  - split; [exact Hr|]. exists [l]. rewrite Hg. split; [constructor; [exact Hl|constructor]|].
    destruct (Hk l Hl) as (P & b & C & B). split; [exact P|]. exists b. split; [exact C|].
    rewrite B. split; [intros ->; reflexivity|congruence].
  - exists n. rewrite Hg. split; [left; reflexivity|exact Hn].
Qed.

Lemma two_ok R a n (o : fsop) k : Forall proper R -> given o = [a; n] -> ~ refused o ->
  (forall p q, paths (k p q) = [p; q] /\ counterpart false o (k p q)) ->
  call_ok R o (two (path_of R) a n k).
Proof.
  intros HR Hg Hr Hk. unfold two. destruct (resolve_cases R a HR) as [(l & Hl & -> & _)|[Hn ->]].
  - destruct (resolve_cases R n HR) as [(l2 & Hl2 & -> & _)|[Hn ->]].
    + split; [exact Hr|]. exists [l; l2]. rewrite Hg. split; [constructor; [exact Hl|constructor; [exact Hl2|constructor]]|].
      destruct (Hk (path_of (R ++ l)) (path_of (R ++ l2))) as [P C]. split; [exact P|]. exists false. split; [exact C|].
      split; discriminate.
    + exists n. rewrite Hg. split; [right; left; reflexivity|exact Hn].
  - exists a. rewrite Hg. split; [left; reflexivity|exact Hn].
Qed.

Lemma top_cases R l : Forall proper R -> Forall proper l -> l = [] /\ bytes_eqb (path_of R) (path_of (R ++ l)) = true \/
  l <> [] /\ bytes_eqb (path_of R) (path_of (R ++ l)) = false.
Proof.
  intros HR Hl. destruct l as [|x l].
  - left. split; [reflexivity|]. rewrite app_nil_r. apply bytes_eqb_eq. reflexivity.
  - right. split; [discriminate|]. destruct (bytes_eqb _ _) eqn:E; [|reflexivity]. apply bytes_eqb_eq in E.
    apply path_of_inj in E; [|exact HR|apply Forall_app; auto]. exfalso.
    apply (f_equal (@length _)) in E. rewrite app_length in E. cbn in E. lia.
Qed.

Lemma flip (l : list (list byte)) (o : fsop) (c : oscall) : (forall b, counterpart b o c) -> exists b, counterpart b o c /\ (b = true <-> l = []).
Proof.
  intros H. exists (match l with [] => true | _ => false end). split; [apply H|]. destruct l; split; congruence.
Qed.

Lemma calls_ok R o : Forall proper R -> call_ok R o (fs_call (path_of R) o).
Proof.
  intros HR. destruct o; cbn [fs_call].
  all: try (apply one_ok; [exact HR|reflexivity|intros []|]; intros l Hl; cbn beta; split; [reflexivity|apply flip; intros; constructor]; fail).
  all: try (apply two_ok; [exact HR|reflexivity|intros []|]; intros p q; split; [reflexivity|constructor]; fail).
  - apply one_ok; [exact HR|reflexivity|intros []|]. intros l Hl.
    destruct (top_cases R l HR (means_proper _ _ Hl)) as [[-> ->]|[Hne ->]]; split; try reflexivity; eexists; split; try constructor; try discriminate; auto; contradiction.
  - apply one_ok; [exact HR|reflexivity|intros []|]. intros l Hl.
    destruct (top_cases R l HR (means_proper _ _ Hl)) as [[-> ->]|[Hne ->]]; split; try reflexivity; eexists; split; try constructor; try discriminate; auto; contradiction.
  - destruct (resolve_cases R n HR) as [(l & Hl & -> & _)|[Hn ->]].
    + destruct (top_cases R l HR (means_proper _ _ Hl)) as [[-> ->]|[Hne ->]]; [exact Hl|].
      split; [intros Hr; apply Hne; exact (means_unique _ _ _ Hl Hr)|].
      exists [l]. split; [constructor; [exact Hl|constructor]|]. split; [reflexivity|]. exists false. split; [constructor|].
      split; [discriminate|intros X; injection X as X; contradiction].
    + exists n. split; [left; reflexivity|exact Hn].
  - destruct (ends_with_dot n) eqn:Ed; [left; apply ends_with_dot_iff; exact Ed|].
    destruct (resolve_cases R n HR) as [(l & Hl & -> & _)|[Hn ->]].
    + assert (bytes_eqb (path_of (R ++ l)) (path_of R) = bytes_eqb (path_of R) (path_of (R ++ l))) as ->.
      { apply eq_iff_eq_true. rewrite !bytes_eqb_eq. split; congruence. }
      destruct (top_cases R l HR (means_proper _ _ Hl)) as [[-> ->]|[Hne ->]]; [right; exact Hl|].
      split.
      { intros [Hr|Hr]; [apply ends_with_dot_iff in Hr; congruence|apply Hne; exact (means_unique _ _ _ Hl Hr)]. }
      exists [l]. split; [constructor; [exact Hl|constructor]|]. split; [reflexivity|]. exists false. split; [constructor|].
      split; [discriminate|intros X; injection X as X; contradiction].
    + exists n. split; [left; reflexivity|exact Hn].
Qed.

(* ---- the kernel ---- *)
Lemma kdir t fl d c l r : kreach t fl d (c :: l) r -> t d = Some KDir.
Proof. inversion 1; assumption. Qed.

Lemma kr_compose t fl d a e : kreach t true d a e -> forall l r, l <> [] ->
  (kreach t fl d (a ++ l) r <-> kreach t fl e l r).
Proof.
  induction 1 as [d|d c a e Hc Hd _ IH|d a e Hd _ IH|d c a e k Hc Hd Hk Hnl _ IH|d c x Hc Hd Hk Hfl|d c x a e Hc Hd Hk Hor _ IH];
    intros l r Hl; cbn [app].
  - reflexivity.
  - rewrite <- (IH l r Hl). split; intros H.
    + inversion H; subst; try assumption; exfalso;
        match goal with P : proper _ |- _ => exact (skip_not_proper _ Hc P) | P : is_skip [dot; dot] |- _ => exact (dd_not_skip P) end.
    + apply kr_skip; assumption.
  - rewrite <- (IH l r Hl). split; intros H.
    + inversion H; subst; try assumption; exfalso;
        match goal with P : proper [dot; dot] |- _ => exact (dd_not_proper P) | P : is_skip [dot; dot] |- _ => exact (dd_not_skip P) end.
    + apply kr_up; assumption.
  - rewrite <- (IH l r Hl). split; intros H.
    + inversion H; subst; try assumption; exfalso; try contradiction (dd_not_proper Hc);
        try (match goal with P : is_skip _ |- _ => exact (skip_not_proper _ P Hc) end);
        match goal with P : t (d ++ [c]) = Some (KLink ?y) |- _ => rewrite P in Hk; apply some_inj in Hk; exact (Hnl y (eq_sym Hk)) end.
    + eapply kr_down; eassumption.
  - discriminate.
  - rewrite <- (IH l r Hl). rewrite <- app_assoc. split; intros H.
    + inversion H; subst; try contradiction (dd_not_proper Hc);
        try (match goal with P : is_skip _ |- _ => contradiction (skip_not_proper _ P Hc) end).
      * match goal with P : t (d ++ [c]) = Some ?k, Q : forall y, ?k <> KLink y |- _ => rewrite P in Hk; apply some_inj in Hk; contradiction (Q x Hk) end.
      * match goal with P : [] = a ++ l |- _ => symmetry in P; apply app_eq_nil in P; tauto end.
      * match goal with P : t (d ++ [c]) = Some (KLink ?y) |- _ => assert (x = y) as -> by congruence end. assumption.
    + eapply kr_link; [exact Hc|exact Hd|exact Hk| |exact H]. left. intros X. apply app_eq_nil in X. tauto.
Qed.

Lemma leads_from t fl R D l r : tree_ok t -> Forall proper R -> Forall proper l -> l <> [] ->
  leads t true (path_of R) D -> (leads t fl (path_of (R ++ l)) r <-> kreach t fl D l r).
Proof.
  intros [Ht0 _] HR Hl Hne H. unfold leads in *.
  assert (split_sep (path_of (R ++ l)) = [] :: R ++ l) as ->.
  { change (path_of (R ++ l)) with (render true (R ++ l)). rewrite split_render by (apply proper_normal; apply Forall_app; auto).
    destruct (R ++ l) eqn:E; [apply app_eq_nil in E; tauto|reflexivity]. }
  assert (kreach t true [] ([] :: R) D) as HD.
  { change (path_of R) with (render true R) in H. rewrite split_render in H by (apply proper_normal; exact HR).
    destruct R; [|exact H]. inversion H; subst; try (match goal with P : proper [] |- _ => destruct P as (P & _); contradiction P; reflexivity end).
    apply kr_skip; [left; reflexivity|assumption|].
    match goal with P : kreach t true [] [[]] D |- _ => inversion P; subst; try (match goal with P : proper [] |- _ => destruct P as (P & _); contradiction P; reflexivity end) end.
    assumption. }
  exact (kr_compose t fl [] ([] :: R) D HD l r Hne).
Qed.

Definition skipb (c : list byte) : bool := is_empty c || is_dot c.
Definition strip (l : list (list byte)) : list (list byte) := filter (fun c => negb (skipb c)) l.
Lemma skipb_iff c : skipb c = true <-> is_skip c.
Proof. unfold skipb, is_skip. rewrite orb_true_iff, is_empty_true, is_dot_true. reflexivity. Qed.
Lemma skipb_proper c : proper c -> skipb c = false.
Proof. intros H. unfold skipb. destruct (proper_tests c H) as (-> & -> & _). reflexivity. Qed.
Definition lastp (l : list (list byte)) : Prop := l = [] \/ exists pre x, l = pre ++ [x] /\ proper x.
Lemma lastp_tail c l : lastp (c :: l) -> lastp l.
Proof.
  intros [H|(pre & x & E & Hx)]; [discriminate|]. destruct pre as [|y pre].
  - injection E as _ ->. left. reflexivity.
  - injection E as _ ->. right. exists pre, x. auto.
Qed.
Lemma lastp_strip l : lastp l -> l <> [] -> strip l <> [].
Proof.
  intros [->|(pre & x & -> & Hx)] Hn; [contradiction|]. unfold strip. rewrite filter_app. cbn [filter].
  rewrite (skipb_proper x Hx). cbn [negb]. intros E. apply app_eq_nil in E as [_ E]. discriminate.
Qed.

Lemma goes_strip don raw r : goes don raw r -> ~ In [dot; dot] raw -> r = don ++ strip raw.
Proof.
  induction 1 as [don|don c l r Hc _ IH|don x l r _ IH|don c l r Hc _ IH]; intros Hn.
  - rewrite app_nil_r. reflexivity.
  - cbn [strip filter]. rewrite (proj2 (skipb_iff c) Hc). apply IH. intros X. apply Hn. right. exact X.
  - exfalso. apply Hn. left. reflexivity.
  - cbn [strip filter]. rewrite (skipb_proper c Hc). cbn [negb].
    rewrite IH by (intros X; apply Hn; right; exact X). rewrite <- app_assoc. reflexivity.
Qed.

Lemma strip_to t fl d L r : kreach t fl d L r -> forall pre raw, L = pre ++ raw -> lastp raw -> ~ In [dot; dot] raw ->
  kreach t fl d (pre ++ strip raw) r.
Proof.
  induction 1 as [d|d c l r Hc Hd _ IH|d l r Hd _ IH|d c l r k Hc Hd Hk Hnl _ IH|d c x Hc Hd Hk Hfl|d c x l r Hc Hd Hk Hor _ IH];
    intros pre raw E Hl Hn.
  - symmetry in E. apply app_eq_nil in E as [-> ->]. constructor.
  - destruct pre as [|y pre]; cbn [app] in *.
    + subst raw. cbn [strip filter]. rewrite (proj2 (skipb_iff c) Hc). cbn [negb].
      apply (IH [] l eq_refl (lastp_tail _ _ Hl)). intros X. apply Hn. right. exact X.
    + injection E as <- ->. apply kr_skip; [exact Hc|exact Hd|]. apply IH; auto.
  - destruct pre as [|y pre]; cbn [app] in *.
    + subst raw. exfalso. apply Hn. left. reflexivity.
    + injection E as <- ->. apply kr_up; [exact Hd|]. apply IH; auto.
  - destruct pre as [|y pre]; cbn [app] in *.
    + subst raw. cbn [strip filter]. rewrite (skipb_proper c Hc). cbn [negb].
      eapply kr_down; [exact Hc|exact Hd|exact Hk|exact Hnl|].
      apply (IH [] l eq_refl (lastp_tail _ _ Hl)). intros X. apply Hn. right. exact X.
    + injection E as <- ->. eapply kr_down; [exact Hc|exact Hd|exact Hk|exact Hnl|]. apply IH; auto.
  - destruct pre as [|y pre]; cbn [app] in *.
    + subst raw. cbn [strip filter]. rewrite (skipb_proper c Hc). cbn [negb]. eapply kr_keep; eassumption.
    + injection E as <- E. symmetry in E. apply app_eq_nil in E as [-> ->]. cbn. eapply kr_keep; eassumption.
  - destruct pre as [|y pre]; cbn [app] in *.
    + subst raw. cbn [strip filter]. rewrite (skipb_proper c Hc). cbn [negb].
      eapply kr_link; [exact Hc|exact Hd|exact Hk| |].
      * destruct Hor as [Hor|Hor]; [left|right; exact Hor]. apply lastp_strip; [exact (lastp_tail _ _ Hl)|exact Hor].
      * apply (IH (split_sep x) l eq_refl (lastp_tail _ _ Hl)). intros X. apply Hn. right. exact X.
    + injection E as <- ->. eapply kr_link; [exact Hc|exact Hd|exact Hk| |].
      * destruct Hor as [Hor|Hor]; [|right; exact Hor]. left. intros X. apply app_eq_nil in X as [-> X]. cbn in Hor.
        apply (lastp_strip raw Hl Hor X).
      * rewrite app_assoc. apply IH; auto. rewrite app_assoc. reflexivity.
Qed.

Lemma strip_cons raw c l : strip raw = c :: l -> exists s raw', raw = s ++ c :: raw' /\ Forall is_skip s /\ strip raw' = l.
Proof.
  induction raw as [|y raw IH]; intros E; [discriminate|]. cbn [strip filter] in E. destruct (skipb y) eqn:Ey; cbn [negb] in E.
  - destruct (IH E) as (s & raw' & -> & Hs & Hr). exists (y :: s), raw'. split; [reflexivity|]. split; [|exact Hr].
    constructor; [apply skipb_iff; exact Ey|exact Hs].
  - injection E as -> E. exists [], raw. split; [reflexivity|]. split; [constructor|exact E].
Qed.
Lemma skips_in t fl d s l r : Forall is_skip s -> t d = Some KDir -> kreach t fl d l r -> kreach t fl d (s ++ l) r.
Proof. induction 1 as [|c s Hc _ IH]; intros Hd H; [exact H|]. apply kr_skip; auto. Qed.
Lemma lastp_app s c l : lastp (s ++ c :: l) -> lastp l.
Proof. induction s as [|x s IH]; cbn [app]; intros H; [exact (lastp_tail _ _ H)|]. apply IH. exact (lastp_tail _ _ H). Qed.

Lemma strip_from t fl d L r : kreach t fl d L r -> forall pre raw, L = pre ++ strip raw -> lastp raw -> ~ In [dot; dot] raw ->
  kreach t fl d (pre ++ raw) r.
Proof.
  induction 1 as [d|d c l r Hc Hd _ IH|d l r Hd _ IH|d c l r k Hc Hd Hk Hnl _ IH|d c x Hc Hd Hk Hfl|d c x l r Hc Hd Hk Hor _ IH];
    intros pre raw E Hl Hn.
  - symmetry in E. apply app_eq_nil in E as [-> E]. destruct raw as [|y raw]; [constructor|].
    exfalso. exact (lastp_strip _ Hl ltac:(discriminate) E).
  - destruct pre as [|y pre]; cbn [app] in *.
    + symmetry in E. assert (In c (strip raw)) as X by (rewrite E; left; reflexivity).
      apply filter_In in X as [_ X]. rewrite (proj2 (skipb_iff c) Hc) in X. discriminate.
    + injection E as <- ->. apply kr_skip; [exact Hc|exact Hd|]. apply IH; auto.
  - destruct pre as [|y pre]; cbn [app] in *.
    + symmetry in E. assert (In [dot; dot] (strip raw)) as X by (rewrite E; left; reflexivity).
      apply filter_In in X as [X _]. contradiction.
    + injection E as <- ->. apply kr_up; [exact Hd|]. apply IH; auto.
  - destruct pre as [|y pre]; cbn [app] in *.
    + symmetry in E. destruct (strip_cons _ _ _ E) as (s & raw' & -> & Hs & Hr).
      apply skips_in; [exact Hs|exact Hd|]. eapply kr_down; [exact Hc|exact Hd|exact Hk|exact Hnl|].
      apply (IH [] raw' (eq_sym Hr) (lastp_app _ _ _ Hl)). intros X. apply Hn. apply in_or_app. right. right. exact X.
    + injection E as <- ->. eapply kr_down; [exact Hc|exact Hd|exact Hk|exact Hnl|]. apply IH; auto.
  - destruct pre as [|y pre]; cbn [app] in *.
    + symmetry in E. destruct (strip_cons _ _ _ E) as (s & raw' & -> & Hs & Hr).
      destruct raw' as [|z raw']; [|exfalso; exact (lastp_strip _ (lastp_app _ _ _ Hl) ltac:(discriminate) Hr)].
      apply skips_in; [exact Hs|exact Hd|]. eapply kr_keep; eassumption.
    + injection E as <- E. symmetry in E. apply app_eq_nil in E as [-> E]. destruct raw as [|z raw]; [|exfalso; exact (lastp_strip _ Hl ltac:(discriminate) E)].
      cbn. eapply kr_keep; eassumption.
  - destruct pre as [|y pre]; cbn [app] in *.
    + symmetry in E. destruct (strip_cons _ _ _ E) as (s & raw' & -> & Hs & Hr).
      apply skips_in; [exact Hs|exact Hd|]. eapply kr_link; [exact Hc|exact Hd|exact Hk| |].
      * destruct Hor as [Hor|Hor]; [left|right; exact Hor]. intros ->. apply Hor. symmetry. exact Hr.
      * subst l. apply (IH (split_sep x) raw' eq_refl (lastp_app _ _ _ Hl)). intros X. apply Hn. apply in_or_app. right. right. exact X.
    + injection E as <- ->. eapply kr_link; [exact Hc|exact Hd|exact Hk| |].
      * destruct Hor as [Hor|Hor]; [left|right; exact Hor]. intros X. apply app_eq_nil in X as [-> ->]. contradiction.
      * rewrite app_assoc. apply IH; auto. rewrite app_assoc. reflexivity.
Qed.

Lemma same_place t fl R D name l r : tree_ok t -> Forall proper R -> leads t true (path_of R) D ->
  means name l -> ~ In [dot; dot] (split_sep name) -> (exists pre x, split_sep name = pre ++ [x] /\ proper x) ->
  (leads t fl (path_of (R ++ l)) r <-> kreach t fl D (split_sep name) r).
Proof.
  intros Ht HR HD Hm Hn Hx. assert (lastp (split_sep name)) as Hl by (right; exact Hx).
  assert (l = strip (split_sep name)) as El by (destruct Hm as [_ Hg]; exact (goes_strip _ _ _ Hg Hn)).
  rewrite (leads_from t fl R D l r Ht HR (means_proper _ _ Hm)); [|rewrite El; apply lastp_strip; [exact Hl|apply split_nonempty]|exact HD].
  rewrite El. split; intros H.
  - exact (strip_from t fl D _ r H [] (split_sep name) eq_refl Hl Hn).
  - exact (strip_to t fl D _ r H [] (split_sep name) eq_refl Hl Hn).
Qed.

(* '..' where nothing on the way is a symlink *)
Lemma plain_goes t d raw r : kplain t d raw r -> forall D don l, d = D ++ don -> goes don raw l ->
  (exists k, t d = Some k /\ forall x, k <> KLink x) -> tree_ok t ->
  r = D ++ l /\ exists k, t r = Some k /\ forall x, k <> KLink x.
Proof.
  induction 1 as [d|d c a r Hc Hd _ IH|d a r Hd _ IH|d c a r k Hc Hd Hk Hnl _ IH]; intros D don l E G Hnl0 Ht.
  - inversion G; subst. auto.
  - inversion G; subst; try (match goal with P : proper c |- _ => contradiction (skip_not_proper _ Hc P) end); try contradiction (dd_not_skip Hc).
    eapply IH; eauto.
  - inversion G; subst; try (match goal with P : proper [dot; dot] |- _ => contradiction (dd_not_proper P) end); try (match goal with P : is_skip [dot; dot] |- _ => contradiction (dd_not_skip P) end).
    rewrite app_assoc, removelast_last in IH. eapply IH; [reflexivity|eassumption| |exact Ht].
    exists KDir. split; [|discriminate]. destruct Ht as [_ Ht]. apply (Ht _ x). rewrite <- app_assoc. congruence.
  - inversion G; subst; try contradiction (dd_not_proper Hc); try (match goal with P : is_skip c |- _ => contradiction (skip_not_proper _ P Hc) end).
    eapply IH; [symmetry; apply app_assoc|eassumption| |exact Ht]. exists k. auto.
Qed.

Lemma real_reach t fl l : tree_ok t -> Forall proper l -> forall D k, t D = Some KDir -> t (D ++ l) = Some k -> (forall x, k <> KLink x) ->
  kreach t fl D l (D ++ l).
Proof.
  intros [_ Ht] Hp. induction Hp as [|c l Hc Hl IH]; intros D k HD Hk Hnl; [rewrite app_nil_r; constructor|].
  replace (D ++ c :: l) with ((D ++ [c]) ++ l) in * by (rewrite <- app_assoc; reflexivity).
  destruct l as [|y l].
  - rewrite app_nil_r in *. eapply kr_down; [exact Hc|exact HD|exact Hk|exact Hnl|constructor].
  - assert (t (D ++ [c]) = Some KDir) as Hdir.
    { clear IH Hnl Hl. revert k Hk. generalize (D ++ [c]) as e. revert y. induction l as [|z l IHl]; intros y e k Hk.
      - apply (Ht e y). congruence.
      - replace (e ++ y :: z :: l) with ((e ++ [y]) ++ z :: l) in Hk by (rewrite <- app_assoc; reflexivity).
        apply IHl in Hk. apply (Ht e y). congruence. }
    eapply kr_down; [exact Hc|exact HD|exact Hdir|discriminate|]. eapply IH; eassumption.
Qed.

Lemma plain_place t fl R D name l r : tree_ok t -> Forall proper R -> leads t true (path_of R) D -> t D = Some KDir ->
  means name l -> l <> [] -> kplain t D (split_sep name) r ->
  r = D ++ l /\ leads t fl (path_of (R ++ l)) r.
Proof.
  intros Ht HR HD Hd Hm Hne Hp.
  destruct (plain_goes _ _ _ _ Hp D [] l ltac:(rewrite app_nil_r; reflexivity) (proj2 Hm)) as [-> (k & Hk & Hnl)]; [|exact Ht|].
  { exists KDir. split; [exact Hd|discriminate]. }
  split; [reflexivity|]. apply (leads_from t fl R D l _ Ht HR (means_proper _ _ Hm) Hne HD).
  exact (real_reach t fl l Ht (means_proper _ _ Hm) D k Hd Hk Hnl).
Qed.

Lemma remove_root R n : Forall proper R -> means n [] ->
  fs_call (path_of R) (OpRemove n) = Calls (OsRemove (path_of R)) /\ fs_call (path_of R) (OpRemoveAll n) = Invalid.
Proof.
  intros HR Hm. assert (resolve_path (path_of R) n = Some (path_of R)) as E.
  { apply resolve_spec; [exact HR|]. exists []. rewrite app_nil_r. auto. }
  cbn [fs_call]. unfold one. rewrite E. split; [reflexivity|].
  rewrite (proj2 (bytes_eqb_eq (path_of R) (path_of R)) eq_refl). destruct (ends_with_dot n); reflexivity.
Qed.

(* ---- examples ---- *)
(* /h is the root with a file f and a link l to /o/d; /o has a file f and the directory d. *)
Definition e_h : list byte := [104%N]. Definition e_f : list byte := [102%N]. Definition e_l : list byte := [108%N].
Definition e_o : list byte := [111%N]. Definition e_d : list byte := [100%N]. Definition e_m : list byte := [109%N].
Definition e_tree : list (list (list byte) * knode) :=
  [([], KDir); ([e_h], KDir); ([e_h; e_f], KFile); ([e_h; e_l], KLink [47; 111; 47; 100]%N);
   ([e_o], KDir); ([e_o; e_f], KFile); ([e_o; e_d], KDir)].
Ltac isp := split; [discriminate|split; [discriminate|split; [discriminate|let H := fresh in intros H; cbn in H; repeat (destruct H as [H|H]; [discriminate H|]); exact H]]].
Lemma e_ok : tree_ok (tree_of e_tree).
Proof. apply tree_of_ok; [reflexivity|repeat constructor; cbn; first [left; reflexivity|right; reflexivity]]. Qed.
Lemma e_root : leads (tree_of e_tree) true (path_of [e_h]) [e_h].
Proof. apply kr_skip; [left; reflexivity|reflexivity|]. eapply kr_down; [isp|reflexivity|reflexivity|discriminate|constructor]. Qed.
Lemma e_leads_f : leads (tree_of e_tree) true (path_of ([e_h] ++ [e_f])) [e_h; e_f].
Proof.
  apply kr_skip; [left; reflexivity|reflexivity|]. eapply kr_down; [isp|reflexivity|reflexivity|discriminate|].
  eapply kr_down; [isp|reflexivity|reflexivity|discriminate|constructor].
Qed.
Ltac noway := match goal with
  | P : proper [] |- _ => destruct P as (P & _); contradiction P; reflexivity
  | P : proper [dot; dot] |- _ => contradiction (dd_not_proper P)
  | P : is_skip ?c |- _ => destruct P; discriminate
  | P : tree_of e_tree _ = _ |- _ => vm_compute in P; discriminate P
  end.


Lemma remove_takes_root :
  exists names, names = [[dot]; []; [97; 47; 46; 46]%N] /\
  forall n R, In n names -> Forall proper R ->
    fs_call (path_of R) (OpRemove n) = Calls (OsRemove (path_of R)) /\ fs_call (path_of R) (OpRemoveAll n) = Invalid.
Proof.
  exists [[dot]; []; [97; 47; 46; 46]%N]. split; [reflexivity|]. intros n R Hn HR. apply remove_root; [exact HR|].
  apply means_comps. destruct Hn as [<-|[<-|[<-|[]]]]; (split; [reflexivity|split; [reflexivity|constructor]]).
Qed.

Lemma trailing_slash :
  exists al R D name l, tree_ok (tree_of al) /\ Forall proper R /\ leads (tree_of al) true (path_of R) D /\
    means name l /\ ~ In [dot; dot] (split_sep name) /\
    (forall fl r, ~ kreach (tree_of al) fl D (split_sep name) r) /\
    exists r, leads (tree_of al) true (path_of (R ++ l)) r /\ tree_of al r = Some KFile.
Proof.
  exists e_tree, [e_h], [e_h], [102; 47]%N, [e_f]. split; [exact e_ok|]. split; [constructor; [isp|constructor]|]. split; [exact e_root|].
  split; [apply means_comps; split; [reflexivity|split; [reflexivity|constructor; [isp|constructor]]]|].
  split; [cbn; intros [H|[H|[]]]; discriminate|]. split.
  - intros fl r H. change (split_sep [102; 47]%N) with [e_f; []] in H. inversion H; subst; try noway.
    match goal with P : kreach _ _ _ [[]] _ |- _ => inversion P; subst; noway end.
  - exists [e_h; e_f]. split; [exact e_leads_f|reflexivity].
Qed.

Lemma dotdot_after_link :
  exists al R D n1 n2 l, tree_ok (tree_of al) /\ Forall proper R /\ leads (tree_of al) true (path_of R) D /\
    means n1 l /\ means n2 l /\
    (exists r1 r2, r1 <> r2 /\ kreach (tree_of al) true D (split_sep n1) r1 /\ leads (tree_of al) true (path_of (R ++ l)) r2) /\
    (forall fl r, ~ kreach (tree_of al) fl D (split_sep n2) r).
Proof.
  exists e_tree, [e_h], [e_h], [108; 47; 46; 46; 47; 102]%N, [109; 47; 46; 46; 47; 102]%N, [e_f].
  split; [exact e_ok|]. split; [constructor; [isp|constructor]|]. split; [exact e_root|].
  split; [apply means_comps; split; [reflexivity|split; [reflexivity|constructor; [isp|constructor]]]|].
  split; [apply means_comps; split; [reflexivity|split; [reflexivity|constructor; [isp|constructor]]]|].
  split.
  - exists [e_o; e_f], [e_h; e_f]. split; [discriminate|]. split; [|exact e_leads_f].
    change (split_sep [108; 47; 46; 46; 47; 102]%N) with [e_l; [dot; dot]; e_f].
    eapply kr_link; [isp|reflexivity|reflexivity|left; discriminate|].
    change (kreach (tree_of e_tree) true [] ([] :: [e_o; e_d; [dot; dot]; e_f]) [e_o; e_f]).
    apply kr_skip; [left; reflexivity|reflexivity|]. eapply kr_down; [isp|reflexivity|reflexivity|discriminate|].
    eapply kr_down; [isp|reflexivity|reflexivity|discriminate|]. apply kr_up; [reflexivity|].
    eapply kr_down; [isp|reflexivity|reflexivity|discriminate|]. constructor.
  - intros fl r H. change (split_sep [109; 47; 46; 46; 47; 102]%N) with [e_m; [dot; dot]; e_f] in H. inversion H; subst; noway.
Qed.
