From Verif Require Import Common CommonLemmas ContentRange_Model PathLex_Model PathLex_Proofs Utf8_Model Views_Model Views_Spec IoBridge_Model IoBridge_Spec IoBridge_Proofs MemBuf_Model AferoIo_Model AferoIo_Spec.
Open Scope Z_scope.

Lemma normal_head root l c r : normal root (c :: l) -> c = sep :: r -> False.
Proof. intros H ->. apply normal_sepfree in H. apply Forall_inv in H. apply H. left. reflexivity. Qed.

Lemma to_fs_exact p : p <> [] ->
  to_fs_path p = match elems p with [] => if rooted p then [] else [dot] | l => join_sep l end.
Proof.
  intros Hp. destruct p as [|b p]; [congruence|]. unfold to_fs_path. rewrite trim_clean. set (q := b :: p). unfold elems.
  pose proof (clean_normal q) as Hn. unfold clean. set (l := clean_comps (rooted q) (split_sep q)) in *.
  destruct (rooted q) eqn:Er; unfold render.
  - cbn [cut_sep]. rewrite N.eqb_refl. destruct l; reflexivity.
  - destruct l as [|c l]; [reflexivity|]. pose proof (rooted_render false (c :: l) Hn) as Hr. unfold render in Hr. destruct (join_sep (c :: l)) as [|x y]; [reflexivity|]. cbn in Hr |- *. rewrite Hr. reflexivity.
Qed.

Lemma normal_false root l : normal root l -> normal false l.
Proof. intros (k & r & -> & Hr & _). exists k, r. split; [reflexivity|]. split; [exact Hr|discriminate]. Qed.
Lemma join_not_rooted l : normal false l -> l <> [] -> rooted (join_sep l) = false /\ elems (join_sep l) = l.
Proof.
  intros Hn Hl. assert (rooted (join_sep l) = false) as Hr by (pose proof (rooted_render false l Hn) as Hr; unfold render in Hr; destruct l; [congruence|exact Hr]).
  split; [exact Hr|]. unfold elems. rewrite Hr, split_join; [|exact Hl|exact (normal_sepfree false l Hn)]. exact (clean_comps_fix false l Hn).
Qed.

(* The result names the same elements, without the leading slash. *)
Lemma to_fs_elems p : elems p <> [] -> rooted (to_fs_path p) = false /\ elems (to_fs_path p) = elems p.
Proof.
  intros Hl. destruct p as [|b p]; [destruct (Hl eq_refl)|]. rewrite (to_fs_exact (b :: p)) by discriminate. destruct (elems (b :: p)) as [|c l] eqn:E; [congruence|]. rewrite <- E in *.
  apply join_not_rooted; [|rewrite E; discriminate]. exact (normal_false _ _ (clean_normal (b :: p))).
Qed.
Lemma to_fs_idem p : to_fs_path (to_fs_path p) = to_fs_path p.
Proof.
  destruct p as [|b p]; [reflexivity|]. rewrite (to_fs_exact (b :: p)) by discriminate. destruct (elems (b :: p)) as [|c l] eqn:E.
  - destruct (rooted (b :: p)); reflexivity.
  - rewrite <- E. pose proof (normal_false _ _ (clean_normal (b :: p))) as Hn. change (clean_comps (rooted (b :: p)) (split_sep (b :: p))) with (elems (b :: p)) in Hn.
    destruct (join_not_rooted _ Hn ltac:(rewrite E; discriminate)) as (Hr & He). rewrite (to_fs_exact (join_sep (elems (b :: p)))).
    + rewrite He, E. reflexivity.
    + intros Hx. rewrite Hx in He. rewrite E in He. discriminate.
Qed.
Lemma to_fs_valid p : valid_text p -> p <> [] -> Forall proper (elems p) -> ~ (rooted p = true /\ elems p = []) -> valid_name (to_fs_path p).
Proof.
  intros Ht Hp Hf Hno. rewrite (to_fs_exact p Hp). destruct (elems p) as [|c l] eqn:E.
  - destruct (rooted p); [destruct Hno; auto|]. split; [exact dot_text|left; reflexivity].
  - rewrite <- E in *. split; [apply text_join, elems_text; exact Ht|]. right. exists (elems p). split; [rewrite E; discriminate|]. auto.
Qed.
(* And only then. *)
Lemma to_fs_valid_only p : valid_name (to_fs_path p) -> p <> [] /\ Forall proper (elems p) /\ ~ (rooted p = true /\ elems p = []).
Proof.
  intros (Ht & Hv). destruct p as [|b p].
  { exfalso. cbn in Hv. destruct Hv as [Hv|(l & Hl & Hf & Hv)]; [discriminate|]. destruct l as [|x l]; [congruence|]. apply Forall_inv in Hf. destruct Hf as (Hf & _). destruct l; cbn in Hv; [congruence|]. destruct x; discriminate. }
  split; [discriminate|]. set (q := b :: p) in *. assert (q <> []) as Hq by discriminate. rewrite (to_fs_exact q Hq) in Hv.
  assert (forall l, l <> [] -> Forall proper l -> join_sep l <> []) as Hne.
  { intros l Hl Hf Hx. destruct l as [|x l]; [congruence|]. apply Forall_inv in Hf. destruct Hf as (Hf & _). destruct l; cbn in Hx; [congruence|]. destruct x; discriminate. }
  destruct (elems q) as [|c l] eqn:E.
  - split; [constructor|]. intros (Hr & _). rewrite Hr in Hv. destruct Hv as [Hv|(l & Hl & Hf & Hv)]; [discriminate|]. exact (Hne l Hl Hf (eq_sym Hv)).
  - rewrite <- E in *. pose proof (clean_normal q) as Hn0. change (clean_comps (rooted q) (split_sep q)) with (elems q) in Hn0. apply normal_false in Hn0. split; [|intros (_ & Hx); rewrite E in Hx; discriminate].
    destruct (join_not_rooted _ Hn0 ltac:(rewrite E; discriminate)) as (Hr & He). destruct Hv as [Hv|(k & Hk & Hf & Hv)].
    + exfalso. rewrite Hv in He. rewrite E in He. discriminate.
    + assert (normal false k) as Hnk by (exists 0%nat, k; split; [reflexivity|]; split; [exact Hf|reflexivity]). destruct (join_not_rooted k Hnk Hk) as (_ & Hek). rewrite <- Hv, He in Hek. rewrite Hek. exact Hf.
Qed.

Lemma valid_path_spec c : renamed c (valid_path_call c) /\ names (valid_path_call c) = map to_fs_path (names c).
Proof. destruct c; split; reflexivity. Qed.

(* ---- the io/fs adapter ---- *)

Lemma lor_zero a b c : Z.land a (Z.lor b c) = 0 <-> Z.land a b = 0 /\ Z.land a c = 0.
Proof. rewrite Z.land_lor_distr_r. apply Z.lor_eq_0_iff. Qed.
Lemma adapter_spec fl c :
  (writes_fs fl c -> adapter_call fl c = AROFS) /\
  (~ writes_fs fl c -> match c with
                       | A1 AStat n => adapter_call fl c = AAsk IStat n
                       | A1 _ n => (valid_name n -> adapter_call fl c = AAsk IOpen n) /\ (~ valid_name n -> adapter_call fl c = AInvalid)
                       | _ => adapter_call fl c = AOwn
                       end).
Proof.
  assert (forall n, (valid_name n -> ad_open n = AAsk IOpen n) /\ (~ valid_name n -> ad_open n = AInvalid)) as Ho.
  { intros n. unfold ad_open. pose proof (fs_valid_spec n) as Hv. split; intros H.
    - rewrite (proj2 Hv H). reflexivity.
    - destruct (fs_valid_path n); [destruct H; apply Hv; reflexivity|reflexivity]. }
  destruct c as [o n|a b|]; cbn [adapter_call writes_fs].
  - destruct o as [| | | |flag| | | | | |]; (split; [intros H; try (destruct H; fail); try reflexivity|intros H; try (destruct (H I)); try apply Ho]).
    + destruct (Z.land flag _ =? 0) eqn:E; [|reflexivity]. exfalso. apply Z.eqb_eq in E. rewrite !lor_zero in E. tauto.
    + destruct (Z.land flag _ =? 0) eqn:E; [apply Ho|]. exfalso. apply Z.eqb_neq in E. apply E. rewrite !lor_zero. destruct (Z.eq_dec (Z.land flag (f_wronly fl)) 0), (Z.eq_dec (Z.land flag (f_rdwr fl)) 0), (Z.eq_dec (Z.land flag (f_append fl)) 0), (Z.eq_dec (Z.land flag (f_create fl)) 0), (Z.eq_dec (Z.land flag (f_trunc fl)) 0); tauto.
    + reflexivity.
  - split; [reflexivity|intros H; destruct (H I)].
  - split; [intros []|reflexivity].
Qed.

Lemma file_never_writes readonly m o o' : adapter_file readonly m o = Does o' -> ~ writes_file o' /\ ~ writes_file o.
Proof. destruct o, m as [[] [] [] [] [] [] [] [] [] []]; cbn; intros H; try discriminate; injection H as <-; cbn; tauto. Qed.
Lemma file_refuses readonly m o : writes_file o -> adapter_file readonly m o = FROFS.
Proof. destruct o; intros []; reflexivity. Qed.

(* ---- the history ---- *)

Lemma set_is_fill l : forall i v, set_nth l i v = fill l (i, v).
Proof. unfold fill. cbn [fst snd]. induction l as [|x l IH]; intros [|i] v; cbn; try reflexivity. rewrite IH. reflexivity. Qed.
Lemma put_fill s f : bufs (put_bytes s (fst f) (snd f)) = fill (bufs s) f.
Proof. cbn. rewrite set_is_fill. destruct f; reflexivity. Qed.
Lemma fills_spec fs : forall s, let s' := fold_left (fun s f => put_bytes s (fst f) (snd f)) fs s in bufs s' = fold_left fill fs (bufs s) /\ hist s' = hist s.
Proof. induction fs as [|f fs IH]; intros s; [split; reflexivity|]. cbn [fold_left]. destruct (IH (put_bytes s (fst f) (snd f))) as (H1 & H2). rewrite H1, H2, put_fill. split; reflexivity. Qed.

Lemma observe_hist es : forall s, hist (observe_all s es) = hist s ++ calls_of es.
Proof.
  induction es as [|e es IH]; intros s; [cbn; rewrite app_nil_r; reflexivity|]. change (observe_all s (e :: es)) with (observe_all (observe s e) es). rewrite IH. destruct e as [isfs m args fs res|i v]; cbn [observe calls_of].
  - destruct (fills_spec fs (record_op s isfs true m args)) as (_ & H). unfold record_op at 1. cbn [hist]. rewrite H. cbn [record_op hist]. rewrite <- !app_assoc. reflexivity.
  - reflexivity.
Qed.

Lemma nth_fill b f i : i <> fst f -> nth i (fill b f) [] = nth i b [].
Proof.
  destruct f as (j, v). cbn [fst]. rewrite <- set_is_fill. revert i j. induction b as [|x b IH]; intros i j Hi; [reflexivity|]. destruct j as [|j], i as [|i]; cbn; try reflexivity; [congruence|]. apply IH. congruence.
Qed.
Lemma nth_fills fs : forall b i, (forall f, In f fs -> i <> fst f) -> nth i (fold_left fill fs b) [] = nth i b [].
Proof. induction fs as [|f fs IH]; intros b i H; [reflexivity|]. cbn [fold_left]. rewrite IH by (intros g Hg; apply H; right; exact Hg). apply nth_fill. apply H. left. reflexivity. Qed.

Definition line_of (b : list (list byte)) (e : entry) : line := (r_fs e, r_before e, r_method e, map (look b) (r_args e)).
Lemma look_same b b' args : (forall i, mentions i args -> nth i b' [] = nth i b []) -> map (look b') args = map (look b) args.
Proof. intros H. apply map_ext_in. intros [i|v] Hin; [|reflexivity]. cbn. rewrite (H i Hin). reflexivity. Qed.

Lemma observe_shown es : forall s (seen : nat -> Prop), untouched seen es -> (forall e i, In e (hist s) -> mentions i (r_args e) -> seen i) ->
  shows_history (observe_all s es) = shows_history s ++ ideal (bufs s) es.
Proof.
  induction es as [|e es IH]; intros s seen Hu Hs; [cbn; rewrite app_nil_r; reflexivity|]. change (observe_all s (e :: es)) with (observe_all (observe s e) es).
  destruct e as [isfs m args fs res|j v].
  - cbn [untouched] in Hu. destruct Hu as (Hf & Hu). destruct (fills_spec fs (record_op s isfs true m args)) as (Hb & Hh).
    set (s' := observe s (ECall isfs m args fs res)).
    assert (bufs s' = fold_left fill fs (bufs s)) as Hb' by exact Hb.
    assert (hist s' = hist s ++ [{| r_fs := isfs; r_before := true; r_method := m; r_args := args |}; {| r_fs := isfs; r_before := false; r_method := m; r_args := res |}]) as Hh'.
    { unfold s'. cbn [observe]. unfold record_op at 1. cbn [hist]. rewrite Hh. cbn [record_op hist]. rewrite <- app_assoc. reflexivity. }
    rewrite (IH s' _ Hu).
    + cbn [ideal]. rewrite Hb'. unfold shows_history. rewrite Hh', Hb', map_app, <- app_assoc. cbn [map r_fs r_before r_method r_args app].
      f_equal; [|f_equal; f_equal; apply look_same; intros i Hi; apply nth_fills; intros f Hin E; subst i; exact (proj2 (Hf f Hin) Hi)].
      apply map_ext_in. intros e He. f_equal. apply look_same. intros i Hi. apply nth_fills. intros f Hin E. subst i. exact (proj1 (Hf f Hin) (Hs e _ He Hi)).
    + intros e i He Hi. rewrite Hh' in He. apply in_app_iff in He. destruct He as [He|[<-|[<-|[]]]]; [left; exact (Hs e i He Hi)|right; left; exact Hi|right; right; exact Hi].
  - cbn [untouched] in Hu. destruct Hu as (Hj & Hu). rewrite (IH (observe s (ECaller j v)) seen Hu Hs). pose proof (put_fill s (j, v)) as Hp. cbn [fst snd] in Hp. cbn [ideal observe]. rewrite Hp. f_equal.
    unfold shows_history. rewrite Hp. apply map_ext_in. intros e He. f_equal. apply look_same. intros i Hi. apply nth_fill. cbn [fst]. intros ->. exact (Hj (Hs e _ He Hi)).
Qed.

Lemma fsfile_answered readonly m o : answered readonly m o (fsfile_call readonly m o).
Proof.
  unfold answered, fsfile_call, op_readdirnames, op_writestring, guarded.
  destruct o; cbn [has stand_in writes_file]; destruct readonly;
    repeat match goal with |- context [if ?b then _ else _] => let E := fresh "E" in destruct b eqn:E end;
    (split; [|split; [|split; [|intros o']]]); split;
    try discriminate; try tauto; try reflexivity;
    try (intros [? ?]; first [discriminate|contradiction]);
    try (intros _; repeat split; first [discriminate|tauto|(intros o' X; inversion X; subst; cbn [has]; assumption)]);
    try (intros (H1 & H2 & H3 & H4); exfalso; first [congruence|tauto|(specialize (H4 _ eq_refl); cbn [has] in H4; congruence)]);
    try (intros X; inversion X; subst o'; split; [|first [left; split; [first [reflexivity|assumption]|reflexivity]|right; repeat split; assumption]]; first [tauto|intros [Y ?]; discriminate Y]);
    try (intros [H1 [[H2 H3]|(H2 & H3 & H4)]]; first [congruence|tauto|(inversion H3; subst o'; cbn [has] in H4; congruence)]).
  all: intros _; split; [discriminate|]; split; [intros [Y ?]; first [discriminate Y|contradiction]|]; split; [first [reflexivity|assumption]|]; intros o' X; first [discriminate X|inversion X; subst; cbn [has]; assumption].
Qed.
