(* Proofs about overlays as one plain tree. *)
From Verif Require Import Common CommonLemmas ContentRange_Model Overlay_Model Overlay_Spec Overlay_Proofs OverlayOps_Proofs OverlayGrow_Proofs OverlayNew_Proofs OverlayRename_Proofs OverlayCalls_Proofs OverlayWorks_Proofs OverlayErr_Spec OverlayErr_Proofs OverlayPlain_Spec.
Open Scope nat_scope.

(* --- the plain tree --- *)
Lemma same_eq p q : same p q = true <-> p = q.
Proof. unfold same. destruct (list_eq_dec (list_eq_dec N.eq_dec) p q); split; congruence. Qed.
Lemma same_path p q : same p q = path_eqb p q.
Proof.
  destruct (path_eqb p q) eqn:E; [apply path_eqb_eq in E; apply same_eq, E|]. apply path_eqb_neq in E. destruct (same p q) eqn:S; [|reflexivity]. apply same_eq in S. contradiction.
Qed.
Lemma same_refl p : same p p = true.
Proof. apply same_eq. reflexivity. Qed.
Lemma same_neq p q : p <> q -> same p q = false.
Proof. rewrite same_path. apply path_eqb_neq. Qed.
Lemma inside_within p q : inside p q = within p q.
Proof. induction q as [|c q IH]; cbn [inside within]; rewrite same_path; [reflexivity|]. rewrite IH. reflexivity. Qed.
Lemma inside_under p q : inside p q = true <-> under p q.
Proof. rewrite inside_within. apply within_under. Qed.
Lemma inside_not p q : inside p q = false <-> ~ under p q.
Proof. rewrite inside_within. apply within_false. Qed.

Lemma pat_put t p x q : p <> [] -> pat (put t p x) q = if same q p then Some x else pat t q.
Proof. intros Hp. destruct q as [|c q]; cbn [pat put find fst]; [rewrite same_neq by congruence; reflexivity|]. destruct (same (c :: q) p); reflexivity. Qed.
Lemma find_drop t p q : find (fun e : path * thing => same q (fst e)) (drop t p) = if inside p q then None else find (fun e => same q (fst e)) t.
Proof.
  unfold drop. induction t as [|[r x] t IH]; cbn [filter find fst]; [destruct (inside p q); reflexivity|]. destruct (inside p r) eqn:Er; cbn [negb find fst].
  - rewrite IH. destruct (same q r) eqn:E; [apply same_eq in E; subst r; rewrite Er; reflexivity|reflexivity].
  - destruct (same q r) eqn:E; [apply same_eq in E; subst r; rewrite Er; reflexivity|exact IH].
Qed.
Lemma pat_drop t p q : p <> [] -> pat (drop t p) q = if inside p q then None else pat t q.
Proof.
  intros Hp. destruct q as [|c q].
  - cbn [pat]. destruct (inside p []) eqn:E; [|reflexivity]. apply inside_under, under_nil_r in E. contradiction.
  - unfold pat. rewrite find_drop. destruct (inside p (c :: q)); reflexivity.
Qed.
Lemma moved_under o n q : under o q -> under n (moved o n q).
Proof. exact (rebase_under o n q). Qed.
Lemma moved_back o n q : under o q -> moved n o (moved o n q) = q.
Proof. exact (rebase_back o n q). Qed.
Lemma moved_self o n : moved o n o = n.
Proof. exact (rebase_self o n). Qed.
Lemma find_moved t o n q : find (fun e : path * thing => same q (fst e)) (map (fun e => (moved o n (fst e), snd e)) (filter (fun e => inside o (fst e)) t)) =
  if inside n q then option_map (fun e => (moved o n (fst e), snd e)) (find (fun e => same (moved n o q) (fst e)) t) else None.
Proof.
  induction t as [|[r x] t IH]; cbn [filter map find fst snd option_map]; [destruct (inside n q); reflexivity|]. destruct (inside o r) eqn:Er; cbn [map find fst snd].
  - destruct (same q (moved o n r)) eqn:E.
    + apply same_eq in E. subst q. apply inside_under in Er. assert (U := moved_under o n r Er). apply inside_under in U. rewrite U.
      rewrite (moved_back o n r Er), same_refl. reflexivity.
    + rewrite IH. destruct (inside n q) eqn:En; [|reflexivity]. destruct (same (moved n o q) r) eqn:E2; [|reflexivity]. exfalso. apply same_eq in E2. subst r.
      apply inside_under in En. rewrite (moved_back n o q En), same_refl in E. discriminate.
  - rewrite IH. destruct (inside n q) eqn:En; [|reflexivity]. destruct (same (moved n o q) r) eqn:E2; [|reflexivity]. exfalso. apply same_eq in E2. subst r.
    apply inside_under in En. assert (U := moved_under n o q En). apply inside_under in U. congruence.
Qed.
Lemma find_app' {A} (f : A -> bool) l l' : find f (l ++ l') = match find f l with Some x => Some x | None => find f l' end.
Proof. induction l as [|x l IH]; cbn [app find]; [reflexivity|]. destruct (f x); auto. Qed.
Lemma pat_move t o n q : o <> [] -> n <> [] -> pat (move t o n) q = if inside n q then pat t (moved n o q) else if inside o q then None else pat t q.
Proof.
  intros Ho Hn. destruct q as [|c q].
  - cbn [pat]. destruct (inside n []) eqn:E; [apply inside_under, under_nil_r in E; contradiction|]. destruct (inside o []) eqn:E2; [apply inside_under, under_nil_r in E2; contradiction|reflexivity].
  - unfold pat at 1. unfold move. rewrite find_app', find_moved, !find_drop. destruct (inside n (c :: q)) eqn:E.
    + destruct (moved n o (c :: q)) as [|c' q'] eqn:M; [unfold moved in M; apply app_eq_nil in M; tauto|]. cbn [pat]. destruct (find _ t); reflexivity.
    + destruct (inside o (c :: q)); reflexivity.
Qed.
Lemma childless_spec t p : childless t p = true <-> forall c, pat t (c :: p) = None.
Proof.
  unfold childless. rewrite forallb_forall. split.
  - intros H c. cbn [pat]. destruct (find _ t) as [[r x]|] eqn:F; [|reflexivity]. apply find_some in F as [I F]. apply same_eq in F. cbn [fst] in F. subst r. specialize (H _ I). cbn [fst] in H.
    rewrite same_refl in H. discriminate.
  - intros H [r x] I. cbn [fst]. destruct r as [|c q]; [reflexivity|]. destruct (same p q) eqn:E; [|reflexivity]. apply same_eq in E. subst q. specialize (H c). cbn [pat] in H.
    destruct (find (fun e : path * thing => same (c :: p) (fst e)) t) eqn:F; [discriminate|]. assert (N := find_none _ _ F _ I). cbn [fst] in N. rewrite same_refl in N. discriminate.
Qed.
Lemma in_chain p a : In a (chain p) <-> a <> [] /\ under a p.
Proof.
  induction p as [|c p IH]; cbn [chain In].
  - split; [tauto|]. intros [H U]. apply under_nil_r in U. contradiction.
  - rewrite IH. split.
    + intros [<- |[H U]]; [split; [discriminate|apply under_refl]|split; [exact H|apply under_cons, U]].
    + intros [H U]. apply under_inv in U. destruct U as [-> |U]; auto.
Qed.
Lemma pat_dirs t l q : (forall a, In a l -> a <> []) -> pat (map (fun a => (a, TDir)) l ++ t) q = if existsb (same q) l then Some TDir else pat t q.
Proof.
  intros H. destruct q as [|c q].
  - cbn [pat]. destruct (existsb (same []) l); reflexivity.
  - cbn [pat]. rewrite find_app'. induction l as [|a l IH]; cbn [map find fst existsb]; [reflexivity|]. destruct (same (c :: q) a); [reflexivity|]. cbn [orb]. apply IH. intros b Hb. apply H. right. exact Hb.
Qed.

(* --- what is shown --- *)
Lemma shows_view s t p : shows s t -> pat t p = option_map (fun e => shape (snd e)) (view s 0 p).
Proof. intros S. rewrite <- (S p). unfold visible. destruct (view s 0 p) as [[j n]|]; reflexivity. Qed.
Lemma shows_missing s t p : shows s t -> missing s p <-> pat t p = None.
Proof. intros S. rewrite (shows_view s t p S). unfold missing. destruct (view s 0 p); cbn; split; congruence. Qed.
Lemma shows_shown s t p : shows s t -> shown s p <-> pat t p <> None.
Proof. intros S. rewrite (shows_view s t p S). unfold shown. destruct (view s 0 p); cbn; split; congruence. Qed.
Lemma shows_dir s t p : shows s t -> visible_dir s p <-> pat t p = Some TDir.
Proof.
  intros S. rewrite vd_view, (shows_view s t p S). split.
  - intros [j [m E]]. rewrite E. reflexivity.
  - destruct (view s 0 p) as [[j [m|m d|g|m]]|]; cbn; try discriminate. eauto.
Qed.
Lemma shows_other s t p : shows s t -> other s p <-> exists x, pat t p = Some x /\ x <> TDir.
Proof.
  intros S. rewrite other_view, (shows_view s t p S). split.
  - intros [j [n [E D]]]. rewrite E. cbn. exists (shape n). split; [reflexivity|]. destruct n; cbn in *; discriminate.
  - intros [x [E X]]. destruct (view s 0 p) as [[j n]|]; cbn in E; [|discriminate]. exists j, n. split; [reflexivity|]. destruct n; cbn in *; try reflexivity. congruence.
Qed.
Lemma shows_full s t p : shows s t -> full s p <-> childless t p = false.
Proof.
  intros S. destruct (childless t p) eqn:C.
  - split; [|discriminate]. intros [c H]. apply (shows_shown s t _ S) in H. apply childless_spec with (c := c) in C. contradiction.
  - split; [auto|]. intros _. unfold childless in C. assert (X : existsb (fun e : path * thing => match fst e with [] => false | _ :: q => same p q end) t = true).
    { clear S. induction t as [|[r x] t IH]; cbn [forallb existsb fst] in *; [discriminate|]. destruct r as [|c q]; [exact (IH C)|]. destruct (same p q); [reflexivity|exact (IH C)]. }
    apply existsb_exists in X. destruct X as [[r x] [I X]]. cbn [fst] in X. destruct r as [|c q]; [discriminate|]. apply same_eq in X. subst q. exists c.
    apply (shows_shown s t _ S). cbn [pat]. destruct (find (fun e : path * thing => same (c :: p) (fst e)) t) eqn:F; [discriminate|]. assert (N := find_none _ _ F _ I). cbn [fst] in N. rewrite same_refl in N. discriminate.
Qed.
Lemma shows_link s t p : shows s t -> is_link (pat t p) = false -> ~ symbolic s p.
Proof. intros S L [g E]. rewrite <- (S p), E in L. discriminate. Qed.
Lemma shows_nil s t : shows s t -> wf s -> visible_dir s [].
Proof. intros S W. apply (shows_dir s t [] S). reflexivity. Qed.
Lemma tdir_true t p : is_tdir (pat t p) = true <-> pat t p = Some TDir.
Proof. destruct (pat t p) as [[]|]; cbn; split; congruence. Qed.

(* Some tree is shown by every stack. *)
Lemma view_at ls p j n : view ls 0 p = Some (j, n) -> at_ ls j p = Some n.
Proof. unfold view. destruct (find _ _) as [k|]; [|discriminate]. destruct (at_ ls k p) eqn:E; [|discriminate]. intros H. inversion H; subst. exact E. Qed.
Definition all_paths (s : stack) : list path := flat_map (fun l => map fst (l_tree l)) s.
Definition seen (s : stack) : ptree := flat_map (fun p => match view s 0 p with Some (_, n) => [(p, shape n)] | None => [] end) (all_paths s).
Lemma tget_in t p n : tget t p = Some n -> In p (map fst t).
Proof. induction t as [|[q x] t IH]; cbn [tget map In fst]; [discriminate|]. destruct (path_eqb p q) eqn:E; [apply path_eqb_eq in E; auto|auto]. Qed.
Lemma seen_shows s : wf s -> shows s (seen s).
Proof.
  intros W p. unfold visible. destruct p as [|c p].
  - destruct (view_root s 0 (wf_len s W)) as [m E]. rewrite E. reflexivity.
  - cbn [pat]. destruct (find (fun e : path * thing => same (c :: p) (fst e)) (seen s)) as [[r x]|] eqn:F.
    + apply find_some in F as [I F]. cbn [fst] in F. apply same_eq in F. subst r. unfold seen in I. apply in_flat_map in I. destruct I as [q [_ I]].
      destruct (view s 0 q) as [[j n]|] eqn:V; [|contradiction]. destruct I as [I|[]]. inversion I; subst. rewrite V. reflexivity.
    + destruct (view s 0 (c :: p)) as [[j n]|] eqn:V; [|reflexivity]. exfalso.
      assert (I : In (c :: p, shape n) (seen s)).
      { unfold seen. apply in_flat_map. exists (c :: p). split; [|rewrite V; left; reflexivity]. assert (A := view_at s _ _ _ V). unfold at_ in A. destruct (nth_error s j) as [l|] eqn:L; [|discriminate].
        unfold all_paths. apply in_flat_map. exists l. split; [exact (nth_error_In _ _ L)|exact (tget_in _ _ _ A)]. }
      assert (N := find_none _ _ F _ I). cbn [fst] in N. rewrite same_refl in N. discriminate.
Qed.

(* --- the same tree, but for copies --- *)
Lemma stands_shape n x : stands_for n x -> shape x = shape n.
Proof.
  destruct n, x; cbn; try contradiction; try discriminate; try reflexivity; try congruence. intros H. inversion H; subst. f_equal. unfold perm. rewrite <- N.land_assoc. reflexivity.
Qed.
Definition seen_at (e : option (nat * node)) : option thing := option_map (fun e => shape (snd e)) e.
Lemma as_copied_seen e e' : as_copied e e' -> seen_at e' = seen_at e.
Proof. intros [-> |[j [n [x [-> [-> S]]]]]]; [reflexivity|]. cbn. rewrite (stands_shape _ _ S). reflexivity. Qed.
Lemma copied_seen W s s' q : copied_one W s s' q -> seen_at (view s' 0 q) = seen_at (view s 0 q).
Proof. intros [-> |[_ C]]; [reflexivity|exact (as_copied_seen _ _ C)]. Qed.
Lemma shows_at s t p : shows s t -> seen_at (view s 0 p) = pat t p.
Proof. intros S. rewrite (shows_view s t p S). reflexivity. Qed.
Lemma shows_by s t : (forall p, seen_at (view s 0 p) = pat t p) -> shows s t.
Proof. intros H p. rewrite <- (H p). unfold visible. destruct (view s 0 p) as [[j n]|]; reflexivity. Qed.
Lemma copied_shows W s s' t : shows s t -> copied_on W s s' -> shows s' t.
Proof. intros S C. apply shows_by. intros p. rewrite (copied_seen W s s' p (C p)). exact (shows_at s t p S). Qed.
Lemma made_shows W p x s s' t : p <> [] -> shows s t -> made W p x s s' -> shows s' (put t p (shape x)).
Proof.
  intros Hp S [V C]. apply shows_by. intros q. rewrite pat_put by exact Hp. destruct (same q p) eqn:E.
  - apply same_eq in E. subst q. rewrite V. reflexivity.
  - rewrite (copied_seen W s s' q); [exact (shows_at s t q S)|]. apply C. intros ->. rewrite same_refl in E. discriminate.
Qed.
Lemma gone_shows p s s' t : p <> [] -> shows s t -> gone p s s' -> shows s' (drop t p).
Proof.
  intros Hp S G. apply shows_by. intros q. rewrite (G q), pat_drop, inside_within by exact Hp. destruct (within p q); [reflexivity|exact (shows_at s t q S)].
Qed.
Lemma taken_shows W o n s s' t : o <> [] -> n <> [] -> shows s t -> taken W o n s s' -> shows s' (move t o n).
Proof.
  intros Ho Hn S [T1 [_ [T2 [T3 [_ T4]]]]]. apply shows_by. intros q. rewrite pat_move by assumption. destruct (inside n q) eqn:En.
  - apply inside_under in En. destruct (path_dec q n) as [-> |Hq].
    + rewrite (as_copied_seen _ _ T1). rewrite moved_self. exact (shows_at s t o S).
    + assert (St : strictly_under n q) by (apply strictly_under_iff; split; [exact En|congruence]). rewrite (T2 q St). exact (shows_at s t (moved n o q) S).
  - apply inside_not in En. destruct (inside o q) eqn:Eo.
    + apply inside_under in Eo. rewrite (T3 q Eo). reflexivity.
    + apply inside_not in Eo. rewrite (copied_seen W s s' q (T4 q Eo En)). exact (shows_at s t q S).
Qed.

(* --- the names are in order --- *)
Lemma way_straight s t p : inv s -> shows s t -> way t p -> low_way (tl s) p -> straight s p.
Proof.
  intros I S F L i b g Hb E. destruct i as [|i].
  - assert (V := view_top s b _ (proj1 I) E). specialize (F b Hb). rewrite (shows_view s t b S), V in F. discriminate.
  - unfold at_ in E. destruct s as [|l0 s]; [destruct i; discriminate|]. cbn [nth_error tl] in *. destruct (nth_error s i) as [l|] eqn:N; [|discriminate].
    exact (L b l g Hb (nth_error_In _ _ N) E).
Qed.
Lemma names_straight s t a p : inv s -> shows s t -> fit t a -> lows_clear (tl s) a -> In p (names a) -> straight s p.
Proof. intros I S [F _] L Hp. exact (way_straight s t p I S (F p Hp) (L p Hp)). Qed.
Lemma steady_answers be s p : steady be -> answers be s p.
Proof. intros H i a _ _. apply H. Qed.
Lemma names_reached be s t a p : steady be -> inv s -> shows s t -> fit t a -> lows_clear (tl s) a -> In p (names a) -> pat t (tl p) = Some TDir -> reached be s p.
Proof.
  intros B I S F L Hp D. split; [exact (steady_answers be s p B)|]. split; [exact (names_straight s t a p I S F L Hp)|]. intros _. apply (shows_dir s t _ S), D.
Qed.

(* --- answers --- *)
Lemma stuck_lower s t p : shows s t -> stuck s p -> exists m, pat t p = Some (TSpecial m) /\ lower_has (tl s) p (fun n => exists m', n = OSpecial m').
Proof.
  intros S [i [m V]]. exists (N.land m 511). split; [rewrite (shows_view s t p S), V; reflexivity|]. assert (A := view_at s _ _ _ V). unfold at_ in A. destruct s as [|l0 s]; [discriminate|].
  cbn [nth_error tl] in *. destruct (nth_error s i) as [l|] eqn:N; [|discriminate]. exists l, (OSpecial m). split; [exact (nth_error_In _ _ N)|]. split; [exact A|]. eauto.
Qed.
Lemma spans_lower s p : spans s p -> lower_has (tl s) p (fun _ => True).
Proof.
  intros [i [x [A _]]]. unfold at_ in A. destruct s as [|l0 s]; [discriminate|]. cbn [nth_error tl] in *. destruct (nth_error s i) as [l|] eqn:N; [|discriminate].
  exists l, x. split; [exact (nth_error_In _ _ N)|]. auto.
Qed.
Lemma other_case s t p : shows s t -> other s p -> exists x, pat t p = Some x /\ x <> TDir.
Proof. intros S. apply (shows_other s t p S). Qed.

Lemma opens_owed s t p creating excl trunc m e : shows s t -> pat t (tl p) = Some TDir -> is_tspecial (pat t p) = false -> owes s (COpen p creating excl trunc m) e ->
  agrees (opens t p creating excl) e.
Proof.
  intros S D Ns O. unfold opens, under_dir. rewrite D. cbn [is_tdir]. cbn [owes] in O.
  assert (X : stuck s p -> False). { intros K. destruct (stuck_lower s t p S K) as [m' [E _]]. rewrite E in Ns. discriminate. }
  destruct e as [[]|]; try contradiction; cbn [agrees].
  - destruct O as [O [-> ->]]. apply (other_case s t p S) in O. destruct O as [x [-> N]]. destruct x; [congruence|reflexivity|reflexivity|reflexivity].
  - destruct O as [O ->]. apply (shows_missing s t p S) in O. rewrite O. reflexivity.
  - apply (shows_dir s t p S) in O. rewrite O. reflexivity.
  - destruct O as [O _]. destruct (X O).
  - destruct O as [[O ->]|[O [_ E]]]; [apply (shows_missing s t p S) in O; rewrite O; reflexivity|].
    apply (other_case s t p S) in O. destruct O as [x [-> N]]. destruct (creating && excl) eqn:C; [apply andb_true_iff in C; destruct C; exfalso; auto|]. destruct x; [congruence|reflexivity|reflexivity|reflexivity].
Qed.
Lemma parent_root t : pat t (tl []) = Some TDir.
Proof. reflexivity. Qed.
Lemma chain_free s t p : shows s t -> wf s -> (forall a, under a p -> ~ other s a) <->
  forallb (fun a => match pat t a with None | Some TDir => true | _ => false end) (chain p) = true.
Proof.
  intros S W. rewrite forallb_forall. split.
  - intros H a Ha. apply in_chain in Ha. specialize (H a (proj2 Ha)). destruct (pat t a) as [x|] eqn:E; [|reflexivity]. destruct x; try reflexivity; exfalso; apply H, (shows_other s t a S); eexists; (split; [exact E|discriminate]).
  - intros H a Ha O. apply (other_case s t a S) in O. destruct O as [x [E N]]. destruct a as [|c a]; [cbn in E; congruence|]. assert (In (c :: a) (chain p)) as Hc by (apply in_chain; split; [discriminate|exact Ha]).
    specialize (H _ Hc). rewrite E in H. destruct x; congruence.
Qed.

Lemma owed s t c e : wf s -> shows s t -> fit t (DCall c) -> match c with CMkdirAll _ _ => True | _ => forall p, In p (names (DCall c)) -> pat t (tl p) = Some TDir end ->
  owes s c e -> agrees (answer t c) e \/ excused (tl s) t (DCall c) e.
Proof.
  intros W S [_ F] D O. destruct c; cbn [answer names In] in *.
  - (* remove *) specialize (D p (or_introl eq_refl)). unfold under_dir. rewrite D. cbn [is_tdir owes] in *. left. destruct e as [[]|]; try contradiction; cbn [agrees].
    + assert (p <> []) by (intros ->; exact (root_shown s W O)). rewrite same_neq by assumption. apply (shows_missing s t p S) in O. rewrite O. reflexivity.
    + destruct O as [N O]. rewrite same_neq by exact N. assert (C := proj1 (shows_full s t p S) O). apply (full_dir s p W), (shows_dir s t p S) in O. rewrite O, C. reflexivity.
    + subst p. reflexivity.
    + destruct O as [N [O C]]. rewrite same_neq by exact N. apply (shows_shown s t p S) in O. destruct (pat t p); [|congruence]. destruct (childless t p) eqn:E; [reflexivity|]. apply (shows_full s t p S) in E. contradiction.
  - (* remove_all *) specialize (D p (or_introl eq_refl)). rewrite D. cbn [is_tdir owes] in *. left. destruct e as [[]|]; try contradiction; cbn [agrees]; [subst p; reflexivity|]. rewrite same_neq by exact O. reflexivity.
  - (* mkdir *) specialize (D p (or_introl eq_refl)). unfold under_dir. rewrite D. cbn [is_tdir owes] in *. left. destruct e as [[]|]; try contradiction; cbn [agrees].
    + apply (shows_shown s t p S) in O. destruct (pat t p); [reflexivity|congruence].
    + apply (shows_missing s t p S) in O. rewrite O. reflexivity.
  - (* mkdir_all *) left. cbn [owes] in O. destruct e as [[]|]; try contradiction; cbn [agrees].
    + destruct (forallb _ (chain p)) eqn:E; [|reflexivity]. exfalso. destruct O as [a [Ha O]]. exact (proj2 (chain_free s t p S W) E a Ha O).
    + apply (chain_free s t p S W) in O. rewrite O. reflexivity.
  - (* open *) left. specialize (D p (or_introl eq_refl)). exact (opens_owed s t p creating excl trunc m e S D (proj2 F) O).
  - contradiction.
  - (* symlink *) specialize (D p (or_introl eq_refl)). unfold under_dir. rewrite D. cbn [is_tdir owes] in *. left. destruct e as [[]|]; try contradiction; cbn [agrees].
    + apply (shows_shown s t p S) in O. destruct (pat t p); [reflexivity|congruence].
    + apply (shows_missing s t p S) in O. rewrite O. reflexivity.
  - contradiction.
  - (* chmod *) specialize (D p (or_introl eq_refl)). unfold under_dir. rewrite D. cbn [is_tdir owes] in *. destruct e as [[]|]; try contradiction; cbn [agrees].
    + left. apply (shows_missing s t p S) in O. rewrite O. reflexivity.
    + right. exact (stuck_lower s t p S O).
    + left. destruct O as [O _]. apply (shows_shown s t p S) in O. destruct (pat t p); [reflexivity|congruence].
  - (* rename *) clear D F. cbn [owes] in O.
    assert (Mv : moves s o n -> same o [] || same n [] = false /\ (exists x, pat t o = Some x) /\ same o n = false /\ inside o n = false).
    { intros [H1 [H2 [H3 H4]]]. rewrite !same_neq by (assumption || (intros ->; apply H4, under_refl)). split; [reflexivity|]. apply (shows_shown s t o S) in H3.
      split; [destruct (pat t o); [eauto|congruence]|]. split; [reflexivity|apply inside_not, H4]. }
    destruct e as [[]|]; try contradiction; cbn [agrees].
    + left. destruct O as [H1 [H2 H3]]. rewrite !same_neq by assumption. apply (shows_missing s t o S) in H3. rewrite H3. reflexivity.
    + left. destruct O as [M [H1 [_ H2]]]. destruct (Mv M) as [E1 [_ [E2 E3]]]. rewrite E1. apply (shows_dir s t o S) in H1. rewrite H1, E2, E3. apply (other_case s t n S) in H2. destruct H2 as [x [-> N]].
      destruct x; [congruence|reflexivity|reflexivity|reflexivity].
    + left. destruct O as [M [H1 H2]]. destruct (Mv M) as [E1 [_ [E2 E3]]]. rewrite E1. apply (other_case s t o S) in H1. destruct H1 as [x [-> N]]. rewrite E2, E3. apply (shows_dir s t n S) in H2. rewrite H2.
      destruct x; [congruence|reflexivity|reflexivity|reflexivity].
    + left. destruct O as [M [H1 [_ [H2 H3]]]]. destruct (Mv M) as [E1 [_ [E2 E3]]]. rewrite E1. apply (shows_dir s t o S) in H1. apply (shows_dir s t n S) in H2. rewrite H1, E2, E3, H2.
      apply (shows_full s t n S) in H3. rewrite H3. reflexivity.
    + left. destruct (same o [] || same n []) eqn:E0; [reflexivity|]. apply orb_false_iff in E0. destruct E0 as [E1 E2]. destruct O as [-> |[-> |[H1 H2]]]; [rewrite same_refl in E1; discriminate|rewrite same_refl in E2; discriminate|].
      apply strictly_under_iff in H2 as [H3 H4]. apply (shows_shown s t o S) in H1. destruct (pat t o); [|congruence]. rewrite (same_neq o n H4). apply inside_under in H3. rewrite H3. reflexivity.
    + right. destruct O as [M [H1 H2]]. cbn [excused]. split; [apply (shows_dir s t o S), H1|exact (spans_lower s o H2)].
    + right. destruct O as [_ [H1 _]]. exact (stuck_lower s t o S H1).
    + left. destruct O as [[H1 [H2 [-> H3]]]|[M H]].
      * rewrite !same_neq by assumption. apply (shows_shown s t n S) in H3. destruct (pat t n); [|congruence]. rewrite same_refl. reflexivity.
      * destruct (Mv M) as [E1 [[x Ex] [E2 E3]]]. rewrite E1, Ex, E2, E3. destruct H as [[H1 [_ [H2 H3]]]|[H1 [_ H2]]].
        -- apply (shows_dir s t o S) in H1. rewrite H1 in Ex. apply some_inj in Ex. subst x. destruct (pat t n) as [y|] eqn:Ey; [|reflexivity].
           destruct y; try (exfalso; apply H2, (shows_other s t n S); eexists; split; [exact Ey|discriminate]). destruct (childless t n) eqn:C; [reflexivity|]. apply (shows_full s t n S) in C. contradiction.
        -- apply (other_case s t o S) in H1. destruct H1 as [y [Ey N]]. rewrite Ex in Ey. apply some_inj in Ey. subst y. destruct (pat t n) as [y|] eqn:Yn; [|destruct x; try congruence; reflexivity].
           destruct y; [exfalso; apply H2, (shows_dir s t n S), Yn| | |]; destruct x; try congruence; reflexivity.
Qed.

(* --- effects --- *)
Lemma made_same W p x s s' t : shows s t -> pat t p = Some (shape x) -> made W p x s s' -> shows s' t.
Proof.
  intros S E [V C]. apply shows_by. intros q. destruct (path_dec q p) as [-> |N]; [rewrite V, E; reflexivity|]. rewrite (copied_seen W s s' q (C q N)). exact (shows_at s t q S).
Qed.
Lemma shape_perm m d : shape (OFile (perm m) d) = shape (OFile m d).
Proof. cbn. f_equal. unfold perm. rewrite <- N.land_assoc. reflexivity. Qed.
Lemma opened_shows be s t p creating excl trunc m : inv s -> shows s t -> reached be s p -> opens t p creating excl = PDone ->
  err_opt (open_write be p creating excl trunc m s) = None -> shows (end_of (open_write be p creating excl trunc m s)) (opened t p trunc m).
Proof.
  intros I S R A E. assert (U1 := reached_plain be s p R). assert (U2 := reached_tl_plain be s p R). unfold opened. destruct (pat t p) as [x|] eqn:P.
  - assert (V : view s 0 p <> None) by (apply (shows_shown s t p S); rewrite P; discriminate).
    destruct (proj2 (open_tree be p creating excl trunc m s I U1 V) E) as [_ [j [m0 [d [m1 [V1 [Em M]]]]]]]. rewrite (shows_view s t p S), V1 in P. apply some_inj in P. cbn [snd] in P. subst x.
    assert (Np : p <> []) by (intros ->; destruct (view_root s 0 (wf_len s (proj1 I))) as [m' V']; congruence). change (shape (OFile m0 d)) with (TFile (N.land m0 511) d). cbn iota.
    assert (X := made_shows _ p _ s _ t Np S M). replace (TFile (N.land m0 511) (if trunc then 0%N else d)) with (shape (OFile m1 (if trunc then 0%N else d))); [exact X|].
    destruct j; subst m1; [reflexivity|rewrite shape_perm; reflexivity].
  - assert (V := P). apply (shows_missing s t p S) in V. destruct (proj2 (create_tree be p creating excl trunc m s I U1 U2 V) E) as [_ M].
    apply (made_shows _ p _ s _ t) in M; [exact M| |exact S]. intros ->. discriminate.
Qed.
Lemma mkdirs_shows be s t p m : inv s -> shows s t -> clear_way s p -> answer t (CMkdirAll p m) = PDone -> err_opt (mkdir_all be p m s) = None ->
  shows (end_of (mkdir_all be p m s)) (map (fun a => (a, TDir)) (chain p) ++ t).
Proof.
  intros I S C A E. destruct (mkdir_all_tree be p m s I C) as [R D]. specialize (D E). destruct (R _ (reaches_end s _)) as [I' M]. set (s' := end_of (mkdir_all be p m s)) in *.
  apply shows_by. intros q. rewrite pat_dirs by (intros a Ha; apply in_chain in Ha; apply Ha). destruct (existsb (same q) (chain p)) eqn:X.
  - apply existsb_exists in X. destruct X as [a [Ha X]]. apply same_eq in X. subst a. apply in_chain in Ha. destruct (proj1 (vd_view s' q)) as [j [m' V]]; [exact (ancestors_dirs s' p (proj1 I') D q (proj2 Ha))|].
    rewrite V. reflexivity.
  - destruct (M q) as [Q|[_ [N [U _]]]]; [rewrite (as_copied_seen _ _ Q); exact (shows_at s t q S)|]. exfalso. assert (K : In q (chain p)) by (apply in_chain; auto).
    assert (T : existsb (same q) (chain p) = true) by (apply existsb_exists; exists q; split; [exact K|apply same_refl]). congruence.
Qed.
Lemma not_root t p : pat t p = None -> p <> [].
Proof. intros H ->. discriminate. Qed.
Lemma under_dir_done t p a : under_dir t p a = PDone -> a = PDone /\ pat t (tl p) = Some TDir.
Proof. unfold under_dir. destruct (is_tdir (pat t (tl p))) eqn:E; [|discriminate]. apply tdir_true in E. auto. Qed.

Lemma effect_shows be s t c : inv s -> shows s t -> fit t (DCall c) -> usable be s c -> answer t c = PDone -> err_opt (run_call be c s) = None ->
  shows (end_of (run_call be c s)) (effect t c).
Proof.
  intros I S [_ F] U A E. unfold effect. rewrite A. destruct c; cbn [run_call answer usable] in *; try contradiction.
  - apply gone_shows with s; [|exact S|exact (remove_gone be p s (proj1 I) E)]. intros ->. rewrite same_refl in A. discriminate.
  - apply gone_shows with s; [|exact S|exact (remove_all_gone be p s (proj1 I) E)]. intros ->. rewrite same_refl in A. discriminate.
  - apply under_dir_done in A. destruct A as [A _]. destruct (pat t p) eqn:P; [discriminate|].
    destruct (proj2 (mkdir_tree be p m s I (reached_plain _ _ _ U) (reached_tl_plain _ _ _ U)) E) as [_ [M _]]. exact (made_shows _ p _ s _ t (not_root t p P) S M).
  - exact (mkdirs_shows be s t p m I S (straight_way s p (proj2 U)) A E).
  - exact (opened_shows be s t p creating excl trunc m I S (proj1 U) A E).
  - apply under_dir_done in A. destruct A as [A _]. destruct (pat t p) eqn:P; [discriminate|].
    destruct (proj2 (symlink_tree be target p s I (reached_plain _ _ _ U) (reached_tl_plain _ _ _ U)) E) as [_ M]. exact (made_shows _ p _ s _ t (not_root t p P) S M).
  - apply under_dir_done in A. destruct A as [A _]. destruct (proj2 (chmod_tree be p m s I (reached_plain _ _ _ (proj1 U))) E) as [e [x [C M]]].
    assert (P := shows_at s t p S). rewrite <- (as_copied_seen _ _ C) in P. cbn in P. rewrite <- P. rewrite <- P in F. destruct x as [m0|m0 d|g|m0]; cbn [shape chmoded] in *.
    + refine (made_same _ p _ s _ t S _ M). symmetry. exact P.
    + refine (made_shows _ p _ s _ t _ S M). intros ->. discriminate.
    + discriminate.
    + refine (made_shows _ p _ s _ t _ S M). intros ->. discriminate.
  - destruct (same o []) eqn:Eo; [discriminate|]. destruct (same n []) eqn:En; [discriminate|]. assert (No : o <> []) by (intros ->; rewrite same_refl in Eo; discriminate). assert (Nn : n <> []) by (intros ->; rewrite same_refl in En; discriminate).
    destruct U as [Ro Rn]. destruct Rn as [An [Sn Pn]]. assert (Rn : reached be s n) by (split; auto).
    destruct (proj2 (proj2 (proj2 (rename_tree be o n s I (reached_plain _ _ _ Ro) (straight_un _ _ Sn) (reached_tl_plain _ _ _ Rn)))) E) as [[Eq Es]|T].
    + rewrite Es. subst n. rewrite same_refl. exact S.
    + destruct (same o n) eqn:Q; [|exact (taken_shows _ o n s _ t No Nn S T)]. exfalso. apply same_eq in Q. subst n. cbn [orb] in A.
      destruct T as [T1 [_ [_ [T3 _]]]]. rewrite (T3 o (under_refl o)) in T1. assert (P := shows_at s t o S). rewrite <- (as_copied_seen _ _ T1) in P. cbn in P. rewrite <- P in A. discriminate.
Qed.

Lemma usable_deed be s t c : steady be -> inv s -> shows s t -> fit t (DCall c) -> lows_clear (tl s) (DCall c) ->
  match c with CMkdirAll _ _ => True | _ => forall p, In p (names (DCall c)) -> pat t (tl p) = Some TDir end -> usable be s c.
Proof.
  intros B I S F L D. assert (R : forall p, In p (names (DCall c)) -> pat t (tl p) = Some TDir -> reached be s p) by (intros p; exact (names_reached be s t _ p B I S F L)).
  assert (St : forall p, In p (names (DCall c)) -> straight s p) by (intros p; exact (names_straight s t _ p I S F L)).
  destruct F as [_ F]. destruct c; cbn [usable names In] in *; try contradiction; auto.
  - split; [exact (steady_answers be s p B)|]. apply St. auto.
  - split; [apply R; auto|]. split; [exact (shows_link s t p S (proj1 F))|]. intros m' V. assert (F' := proj2 F). rewrite (shows_view s t p S), V in F'. discriminate.
  - split; [apply R; auto|exact (shows_link s t p S F)].
  - split; apply R; auto.
Qed.
Lemma inv_end be s c : inv s -> match c with CLink _ _ => False | _ => True end -> usable be s c -> inv (end_of (run_call be c s)).
Proof.
  intros I Nl U. destruct c; cbn [usable] in U; try contradiction.
  1-8: match goal with |- inv (end_of (run_call _ ?c _)) => refine (proj1 (call_quiet be c s I _ eq_refl _ (reaches_end s _))) end; cbn [proper]; auto.
  - split; [exact (reached_plain _ _ _ U)|exact (reached_tl_plain _ _ _ U)].
  - exact (straight_way s p (proj2 U)).
  - split; [exact (reached_plain _ _ _ (proj1 U))|exact (reached_tl_plain _ _ _ (proj1 U))].
  - split; [exact (reached_plain _ _ _ U)|exact (reached_tl_plain _ _ _ U)].
  - exact (reached_plain _ _ _ (proj1 U)).
  - destruct U as [Ro Rn]. refine (proj1 (rename_quiet be o n s I _)). split; [exact (reached_plain _ _ _ Ro)|]. split; [exact (straight_un _ _ (proj1 (proj2 Rn)))|exact (reached_tl_plain _ _ _ Rn)].
Qed.

(* --- one deed --- *)
Definition stepped (lows : list layer) (t : ptree) (a : deed) (r : stack * option oerr) : Prop :=
  (agrees (deed_answer t a) (snd r) \/ excused lows t a (snd r)) /\ inv (fst r) /\ shows (fst r) (next t a (snd r)) /\ tl (fst r) = lows.
Lemma refused_effect t c x : agrees (answer t c) (Some x) -> effect t c = t.
Proof. unfold effect. destruct (answer t c); cbn; try reflexivity. discriminate. Qed.
Lemma excused_next lows t a e : excused lows t a e -> next t a e = t.
Proof. unfold next. destruct a as [[]|], e as [[]|]; cbn; try contradiction; reflexivity. Qed.
Lemma parents_dec t (l : list path) : (forall p, In p l -> pat t (tl p) = Some TDir) \/ exists p, In p l /\ pat t (tl p) <> Some TDir.
Proof.
  induction l as [|p l [IH|[q [H1 H2]]]]; [left; intros p []| |right; exists q; split; [right; exact H1|exact H2]].
  destruct (is_tdir (pat t (tl p))) eqn:E; [left|right].
  - intros q [<- |H]; [apply tdir_true, E|exact (IH q H)].
  - exists p. split; [left; reflexivity|]. intros H. apply tdir_true in H. congruence.
Qed.
Lemma wandering be s t c p : steady be -> inv s -> shows s t -> fit t (DCall c) -> lows_clear (tl s) (DCall c) -> match c with CMkdirAll _ _ => False | _ => True end ->
  In p (names (DCall c)) -> pat t (tl p) <> Some TDir -> stepped (tl s) t (DCall c) (act be (DCall c) s).
Proof.
  intros B I S F L Nm Hp D. assert (St := names_straight s t _ p I S F L Hp). assert (A := steady_answers be s p B). assert (Np : p <> []) by (intros ->; apply D; reflexivity). destruct p as [|k q]; [congruence|]. cbn [tl] in D.
  assert (Nd : ~ visible_dir s q) by (intros V; apply D, (shows_dir s t q S), V).
  assert (Pq : is_tdir (pat t q) = false) by (destruct (is_tdir (pat t q)) eqn:E; [apply tdir_true in E; contradiction|reflexivity]).
  assert (Go : forall e, run_call be c s = ([], s, e) -> agrees (answer t c) e -> answer t c <> PDone -> stepped (tl s) t (DCall c) (act be (DCall c) s)).
  { intros e E Ag Nd'. unfold stepped, act. rewrite E. unfold end_of, err_opt. cbn [fst snd]. split; [left; exact Ag|]. split; [exact I|]. split; [|reflexivity].
    unfold next. destruct (plain_error e); [|exact S]. cbn [deed_effect]. unfold effect. destruct (answer t c); try exact S. congruence. }
  assert (Ast := astray be s c k q I). destruct F as [_ F]. destruct c; cbn [names In] in Hp; try contradiction; try (destruct Hp as [Hp|[]]; subst p).
  - destruct (Ast eq_refl A St Nd) as [E|E]; refine (Go _ E _ _); cbn [answer]; rewrite same_neq by discriminate; unfold under_dir; cbn [tl]; rewrite Pq; cbn; auto; discriminate.
  - destruct (Ast eq_refl A St Nd) as [E|[E|E]]; refine (Go _ E _ _); cbn [answer]; rewrite same_neq by discriminate; cbn [tl]; rewrite Pq; cbn; auto; discriminate.
  - destruct (Ast eq_refl A St Nd) as [E|E]; refine (Go _ E _ _); cbn [answer]; unfold under_dir; cbn [tl]; rewrite Pq; cbn; auto; discriminate.
  - destruct (Ast eq_refl A St Nd) as [E|E]; refine (Go _ E _ _); cbn [answer]; unfold opens, under_dir; cbn [tl]; rewrite Pq; cbn; auto; discriminate.
  - destruct (Ast eq_refl A St Nd) as [E|E]; refine (Go _ E _ _); cbn [answer]; unfold under_dir; cbn [tl]; rewrite Pq; cbn; auto; discriminate.
  - destruct (Ast eq_refl A St Nd) as [E|E]; refine (Go _ E _ _); cbn [answer]; unfold under_dir; cbn [tl]; rewrite Pq; cbn; auto; discriminate.
  - exfalso. destruct F as [F1 F2]. destruct Hp as [Hp|[Hp|[]]]; subst; cbn [tl] in *; congruence.
Qed.
Lemma no_nothing t c : match c with CMkdirAll _ _ => True | _ => forall p, In p (names (DCall c)) -> pat t (tl p) = Some TDir end -> answer t c <> PNothing.
Proof.
  intros D An. destruct c; cbn [names In] in D; cbn [answer] in An.
  2: { rewrite (D p (or_introl eq_refl)) in An. destruct (same p []); discriminate. }
  all: unfold opens, under_dir in An; repeat match type of An with context [if ?b then _ else _] => destruct b | context [match ?b with _ => _ end] => destruct b end; discriminate.
Qed.
Lemma call_step be s t c : steady be -> inv s -> shows s t -> fit t (DCall c) -> lows_clear (tl s) (DCall c) -> stepped (tl s) t (DCall c) (act be (DCall c) s).
Proof.
  intros B I S F L.
  assert (Main : match c with CMkdirAll _ _ => True | _ => forall p, In p (names (DCall c)) -> pat t (tl p) = Some TDir end -> stepped (tl s) t (DCall c) (act be (DCall c) s)).
  { intros D. assert (U := usable_deed be s t c B I S F L D). destruct (call_answers be s c I U) as [e [O A]]. assert (Ow := owed s t c e (proj1 I) S F D O).
    destruct e as [x|]; cbn [answered] in A.
    - unfold stepped, act. rewrite A. unfold end_of, err_opt. cbn [fst snd]. split; [exact Ow|]. split; [exact I|]. split; [|reflexivity].
      destruct Ow as [Ow|Ow]; [|rewrite (excused_next _ _ _ _ Ow); exact S]. unfold next. destruct (plain_error (Some x)); [|exact S]. cbn [deed_effect]. rewrite (refused_effect t c x Ow). exact S.
    - unfold stepped, act. cbn [fst snd]. rewrite A. split; [exact Ow|]. assert (Nl : match c with CLink _ _ => False | _ => True end) by (destruct F as [_ F]; destruct c; exact F || exact Logic.I). split; [exact (inv_end be s c I Nl U)|].
      split; [|exact (lowers_kept be c s _ (reaches_end s _))]. cbn [next plain_error deed_effect]. apply effect_shows; try assumption.
      destruct Ow as [Ow|Ow]; [|destruct c; contradiction]. destruct (answer t c) eqn:An; cbn in Ow; try reflexivity; try discriminate; [destruct Ow; discriminate|].
      exfalso. exact (no_nothing t c D An). }
  destruct (parents_dec t (names (DCall c))) as [D|[p [Hp D]]].
  - apply Main. destruct c; auto.
  - destruct c; try (apply Main; exact Logic.I); apply (wandering be s t _ p B I S F L Logic.I Hp D).
Qed.

Lemma save_step be s t p creating excl trunc m d : steady be -> inv s -> shows s t -> fit t (DSave p creating excl trunc m d) -> lows_clear (tl s) (DSave p creating excl trunc m d) ->
  stepped (tl s) t (DSave p creating excl trunc m d) (act be (DSave p creating excl trunc m d) s).
Proof.
  intros B I S F L. destruct (call_step be s t (COpen p creating excl trunc m) B I S F L) as [[A|A] [I1 [S1 T1]]]; [|cbn in A; contradiction]. cbn [act fst snd run_call deed_answer answer] in *.
  unfold stepped, act. destruct (err_opt (open_write be p creating excl trunc m s)) as [x|] eqn:E; cbn [fst snd deed_answer].
  - split; [left; exact A|]. split; [exact I1|]. split; [|exact T1]. unfold next in *. destruct (plain_error (Some x)); [|exact S1]. cbn [deed_effect] in *. rewrite (refused_effect t (COpen p creating excl trunc m) x A) in S1.
    destruct (opens t p creating excl) eqn:O; try exact S1. cbn in A. discriminate.
  - set (s1 := end_of (open_write be p creating excl trunc m s)) in *. assert (O : opens t p creating excl = PDone).
    { destruct (opens t p creating excl) eqn:O; cbn in A; try reflexivity; try discriminate; [destruct A; discriminate|]. exfalso. unfold opens, under_dir in O.
      repeat match type of O with context [if ?b then _ else _] => destruct b | context [match ?b with _ => _ end] => destruct b end; discriminate. }
    cbn [next plain_error deed_effect] in S1. unfold effect in S1. cbn [answer] in S1. rewrite O in S1.
    assert (P1 : exists m1 d1, view s1 0 p = Some (0, OFile m1 d1) /\ p <> []).
    { assert (U := usable_deed be s t (COpen p creating excl trunc m) B I S F L). assert (D := proj2 (under_dir_done _ _ _ O)).
      assert (R : reached be s p) by (apply U; intros q [<- |[]]; exact D). destruct (view s 0 p) as [e|] eqn:V.
      - destruct (proj2 (open_tree be p creating excl trunc m s I (reached_plain _ _ _ R) ltac:(congruence)) E) as [_ [j [m0 [d0 [m1 [V1 [_ [M _]]]]]]]]. exists m1, (if trunc then 0%N else d0). split; [exact M|].
        intros ->. destruct (view_root s 0 (wf_len s (proj1 I))) as [m' V']; congruence.
      - destruct (proj2 (create_tree be p creating excl trunc m s I (reached_plain _ _ _ R) (reached_tl_plain _ _ _ R) V) E) as [_ [M _]]. exists m, 0%N. split; [exact M|].
        intros ->. exact (view_root_some s (proj1 I) V). }
    destruct P1 as [m1 [d1 [V1 Np]]]. destruct (write_spec p d s1 I1) as [[m2 [d2 [V2 [_ Pl]]]]|[N _]]; [|destruct (N _ _ V1)].
    assert (Ew : err_opt (write_file p d s1) = None).
    { unfold write_file. assert (V2' := V2). apply (view_zero s1 p _ (proj1 I1)) in V2'. assert (V4 := V2'). rewrite at_top in V4 by apply I1. rewrite V4, (t_put_ok p _ _ s1 V2'). reflexivity. }
    rewrite Ew. split; [left; rewrite O; reflexivity|]. destruct Pl as [I2 [T2 V3]]. split; [exact I2|]. split; [|rewrite T2; exact T1].
    cbn [next plain_error deed_effect]. rewrite O. rewrite <- (shows_at s1 _ p S1), V2. cbn [seen_at option_map snd shape].
    assert (E1 : forall q, q <> p -> pat (opened t p trunc m) q = pat t q).
    { intros q Hq. unfold opened. destruct (pat t p) as [[]|]; try reflexivity; rewrite pat_put by exact Np; rewrite same_neq by exact Hq; reflexivity. }
    apply shows_by. intros q. rewrite pat_put by exact Np. rewrite V3, <- same_path. destruct (same q p) eqn:Eq; [reflexivity|]. rewrite (shows_at s1 _ q S1). apply E1. intros ->. rewrite same_refl in Eq. discriminate.
Qed.
Lemma deed_step be s t a : steady be -> inv s -> shows s t -> fit t a -> lows_clear (tl s) a -> stepped (tl s) t a (act be a s).
Proof. destruct a; [exact (call_step be s t c)|exact (save_step be s t p creating excl trunc m d)]. Qed.

(* --- histories --- *)
Lemma history h : forall s t, inv s -> shows s t -> Forall (fun x => steady (fst x) /\ lows_clear (tl s) (snd x)) h -> fits t h (snd (run h s)) ->
  right (tl s) t h (snd (run h s)) /\ shows (fst (run h s)) (track t h (snd (run h s))) /\ inv (fst (run h s)) /\ tl (fst (run h s)) = tl s.
Proof.
  induction h as [|[be a] h IH]; intros s t I S H F; cbn [run]; [cbn; auto|].
  inversion H as [|? ? [B L] H']; subst. cbn [fst snd] in B, L. cbn [run] in F. destruct (act be a s) as [s1 e] eqn:Ea. destruct (run h s1) as [s2 es] eqn:Er. cbn [snd fst fits] in F. destruct F as [F0 F1].
  assert (St := deed_step be s t a B I S F0 L). rewrite Ea in St. destruct St as [A [I1 [S1 T1]]]. cbn [fst snd] in *.
  destruct (IH s1 (next t a e) I1 S1) as [R [Sh [I2 T2]]]; [rewrite T1; exact H'|rewrite Er; exact F1|]. rewrite Er in *. cbn [fst snd right track] in *.
  split; [split; [exact A|rewrite <- T1; exact R]|]. split; [exact Sh|]. split; [exact I2|congruence].
Qed.
Lemma nothing_excused t a e : ~ excused [] t a e.
Proof. destruct a as [[]|], e as [[]|]; cbn; auto; try (intros [_ [l [y [[] _]]]]); intros [m' [_ [l [y [[] _]]]]]. Qed.
Lemma agrees_next t a e : agrees (deed_answer t a) e -> next t a e = deed_effect t a.
Proof.
  intros A. unfold next. destruct (plain_error e) eqn:P; [reflexivity|]. destruct e as [x|]; [|discriminate]. destruct a as [c|p creating excl trunc m d]; cbn [deed_answer deed_effect] in *.
  - rewrite (refused_effect t c x A). reflexivity.
  - destruct (opens t p creating excl); try reflexivity. discriminate.
Qed.
Lemma right_exactly h : forall t es, right [] t h es -> exactly t h es /\ track t h es = fold_left deed_effect (map snd h) t.
Proof.
  induction h as [|[be a] h IH]; intros t [|e es] R; cbn in R; try contradiction; [cbn; auto|]. destruct R as [[A|A] R]; [|destruct (nothing_excused t a e A)].
  cbn [exactly track map snd fold_left]. rewrite (agrees_next t a e A) in *. destruct (IH _ _ R) as [R1 R2]. auto.
Qed.
Lemma alone h s t : inv s -> tl s = [] -> shows s t -> Forall (fun x => steady (fst x)) h -> fits t h (snd (run h s)) ->
  exactly t h (snd (run h s)) /\ shows (fst (run h s)) (fold_left deed_effect (map snd h) t).
Proof.
  intros I T S H F. assert (Fo : Forall (fun x => steady (fst x) /\ lows_clear (tl s) (snd x)) h).
  { rewrite T. eapply Forall_impl; [|exact H]. intros x B. split; [exact B|]. intros p _ b l g _ []. }
  destruct (history h s t I S Fo F) as [R [Sh _]]. rewrite T in R. destruct (right_exactly h t _ R) as [R1 R2]. rewrite <- R2. auto.
Qed.

(* --- reading --- *)
Lemma lookup_reads be s t p : steady be -> inv s -> shows s t -> way t p -> low_way (tl s) p ->
  match lookup be s p with LFound _ n => pat t p = Some (shape n) | LMissing | LNotDir => pat t p = None | LErr => False end.
Proof.
  intros B I S F L. assert (St := way_straight s t p I S F L). assert (X := lookup_true be s p (proj1 I) (straight_un _ _ St)). rewrite (shows_view s t p S).
  destruct (lookup be s p); try (rewrite X; reflexivity). destruct X as [i [a [_ [_ X]]]]. rewrite (B i a) in X. discriminate.
Qed.
Lemma listing_reads be s t p : steady be -> inv s -> shows s t -> way t p -> low_way (tl s) p ->
  match read_dir be s p with
  | DNames es => pat t p = Some TDir /\ (forall c, In c (map fst es) <-> pat t (c :: p) <> None) /\ NoDup (map fst es) /\ Sorted.Sorted (fun a b => bytes_leb (fst a) (fst b) = true) es
  | DErr ENotExist => pat t p = None
  | DErr ENotDir => pat t p <> Some TDir
  | DErr _ => False
  end.
Proof.
  intros B I S F L. assert (St := way_straight s t p I S F L). assert (X := read_dir_view be s p (proj1 I) (straight_un _ _ St)).
  assert (No : ~ exists i a, i < length s /\ under a p /\ broken be i a = true) by (intros [i [a [_ [_ E]]]]; rewrite (B i a) in E; discriminate).
  destruct (read_dir be s p) as [es|e].
  - destruct X as [X1 [X2 [X3 X4]]]. split; [apply (shows_dir s t p S), X1|]. split; [|split; [exact X3|exact X4]]. intros c. rewrite in_map_iff. split.
    + intros [[c' k] [<- Hi]]. apply X2 in Hi. destruct Hi as [n V]. cbn [fst]. apply (shows_shown s t _ S). unfold shown. congruence.
    + intros Hp. apply (shows_shown s t _ S) in Hp. unfold shown in Hp. destruct (view s 0 (c :: p)) as [[k n]|] eqn:V; [|congruence]. exists (c, k). split; [reflexivity|]. apply X2. eauto.
  - destruct e; try contradiction.
    + rewrite <- (S p), X. reflexivity.
    + intros E. apply X, (shows_dir s t p S), E.
Qed.

(* --- calls cut short --- *)
Lemma bind_reaches s a f s' : reaches s (bind a f) s' -> reaches s a s' \/ (err_opt a = None /\ (In s' (states_of (f (end_of a))) \/ s' = end_of (f (end_of a)))).
Proof.
  destruct a as [[tr s1] [x|]]; unfold reaches, states, bind, states_of, end_of, err_opt; cbn [fst snd]; [auto|]. destruct (f s1) as [[tr2 s2] e2]. cbn [fst snd].
  intros [[H|H]|H]; [left; left; left; exact H| |right; auto]. apply in_app_or in H. destruct H as [H|H]; [left; left; right; exact H|right; auto].
Qed.
Lemma bind_end a f : err_opt a = None -> end_of (bind a f) = end_of (f (end_of a)).
Proof. destruct a as [[tr s1] [x|]]; unfold err_opt, end_of; cbn [fst snd bind]; [discriminate|]. intros _. destruct (f s1) as [[tr2 s2] e2]. reflexivity. Qed.
Lemma shows_same s t t' : shows s t -> shows s t' -> forall q, pat t' q = pat t q.
Proof. intros S S' q. rewrite <- (S q), <- (S' q). reflexivity. Qed.
Lemma descendant_full s p q : wf s -> strictly_under p q -> shown s q -> full s p.
Proof.
  intros W H V. unfold shown in V. destruct (view s 0 q) as [[j n]|] eqn:E; [|congruence]. clear V. destruct H as [c [z ->]]. revert c E. revert j n. induction z as [|d z IH]; intros j n c E.
  - exists c. unfold shown. cbn [app] in E. rewrite E. discriminate.
  - destruct (visible_ancestor s ((d :: z) ++ p) (c :: (d :: z) ++ p) j n W) as [i [m [_ Va]]]; [apply strictly_cons, under_refl|exact E|]. exact (IH i (ODir m) d Va).
Qed.
Lemma between_refl t c t' : (forall q, pat t' q = pat t q) -> between t c t'.
Proof. intros E. destruct c; cbn [between]; auto; split; auto. Qed.
Lemma cut_open be s t p creating excl trunc m s' t' : inv s -> shows s t -> reached be s p -> opens t p creating excl = PDone -> err_opt (open_write be p creating excl trunc m s) = None ->
  reaches s (open_write be p creating excl trunc m s) s' -> shows s' t' -> (forall q, pat t' q = pat t q) \/ (forall q, pat t' q = pat (opened t p trunc m) q).
Proof.
  intros I S R A E H S'. assert (Fin := opened_shows be s t p creating excl trunc m I S R A E). destruct (pat t p) as [x|] eqn:P.
  - assert (V : view s 0 p <> None) by (apply (shows_shown s t p S); rewrite P; discriminate). assert (Lk := look be s p (proj1 I) R). destruct (view s 0 p) as [[j n]|] eqn:Vp; [|congruence].
    unfold open_write in *. rewrite Lk in *. destruct (is_dir n) eqn:Dn; [discriminate|]. destruct (creating && excl) eqn:Ce; [discriminate|].
    destruct (bind_reaches s _ _ s' H) as [H1|[E1 H1]].
    + left. assert (C := keeps_reaches (copied_on (fun a => under a p) s) s (copy_up be p s) (copied_refl _ s)
        (keeps_weaken _ _ _ (fun s' G => grown_copied _ (fun a => under a p) s s' (proj1 I) G (copy_way_of p)) (proj1 (copy_up_grows be p s (proj1 I) (proj2 I) (reached_plain _ _ _ R)))) s' H1).
      exact (shows_same s' t t' (copied_shows _ s s' t S C) S').
    + rewrite bind_end in Fin by exact E1. set (s1 := end_of (copy_up be p s)) in *.
      assert (In s' (states_of (open_top p creating excl trunc m s1)) -> s' = end_of (open_top p creating excl trunc m s1)) as Q.
      { unfold open_top. destruct (node_at (top_tree s1) p) as [[m0|m0 d0|g|m0]|] eqn:N; try (intros []; fail).
        - rewrite Ce. destruct trunc; [|intros []]. unfold t_put. destruct (node_at (top_tree s1) p); [|intros []]. intros [<- |[]]. reflexivity.
        - destruct creating; [|intros []]. unfold t_add. repeat match goal with |- context [match ?x with _ => _ end] => destruct x end; try (intros []; fail); intros [<- |[]]; reflexivity. }
      right. destruct H1 as [H1|H1]; [rewrite (Q H1) in S'|rewrite H1 in S']; exact (shows_same _ _ t' Fin S').
  - assert (V := P). apply (shows_missing s t p S) in V. unfold opened in *. rewrite P in *.
    destruct (proj1 (create_tree be p creating excl trunc m s I (reached_plain _ _ _ R) (reached_tl_plain _ _ _ R) V) s' H) as [_ [C|C]].
    + left. exact (shows_same s' t t' (copied_shows _ s s' t S C) S').
    + right. exact (shows_same s' _ t' (made_shows _ p _ s s' t (not_root t p P) S C) S').
Qed.
Lemma cut_chmod be s t p m s' t' : inv s -> shows s t -> fit t (DCall (CChmod p m)) -> usable be s (CChmod p m) -> answer t (CChmod p m) = PDone -> err_opt (chmod be p m s) = None ->
  reaches s (chmod be p m s) s' -> shows s' t' -> between t (CChmod p m) t'.
Proof.
  intros I S F U A E H S'. assert (Fin := effect_shows be s t (CChmod p m) I S F U A E). cbn [run_call] in Fin. assert (R := proj1 U). unfold chmod in *. destruct (bind_reaches s _ _ s' H) as [H1|[E1 H1]].
  - left. assert (C := keeps_reaches (copied_on (fun a => under a p) s) s (copy_up be p s) (copied_refl _ s)
        (keeps_weaken _ _ _ (fun s' G => grown_copied _ (fun a => under a p) s s' (proj1 I) G (copy_way_of p)) (proj1 (copy_up_grows be p s (proj1 I) (proj2 I) (reached_plain _ _ _ R)))) s' H1).
    exact (shows_same s' t t' (copied_shows _ s s' t S C) S').
  - rewrite bind_end in Fin by exact E1. set (s1 := end_of (copy_up be p s)) in *. right. cbn beta in *. destruct (node_at (top_tree s1) p) as [n|] eqn:N.
    + unfold t_put in *. rewrite N in *. destruct H1 as [[<- |[]]| ->]; exact (shows_same _ _ t' Fin S').
    + destruct H1 as [[]| ->]. exact (shows_same _ _ t' Fin S').
Qed.
Lemma cut be s t c s' t' : steady be -> inv s -> shows s t -> fit t (DCall c) -> lows_clear (tl s) (DCall c) -> is_rename c = false -> reaches s (run_call be c s) s' -> shows s' t' -> between t c t'.
Proof.
  intros B I S F L Nr H S'.
  assert (Quiet : forall e, run_call be c s = ([], s, e) -> between t c t').
  { intros e E. rewrite E in H. destruct H as [[<- |[]]| ->]; apply between_refl; exact (shows_same _ t t' S S'). }
  assert (Main : match c with CMkdirAll _ _ => True | _ => forall p, In p (names (DCall c)) -> pat t (tl p) = Some TDir end -> between t c t').
  { intros D. assert (U := usable_deed be s t c B I S F L D). destruct (call_answers be s c I U) as [[x|] [O A]]; cbn [answered] in A; [exact (Quiet _ A)|].
    assert (An : answer t c = PDone).
    { destruct (owed s t c None (proj1 I) S F D O) as [Ow|Ow]; [|destruct c; contradiction]. destruct (answer t c) eqn:An; cbn in Ow; try reflexivity; try discriminate; [destruct Ow; discriminate|]. destruct (no_nothing t c D An). }
    assert (Two : (exists W, copied_on W s s') \/ shows s' (effect t c) -> (forall q, pat t' q = pat t q) \/ (forall q, pat t' q = pat (effect t c) q)).
    { intros [[W C]|C]; [left; exact (shows_same s' t t' (copied_shows W s s' t S C) S')|right; exact (shows_same s' _ t' C S')]. }
    destruct c; cbn [usable] in U; cbn [run_call] in *; try (destruct F as [_ F]; contradiction); try discriminate.
    - (* remove *) assert (G : going p s s').
      { destruct (remove_states be p s (proj1 I)) as [G1 G2]. rewrite Forall_forall in G1. destruct H as [H| ->]; [exact (G1 _ H)|exact G2]. }
      destruct G as [G1 G2]. cbn [answer] in An. destruct (same p []) eqn:Ep; [discriminate|]. apply under_dir_done in An. destruct An as [An _].
      assert (Np : p <> []) by (intros ->; rewrite same_refl in Ep; discriminate). destruct (pat t p) as [x|] eqn:P; [|discriminate]. destruct (childless t p) eqn:Cl; [|discriminate].
      assert (Deep : forall q, strictly_under p q -> view s 0 q = None /\ view s' 0 q = None).
      { intros q Hq. assert (V : view s 0 q = None).
        { destruct (view s 0 q) eqn:V; [|reflexivity]. exfalso. assert (Fu : full s p) by (apply (descendant_full s p q (proj1 I) Hq); unfold shown; congruence). apply (shows_full s t p S) in Fu. congruence. }
        split; [exact V|]. destruct (G2 q (proj1 (proj1 (strictly_under_iff p q) Hq))) as [E|E]; congruence. }
      apply Two. destruct (G2 p (under_refl p)) as [E|E].
      + left. exists (fun _ => False). intros q. left. destruct (within p q) eqn:Wq; [|apply within_false in Wq; exact (G1 q Wq)]. apply within_under in Wq. destruct (path_dec q p) as [-> |Nq]; [exact E|].
        assert (Sq : strictly_under p q) by (apply strictly_under_iff; split; [exact Wq|congruence]). destruct (Deep q Sq). congruence.
      + right. unfold effect. cbn [answer]. rewrite Ep, P, Cl. replace (under_dir t p PDone) with PDone by (unfold under_dir; rewrite (D p (or_introl eq_refl)); reflexivity).
        apply gone_shows with s; [exact Np|exact S|]. intros q. destruct (within p q) eqn:Wq; [|apply within_false in Wq; exact (G1 q Wq)]. apply within_under in Wq. destruct (path_dec q p) as [-> |Nq]; [exact E|].
        assert (Sq : strictly_under p q) by (apply strictly_under_iff; split; [exact Wq|congruence]). apply (Deep q Sq).
    - (* remove_all *) assert (G : going p s s').
      { destruct (remove_all_states be p s (proj1 I)) as [G1 G2]. rewrite Forall_forall in G1. destruct H as [H| ->]; [exact (G1 _ H)|exact G2]. }
      destruct G as [G1 G2]. cbn [between]. split; intros q Hq.
      + apply inside_not in Hq. rewrite <- (shows_at s' t' q S'), <- (shows_at s t q S), (G1 q Hq). reflexivity.
      + apply inside_under in Hq. rewrite <- (shows_at s' t' q S'), <- (shows_at s t q S). destruct (G2 q Hq) as [-> | ->]; auto.
    - (* mkdir *) apply Two. destruct (proj1 (mkdir_tree be p m s I (reached_plain _ _ _ U) (reached_tl_plain _ _ _ U)) s' H) as [_ [C|C]]; [left; eauto|right].
      unfold effect. rewrite An. cbn [answer] in An. apply under_dir_done in An. destruct An as [An _]. destruct (pat t p) eqn:P; [discriminate|]. exact (made_shows _ p _ s s' t (not_root t p P) S C).
    - (* mkdir_all *) cbn [between]. destruct (proj1 (mkdir_all_tree be p m s I (straight_way s p (proj2 U))) s' H) as [_ M]. split; intros q Hq.
      + apply inside_not in Hq. rewrite <- (shows_at s' t' q S'), <- (shows_at s t q S). destruct (M q) as [Q|[_ [_ [Uq _]]]]; [exact (as_copied_seen _ _ Q)|contradiction].
      + rewrite <- (shows_at s' t' q S'), <- (shows_at s t q S). destruct (M q) as [Q|[V0 [_ [_ V1]]]]; [left; exact (as_copied_seen _ _ Q)|right]. rewrite V0, V1. auto.
    - (* open *) cbn [between]. unfold effect. rewrite An. exact (cut_open be s t p creating excl trunc m s' t' I S (proj1 U) An A H S').
    - (* symlink *) apply Two. destruct (proj1 (symlink_tree be target p s I (reached_plain _ _ _ U) (reached_tl_plain _ _ _ U)) s' H) as [_ [C|C]]; [left; eauto|right].
      unfold effect. rewrite An. cbn [answer] in An. apply under_dir_done in An. destruct An as [An _]. destruct (pat t p) eqn:P; [discriminate|]. exact (made_shows _ p _ s s' t (not_root t p P) S C).
    - (* chmod *) exact (cut_chmod be s t p m s' t' I S F U An A H S'). }
  destruct (parents_dec t (names (DCall c))) as [D|[p [Hp D]]]; [apply Main; destruct c; auto|].
  assert (St := names_straight s t _ p I S F L Hp). assert (Aw := steady_answers be s p B). assert (Np : p <> []) by (intros ->; apply D; reflexivity). destruct p as [|k q]; [congruence|]. cbn [tl] in D.
  assert (Nd : ~ visible_dir s q) by (intros V; apply D, (shows_dir s t q S), V). assert (Ast := astray be s c k q I). destruct F as [_ F].
  destruct c; cbn [names In] in Hp; try contradiction; try discriminate; destruct Hp as [Hp|[]]; subst p; try (apply Main; exact Logic.I); specialize (Ast eq_refl Aw St Nd).
  2: destruct Ast as [E|[E|E]]; exact (Quiet _ E).
  all: destruct Ast as [E|E]; exact (Quiet _ E).
Qed.
