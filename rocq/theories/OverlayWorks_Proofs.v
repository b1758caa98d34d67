(* Overlay calls that must succeed, refusals, and the modes a copy-up gives. *)
From Verif Require Import Common ContentRange_Model ContentRange_Proofs Overlay_Model Overlay_Spec Overlay_Proofs OverlayOps_Proofs OverlayGrow_Proofs OverlayNew_Proofs OverlayRename_Proofs OverlayCalls_Proofs.
Open Scope nat_scope.

Lemma lookup_answers be s p : wf s -> plain_at s p -> answers be s p ->
  match lookup be s p with LFound j n => view s 0 p = Some (j, n) | LMissing | LNotDir => view s 0 p = None | LErr => False end.
Proof.
  intros W U A. assert (L := lookup_plain be s p W U). destruct (lookup be s p); try exact L. destruct L as [i [a [H1 [H2 H3]]]]. rewrite (A i a H1 H2) in H3. discriminate.
Qed.
Lemma answers_up be s p a : answers be s p -> under a p -> answers be s a.
Proof. intros A Ha i b Hi Hb. exact (A i b Hi (under_trans _ _ _ Hb Ha)). Qed.

(* A directory with a visible child is not removed. *)
Theorem remove_full be p s c e : wf s -> unlinked s p -> view s 0 (c :: p) = Some e -> exists err, remove be p s = fail s err.
Proof.
  intros W U V. unfold remove. destruct (is_nil p); [eauto|]. assert (L := lookup_true be s p W U). destruct (lookup be s p) as [i n| | |]; try (eexists; reflexivity).
  assert (D : is_dir n = true).
  { destruct (is_dir n) eqn:D; [reflexivity|]. rewrite (below_nondir s p (c :: p) i n W L D) in V; [discriminate|]. apply strictly_cons, under_refl. }
  rewrite D. assert (R := read_dir_view be s p W U). destruct (read_dir be s p) as [[|x es]|err]; [|eauto|eauto].
  destruct R as [_ [R _]]. destruct e as [k y]. exfalso. exact (proj2 (R c k) (ex_intro _ y V)).
Qed.

(* Removals succeed when the layers answer. *)
Lemma loop_not_notdir be ls p is : lookup_loop be ls p LMissing is <> LNotDir.
Proof.
  induction is as [|i r IH]; cbn [lookup_loop]; [discriminate|]. destruct (nth_error ls i); [|discriminate]. destruct (lstat _ _ _ _); [discriminate|exact IH| |discriminate].
  destruct (blocked_at _ _ _ _); [discriminate|exact IH|discriminate].
Qed.
Lemma unlink_ok be p rm s : wf s -> p <> [] -> ~ linked s 1 p -> plain_at s (tl p) -> answers be s p -> view s 0 p <> None ->
  (forall s', remarked p s s' -> err_opt (ignore_missing (rm s')) = None) ->
  err_opt (unlink be p rm s) = None.
Proof.
  intros W Hp L1 Ut An V Hr. unfold unlink. assert (Hs : s <> []) by apply W.
  assert (Nd : lookup_from be s p 1 <> LNotDir).
  { destruct p as [|c q]; [congruence|]. cbn [tl] in Ut. unfold lookup_from. destruct (view s 0 (c :: q)) as [[j n]|] eqn:Ev; [|congruence].
    destruct (visible_ancestor s q (c :: q) j n W) as [i [m [_ Vq]]]; [apply strictly_cons, under_refl|exact Ev|].
    assert (Lq := lookup_answers be s q W Ut (answers_up be s (c :: q) q An (under_cons _ _ _ (under_refl q)))).
    destruct (lookup be s q) as [i' n'| | |]; try congruence; try contradiction. rewrite Vq in Lq. inversion Lq; subst i' n'. cbn [blocked_err is_dir]. apply loop_not_notdir. }
  assert (Ne : lookup_from be s p 1 <> LErr).
  { assert (G := lookup_from_good be s p 1 W). destruct (lookup_from be s p 1); try discriminate. destruct G as [[i [a [H1 [H2 H3]]]]|G]; [|contradiction].
    rewrite (An i a H1 H2) in H3. discriminate. }
  destruct (lookup_from be s p 1) eqn:E; try congruence.
  - rewrite bind_opt by reflexivity. apply Hr. apply remarked_set_wh; [exact Hs|apply under_refl].
  - rewrite bind_opt by apply clear_subtree_ok. apply Hr. apply (clear_subtree_keeps p s Hs).
Qed.
Lemma remarked_tree p s s' : remarked p s s' -> top_tree s' = top_tree s.
Proof. intros [l [l' [r [-> [-> [H _]]]]]]. exact H. Qed.
Theorem remove_succeeds be p s : wf s -> p <> [] -> unlinked s p -> plain_at s (tl p) -> ~ linked s 1 p -> answers be s p ->
  view s 0 p <> None -> (forall c, view s 0 (c :: p) = None) -> err_opt (remove be p s) = None.
Proof.
  intros W Hp U Ut L1 An V Ch. assert (Hs : s <> []) by apply W.
  assert (Ok : err_opt (unlink be p (t_remove p) s) = None).
  { apply unlink_ok; try assumption; intros s' R.
    assert (Tt := remarked_tree _ _ _ R). unfold t_remove; rewrite Tt; destruct (node_at (top_tree s) p); [|reflexivity];
      assert (C : children (top_tree s) p = []) by
        (destruct (children (top_tree s) p) as [|c r] eqn:Ec; [reflexivity|]; exfalso; assert (Hc : In c (children (top_tree s) p)) by (rewrite Ec; left; reflexivity);
         apply in_children in Hc; destruct (tget (top_tree s) (c :: p)) as [x|] eqn:Ex; [|congruence];
         assert (Hx : at_ s 0 (c :: p) = Some x) by (rewrite at_top by exact Hs; exact Ex); specialize (Ch c); rewrite (view_top s _ x W Hx) in Ch; discriminate);
      rewrite C; reflexivity. }
  unfold remove. destruct p as [|c q]; [congruence|]. cbn [is_nil]. assert (L := lookup_answers be s (c :: q) W (or_introl U) An).
  destruct (lookup be s (c :: q)) as [i n| | |]; try contradiction; [|congruence..]. destruct (is_dir n) eqn:D; [|exact Ok].
  assert (R := read_dir_view be s (c :: q) W U). assert (Vd : visible_dir s (c :: q)) by (unfold visible_dir, visible; rewrite L; destruct n; try discriminate; cbn; eauto).
  assert (NB : ~ exists i a, i < length s /\ under a (c :: q) /\ broken be i a = true) by (intros [i' [a [H1 [H2 H3]]]]; rewrite (An i' a H1 H2) in H3; discriminate).
  destruct (read_dir be s (c :: q)) as [[|[x k] es]|e]; [exact Ok| |].
  - exfalso. destruct R as [_ [R _]]. destruct (proj1 (R x k) (or_introl eq_refl)) as [y Hy]. rewrite (Ch x) in Hy. discriminate.
  - exfalso. destruct e; try (apply NB, R); [|exact (R Vd)]. unfold visible in R. rewrite L in R. discriminate.
Qed.
Theorem remove_all_succeeds be p s : wf s -> p <> [] -> unlinked s p -> plain_at s (tl p) -> ~ linked s 1 p -> answers be s p ->
  view s 0 p <> None -> err_opt (remove_all be p s) = None.
Proof.
  intros W Hp U Ut L1 An V. unfold remove_all. destruct p as [|c q]; [congruence|]. cbn [is_nil]. assert (L := lookup_answers be s (c :: q) W (or_introl U) An).
  assert (Ok : forall s', err_opt (ignore_missing (t_remove_all be (c :: q) s')) = None).
  { intros s'. unfold t_remove_all. set (a := for_each _ (rmorder be) s').
    assert (Ea : err_opt a = None).
    { unfold a. generalize (rmorder be) s'. induction l as [|x r IH]; intros s1; cbn [for_each]; [reflexivity|].
      rewrite bind_opt; [apply IH|]. destruct (below (c :: q) x); reflexivity. }
    destruct a as [[tr s1] e]. cbn in Ea. subst e. reflexivity. }
  destruct (lookup be s (c :: q)) as [i n| | |]; try contradiction; [|congruence..]. apply unlink_ok; try assumption; intros s' _; apply Ok.
Qed.

(* Copy-up succeeds when the layers answer, except for special files. *)
Lemma materialize_ok (A : path -> node -> Prop) be i q s0 : wf s0 -> (forall a, under a q -> exists j m, view s0 0 a = Some (j, ODir m)) -> (forall a m, under a q -> A a (ODir m)) ->
  (forall a, under a q -> broken be 0 a = false) -> forall s, grown A s0 s -> err_opt (materialize be i q s) = None.
Proof.
  intros W0. induction q as [|c q IH]; intros Hv HA Hb s G; cbn [materialize]; [reflexivity|].
  assert (Hv' := fun a Ha => Hv a (under_cons _ _ _ Ha)). assert (HA' := fun a m Ha => HA a m (under_cons _ _ _ Ha)).
  specialize (IH Hv' HA' (fun a Ha => Hb a (under_cons _ _ _ Ha)) s G). rewrite bind_opt by exact IH.
  destruct (materialize_grows A be i q s0 W0 Hv' HA' s G) as [[_ G1] E]. specialize (E IH). set (s1 := end_of (materialize be i q s)) in *.
  assert (W1 : wf s1) by apply G1. assert (Hs1 : s1 <> []) by apply W1.
  assert (Wt : wf_tree (top_tree s1)) by (destruct (wf_split s1 W1) as [l [r El]]; rewrite El in *; apply wf_cons in W1; apply W1).
  assert (D : forall a x, under a (c :: q) -> node_at (top_tree s1) a = Some x -> is_dir x = true).
  { intros a x Ha Hx. rewrite <- at_top in Hx by exact Hs1. destruct (Hv a Ha) as [j [m Vm]].
    destruct (grown_dir A s0 s1 a j m W0 G1 Vm) as [k [m' [_ Vm']]]. rewrite (view_top s1 a x W1 Hx) in Vm'. inversion Vm'; subst. reflexivity. }
  unfold lstat. rewrite (Hb _ (under_refl _)). assert (S := walk_spec (top_tree s1) (c :: q) Wt). destruct (walk (top_tree s1) (c :: q)) as [x| | |].
  - reflexivity.
  - unfold t_add. rewrite (proj1 S). rewrite dir_holds in E by exact Hs1. rewrite E. reflexivity.
  - exfalso. destruct S as [_ [a [n [Ha [Hn Hd]]]]]. apply strictly_under_iff in Ha as [Ha _]. rewrite (D a n Ha Hn) in Hd. discriminate.
  - exfalso. destruct S as [_ [a [g [Ha Hg]]]]. apply strictly_under_iff in Ha as [Ha _]. specialize (D a _ Ha Hg). discriminate.
Qed.
Theorem copy_up_ok be p s : inv s -> plain_at s p -> answers be s p -> view s 0 p <> None -> (forall j m, view s 0 p <> Some (j, OSpecial m)) -> err_opt (copy_up be p s) = None.
Proof.
  intros [W H] U An Nn Sp. unfold copy_up. destruct p as [|c q]; [reflexivity|]. assert (L := lookup_answers be s (c :: q) W U An).
  destruct (lookup be s (c :: q)) as [[|j] n| | |] eqn:EL; try contradiction; try reflexivity; try congruence. assert (Hn : at_ s 0 (c :: q) = None) by exact (view_above s _ _ _ W L).
    assert (Hv : forall a, under a q -> exists k m, view s 0 a = Some (k, ODir m)).
    { intros a Ha. destruct (visible_ancestor s a (c :: q) (S j) n W) as [k [m [_ V]]]; [apply strictly_cons, Ha|exact L|]. eauto. }
    set (A := fun (a : path) (x : node) => under a q). assert (HA : forall a m, under a q -> A a (ODir m)) by auto.
    assert (B0 : forall a, under a q -> broken be 0 a = false) by (intros a Ha; apply An; [apply wf_len, W|apply under_cons, Ha]).
    assert (Mo := materialize_ok A be (S j) q s W Hv HA B0 s (grown_refl A s W)). destruct (materialize_grows A be (S j) q s W Hv HA s (grown_refl A s W)) as [[_ G1] E]. specialize (E Mo).
    assert (Cu : err_opt (copy_up_from be (S j) n (c :: q) s) = None).
    { unfold copy_up_from. cbn [tl]. set (s1 := end_of (materialize be (S j) q s)) in *. assert (Hs1 : s1 <> []) by apply (grown_wf _ _ _ G1).
      assert (Hm1 : node_at (top_tree s1) (c :: q) = None).
      { rewrite <- at_top by exact Hs1. destruct (at_ s1 0 (c :: q)) as [x|] eqn:Ex; [|reflexivity]. exfalso. destruct G1 as [_ [_ [_ [_ [_ [_ G']]]]]].
        destruct (G' _ x Hn Ex) as [Hu _]. apply under_len in Hu. cbn in Hu. lia. }
      assert (Ad : err_opt (t_add (c :: q) (copied n) s1) = None) by (unfold t_add; rewrite Hm1; rewrite dir_holds in E by exact Hs1; rewrite E; reflexivity).
      destruct n as [m|m d|g|m]; [| | |exfalso; exact (Sp _ _ L)]; rewrite bind_opt by exact Mo; fold s1; [exact Ad|rewrite Hm1; exact Ad|exact Ad]. }
    rewrite bind_opt by exact Cu. destruct (topi opb _ _); reflexivity.
Qed.
Lemma ensure_parent_ok be c q s : inv s -> plain_at s q -> answers be s q -> visible_dir s q -> err_opt (ensure_parent be (c :: q) s) = None.
Proof.
  intros I U An [m V]. unfold ensure_parent. cbn [tl]. assert (L := lookup_answers be s q (proj1 I) U An). unfold visible in V.
  destruct (view s 0 q) as [[j n]|] eqn:Ev; [|discriminate]. cbn in V. assert (n = ODir m) by congruence. subst n.
  destruct (lookup be s q) as [j' n'| | |]; try congruence; try contradiction. assert (n' = ODir m) by congruence. subst n'. cbn [is_dir].
  apply copy_up_ok; try assumption; congruence.
Qed.
Lemma missing_lookup be s c q : wf s -> unlinked s (c :: q) -> unlinked s q -> answers be s (c :: q) -> visible_dir s q -> view s 0 (c :: q) = None -> lookup be s (c :: q) = LMissing.
Proof.
  intros W U1 U2 An Vd V. assert (L := lookup_answers be s (c :: q) W (or_introl U1) An). destruct (lookup be s (c :: q)) eqn:E; try congruence; try contradiction.
  exfalso. exact (notdir_true be s c q W U2 (answers_up be s _ q An (under_cons _ _ _ (under_refl q))) E Vd).
Qed.
(* Creations succeed in a visible directory. *)
Lemma placed_ready be c q s : inv s -> plain_at s q -> view s 0 (c :: q) = None ->
  err_opt (ensure_parent be (c :: q) s) = None ->
  node_at (top_tree (end_of (ensure_parent be (c :: q) s))) (c :: q) = None /\ holds_dir (top_tree (end_of (ensure_parent be (c :: q) s))) q = true.
Proof.
  intros [W H] U V Hok. destruct (ensure_parent_grows be c q s W H U) as [[_ G] E]. specialize (E Hok). set (s1 := end_of (ensure_parent be (c :: q) s)) in *.
  assert (Hs1 : s1 <> []) by apply (grown_wf _ _ _ G). rewrite dir_holds in E by exact Hs1. split; [|exact E]. rewrite <- at_top by exact Hs1.
  destruct (at_ s1 0 (c :: q)) as [x|] eqn:Ex; [|reflexivity]. assert (Vx := view_top s1 _ x (grown_wf _ _ _ G) Ex). rewrite (grown_none _ s s1 _ W G V) in Vx. discriminate.
Qed.
Theorem mkdir_succeeds be c q m s : inv s -> unlinked s (c :: q) -> unlinked s q -> answers be s (c :: q) -> visible_dir s q -> view s 0 (c :: q) = None ->
  err_opt (mkdir be (c :: q) m s) = None.
Proof.
  intros I U1 U2 An Vd V. unfold mkdir. rewrite (missing_lookup be s c q (proj1 I) U1 U2 An Vd V).
  assert (Ok := ensure_parent_ok be c q s I (or_introl U2) (answers_up be s _ q An (under_cons _ _ _ (under_refl q))) Vd). rewrite bind_opt by exact Ok.
  destruct (placed_ready be c q s I (or_introl U2) V Ok) as [H1 H2]. set (s1 := end_of (ensure_parent be (c :: q) s)) in *.
  unfold mkdir_one. assert (T : t_add (c :: q) (ODir m) s1 = step (set_top_tree (tset (top_tree s1) (c :: q) (ODir m)) s1)) by (unfold t_add; rewrite H1, H2; reflexivity).
  rewrite T. rewrite !bind_opt by reflexivity. unfold unmask. destruct (topi whb _ _); reflexivity.
Qed.
Theorem create_succeeds be c q excl trunc m s : inv s -> unlinked s (c :: q) -> unlinked s q -> answers be s (c :: q) -> visible_dir s q -> view s 0 (c :: q) = None ->
  err_opt (open_write be (c :: q) true excl trunc m s) = None.
Proof.
  intros I U1 U2 An Vd V. unfold open_write. rewrite (missing_lookup be s c q (proj1 I) U1 U2 An Vd V).
  assert (Ok := ensure_parent_ok be c q s I (or_introl U2) (answers_up be s _ q An (under_cons _ _ _ (under_refl q))) Vd). rewrite bind_opt by exact Ok. cbn zeta.
  destruct (placed_ready be c q s I (or_introl U2) V Ok) as [H1 H2]. set (s1 := end_of (ensure_parent be (c :: q) s)) in *.
  assert (T : open_top (c :: q) true excl trunc m s1 = step (set_top_tree (tset (top_tree s1) (c :: q) (OFile m 0)) s1)) by (unfold open_top, t_add; rewrite H1, H2; reflexivity).
  rewrite T. rewrite bind_opt by reflexivity. destruct (topi whb _ _); reflexivity.
Qed.
Theorem open_succeeds be p creating trunc m s j m0 d : inv s -> plain_at s p -> answers be s p -> view s 0 p = Some (j, OFile m0 d) ->
  err_opt (open_write be p creating false trunc m s) = None.
Proof.
  intros I U An V. unfold open_write. assert (L := lookup_answers be s p (proj1 I) U An).
  destruct (lookup be s p) as [j' n| | |]; try congruence; try contradiction. assert (n = OFile m0 d) by congruence. subst n. cbn [is_dir]. rewrite andb_false_r.
  assert (Ok : err_opt (copy_up be p s) = None) by (apply copy_up_ok; try assumption; congruence). rewrite bind_opt by exact Ok.
  destruct (copy_up_grows be p s (proj1 I) (proj2 I) U) as [[_ G] E]. specialize (E Ok ltac:(congruence)). set (s1 := end_of (copy_up be p s)) in *.
  assert (Hs1 : s1 <> []) by apply (grown_wf _ _ _ G). destruct (at_ s1 0 p) as [x|] eqn:Ex; [|congruence].
  assert (Fx : exists m1 d1, x = OFile m1 d1).
  { assert (Vx := view_top s1 p x (grown_wf _ _ _ G) Ex). destruct (grown_view _ s s1 p (proj1 I) G) as [Eq|[k [n [y [A1 [A2 [A3 _]]]]]]].
    - rewrite Eq, V in Vx. inversion Vx; eauto.
    - rewrite V in A1. inversion A1; subst. rewrite Vx in A2. inversion A2; subst. cbn in A3. subst. cbn. eauto. }
  destruct Fx as [m1 [d1 ->]]. rewrite at_top in Ex by exact Hs1. unfold open_top. rewrite Ex, andb_false_r. destruct trunc; [|reflexivity]. unfold t_put. rewrite Ex. reflexivity.
Qed.

(* --- modes --- *)
Definition mode_kept (i : nat) (s s' : stack) : Prop :=
  tl s' = tl s /\ forall a x, at_ s 0 a = None -> at_ s' 0 a = Some x -> exists m, at_ s i a = Some (ODir m) /\ x = ODir (perm m).
Lemma tl_at s s' i a : s <> [] -> s' <> [] -> tl s' = tl s -> at_ s' (S i) a = at_ s (S i) a.
Proof. destruct s, s'; try congruence. cbn. intros _ _ ->. reflexivity. Qed.
Lemma t_add_modes i c q m s0 s : s <> [] -> mode_kept i s0 s -> (exists m0, at_ s0 i (c :: q) = Some (ODir m0) /\ m = perm m0) -> keeps (mode_kept i s0) (t_add (c :: q) (ODir m) s).
Proof.
  intros Hs K [m0 [H1 ->]]. apply t_add_keeps; [exact K|]. intros _ _. destruct K as [K1 K2]. split; [destruct s; exact K1|].
  intros a x Ha Hx. rewrite at_set_top in Hx by exact Hs. rewrite node_tset in Hx by discriminate. destruct (path_eqb a (c :: q)) eqn:E.
  - apply path_eqb_eq in E. subst a. assert (x = ODir (perm m0)) by congruence. eauto.
  - rewrite <- at_top in Hx by exact Hs. exact (K2 a x Ha Hx).
Qed.
Lemma materialize_modes be i q s0 : s0 <> [] -> wf s0 -> (forall a, under a q -> exists m, at_ s0 (S i) a = Some (ODir m)) -> (forall a, under a q -> broken be (S i) a = false) ->
  forall s, s <> [] -> mode_kept (S i) s0 s -> keeps (fun s' => s' <> [] /\ mode_kept (S i) s0 s') (materialize be (S i) q s).
Proof.
  intros Hs0 W0. induction q as [|c q IH]; intros Hd Hb s Hs K; cbn [materialize]; [apply keeps_ret; auto|].
  assert (IH' := IH (fun a Ha => Hd a (under_cons _ _ _ Ha)) (fun a Ha => Hb a (under_cons _ _ _ Ha)) s Hs K). apply keeps_bind; [exact IH'|]. intros _.
  destruct IH' as [_ [Hs1 K1]]. set (s1 := end_of (materialize be (S i) q s)) in *. clearbody s1. clear IH.
  destruct (lstat be 0 (top_tree s1) (c :: q)); [apply keeps_ret; auto| |apply keeps_fail; auto|apply keeps_fail; auto].
  destruct (Hd _ (under_refl _)) as [m Hm].
  assert (Pm : parent_mode be (S i) s1 (c :: q) = perm m).
  { assert (Hm1 : at_ s1 (S i) (c :: q) = Some (ODir m)) by (rewrite (tl_at s0 s1 i) by (try assumption; apply K1); exact Hm).
    unfold parent_mode. unfold at_ in Hm1. destruct (nth_error s1 (S i)) as [l|] eqn:El; [|discriminate].
    assert (El0 : nth_error s0 (S i) = Some l). { destruct s0 as [|l0 r0], s1 as [|l1 r1]; try congruence. destruct K1 as [K1 _]. cbn in K1. cbn [nth_error] in *. rewrite <- K1. exact El. }
    assert (Wl := wf_at s0 (S i) l W0 El0). unfold lstat. rewrite (Hb _ (under_refl _)). rewrite (walk_found (l_tree l) (c :: q) _ Wl Hm1). reflexivity. }
  rewrite Pm. assert (T := t_add_modes (S i) c q (perm m) s0 s1 Hs1 K1 (ex_intro _ m (conj Hm eq_refl))).
  assert (N : keeps (fun s' => s' <> []) (t_add (c :: q) (ODir (perm m)) s1)).
  { apply t_add_keeps; [exact Hs1|]. intros _ _. destruct s1; [congruence|discriminate]. }
  exact (keeps_and _ _ _ N T).
Qed.
Definition modes_from (p : path) (j : nat) (n : node) (s s' : stack) : Prop :=
  forall a x, at_ s 0 a = None -> at_ s' 0 a = Some x -> (a = p /\ x = copied n) \/ exists m, at_ s j a = Some (ODir m) /\ x = ODir (perm m).
Lemma copy_up_modes be p s j n : inv s -> plain_at s p -> answers be s p -> view s 0 p = Some (j, n) -> keeps (modes_from p j n s) (copy_up be p s).
Proof.
  intros [W H] U An V. assert (M0 : modes_from p j n s s) by (intros a x H1 H2; congruence). unfold copy_up. destruct p as [|c q]; [apply keeps_ret, M0|].
  assert (L := lookup_answers be s (c :: q) W U An). destruct (lookup be s (c :: q)) as [j' n'| | |]; try congruence; try contradiction.
  assert (Ejn : j' = j /\ n' = n) by (rewrite V in L; inversion L; auto). destruct Ejn as [-> ->]. clear L. destruct j as [|j]; [apply keeps_ret, M0|].
  assert (Hs : s <> []) by apply W.
  assert (Hd : forall a, under a q -> exists m, at_ s (S j) a = Some (ODir m)).
  { intros a Ha. assert (A := view_at s _ _ _ W V). unfold at_ in A |- *. destruct (nth_error s (S j)) as [l|] eqn:El; [|discriminate].
    exact (wf_ancestor (l_tree l) a (c :: q) n (wf_at s _ l W El) (proj2 (strictly_cons a c q) Ha) A). }
  assert (Hb : forall a, under a q -> broken be (S j) a = false).
  { intros a Ha. apply An; [|apply under_cons, Ha]. assert (A := view_at s _ _ _ W V). unfold at_ in A. destruct (nth_error s (S j)) eqn:El; [|discriminate]. apply nth_error_Some. congruence. }
  assert (Km0 : mode_kept (S j) s s) by (split; [reflexivity|intros a x H1 H2; congruence]).
  assert (Mk := materialize_modes be j q s Hs W Hd Hb s Hs Km0).
  assert (Lift : forall s', s' <> [] /\ mode_kept (S j) s s' -> modes_from (c :: q) (S j) n s s') by (intros s' [_ [_ K]] a x H1 H2; right; exact (K a x H1 H2)).
  assert (Put : forall s1, s1 <> [] /\ mode_kept (S j) s s1 -> modes_from (c :: q) (S j) n s (set_top_tree (tset (top_tree s1) (c :: q) (copied n)) s1)).
  { intros s1 [Hs1 [_ K]] a x Ha Hx. rewrite at_set_top in Hx by exact Hs1. rewrite node_tset in Hx by discriminate. destruct (path_eqb a (c :: q)) eqn:E.
    - apply path_eqb_eq in E. subst a. left. split; [reflexivity|congruence].
    - rewrite <- at_top in Hx by exact Hs1. right. exact (K a x Ha Hx). }
  assert (Cu : keeps (modes_from (c :: q) (S j) n s) (copy_up_from be (S j) n (c :: q) s)).
  { unfold copy_up_from. cbn [tl]. destruct n as [m|m d|g|m]; [| | |apply keeps_fail, M0];
    (apply keeps_bind; [exact (keeps_weaken _ _ _ Lift Mk)|]); intros _; assert (K1 := proj2 Mk); set (s1 := end_of (materialize be (S j) q s)) in *;
    try (apply t_add_keeps; [exact (Lift s1 K1)|intros _ _; exact (Put s1 K1)]).
    destruct (node_at (top_tree s1) (c :: q)) as [y|]; [destruct (is_dir y); [apply keeps_fail, (Lift s1 K1)|apply keeps_step, (Put s1 K1)]|].
    apply t_add_keeps; [exact (Lift s1 K1)|intros _ _; exact (Put s1 K1)]. }
  apply keeps_bind; [exact Cu|]. intros _. assert (K2 := proj2 Cu). set (s2 := end_of (copy_up_from be (S j) n (c :: q) s)) in *. clearbody s2.
  destruct (topi opb s2 (c :: q)); [|apply keeps_ret, K2]. apply keeps_step. intros a x H1 H2. apply (K2 a x H1). destruct s2; [exact H2|exact H2].
Qed.
Theorem copy_up_invisible be p s j n : inv s -> plain_at s p -> answers be s p -> view s 0 p = Some (j, n) -> copied n = n -> (forall a, strictly_under a p -> one_mode s a) ->
  forall s', reaches s (copy_up be p s) s' -> forall q, visible s' q = visible s q.
Proof.
  intros I U An V Hc Hm. assert (W := proj1 I). assert (K := copy_up_modes be p s j n I U An V). destruct (copy_up_grows be p s W (proj2 I) U) as [K2 _].
  assert (KK := keeps_and _ _ _ K K2). apply (keeps_reaches (fun s' => forall q, visible s' q = visible s q)); [reflexivity|]. eapply keeps_weaken; [|exact KK]. clear K K2 KK. intros s' [M G] q. unfold visible.
  destruct (grown_view _ s s' q W G) as [E|[k [y [x [A1 [A2 [A3 [Hu _]]]]]]]]; [rewrite E; reflexivity|]. rewrite A1, A2. cbn. f_equal.
  assert (N0 := view_above s q k y W A1). assert (Sx := view_zero s' q x (grown_wf _ _ _ G) A2). destruct (M q x N0 Sx) as [[Eq1 Eq2]|[m [Ha ->]]].
  - subst q x. rewrite V in A1. assert (y = n) by congruence. subst y. exact Hc.
  - destruct (path_dec q p) as [-> | Hne].
    + rewrite V in A1. assert (A := view_at s p _ _ W V). assert (n = ODir m) by congruence. subst n. assert (y = ODir m) by congruence. subst y. exact Hc.
    + assert (D : exists m', y = ODir m') by (destruct y; cbn in A3; try contradiction; try discriminate; eauto). destruct D as [m' ->]. f_equal.
      apply (Hm q (proj2 (strictly_under_iff q p) (conj Hu Hne)) j m (S k) m' Ha A1).
Qed.

Theorem mkdir_all_tree be p m s : inv s -> clear_way s p ->
  (forall s', reaches s (mkdir_all be p m s) s' -> inv s' /\
     forall q, same_or_copied s s' q \/ (view s 0 q = None /\ q <> [] /\ under q p /\ view s' 0 q = Some (0, ODir m))) /\
  (err_opt (mkdir_all be p m s) = None -> visible_dir (end_of (mkdir_all be p m s)) p).
Proof.
  intros I C. destruct (mkdir_all_spec be p m s I C) as [K E]. split.
  - intros s' R. destruct (keeps_reaches (mkdirs p m s) s _ (mkdirs_refl p m s I) K s' R) as [I' [_ M]]. split; [exact I'|exact M].
  - intros H. destruct (E H) as [j [mode V]]. exists mode. unfold visible. rewrite V. reflexivity.
Qed.

Lemma held_check ls : forallb (dir_at ls 0) (match ls with [] => [] | l :: _ => l_op l end) = true -> held ls.
Proof.
  intros H a Ha. rewrite forallb_forall in H. apply H. destruct ls as [|l r]; [discriminate|]. unfold opi in Ha. cbn in Ha. exact (proj1 (memp_in a (l_op l)) Ha).
Qed.
Lemma inv_check ls : (negb (is_nil ls) && forallb (fun l => wf_treeb (l_tree l)) ls) = true -> forallb (dir_at ls 0) (match ls with [] => [] | l :: _ => l_op l end) = true -> inv ls.
Proof. intros H1 H2. split; [apply wf_check, H1|apply held_check, H2]. Qed.
Lemma rename_cut_quiet be o n s s' q j x : inv s -> proper s (CRename o n) -> reaches s (rename be o n s) s' ->
  ~ under o q -> ~ under n q -> view s' 0 q = Some (S j, x) -> view s 0 q = Some (S j, x).
Proof.
  intros I [P1 [P2 P3]] R Ho Hn V. destruct (rename_tree be o n s I P1 P2 P3) as [_ [T _]]. destruct (T s' R) as [C|[_ C]].
  - exact (quiet_copied _ _ _ C q j x V).
  - destruct (C q Ho Hn) as [E|[_ [E|[k [y [z [_ [E _]]]]]]]]; congruence.
Qed.
