(* The calls as statements about the merged tree, lowers untouched, and histories. *)
From Verif Require Import Common ContentRange_Model ContentRange_Proofs Overlay_Model Overlay_Spec Overlay_Proofs OverlayOps_Proofs OverlayGrow_Proofs OverlayNew_Proofs OverlayRename_Proofs.
Open Scope nat_scope.

(* --- the lowers are never written --- *)
Section Lowers.
  Variable s0 : stack.
  Let low (s : stack) : Prop := tl s = tl s0.
  Lemma low_top f s : low s -> low (on_top f s).
  Proof. unfold low. destruct s; auto. Qed.
  Lemma low_step f s : low s -> keeps low (step (on_top f s)).
  Proof. intros H. apply keeps_step, low_top, H. Qed.
  Lemma low_tree t s : low s -> keeps low (step (set_top_tree t s)).
  Proof. apply low_step. Qed.
  Lemma low_bind a f : keeps low a -> (forall s, low s -> keeps low (f s)) -> keeps low (bind a f).
  Proof. intros K H. apply keeps_bind; [exact K|]. intros _. apply H, K. Qed.
  Lemma low_each f ps s : (forall p s, low s -> keeps low (f p s)) -> low s -> keeps low (for_each f ps s).
  Proof. intros H. apply keeps_for_each. intros p s' _. apply H. Qed.
  Lemma low_marks : forall p s, low s -> keeps low (set_whiteout p s) /\ keeps low (clear_whiteout p s) /\ keeps low (set_opaque p s) /\ keeps low (clear_opaque p s).
  Proof. intros p s H. repeat split; try (apply low_step, H). all: apply (low_step _ s H). Qed.
  Lemma low_if (b : bool) a1 a2 : keeps low a1 -> keeps low a2 -> keeps low (if b then a1 else a2).
  Proof. destruct b; auto. Qed.
  Lemma low_clear_subtree p s : low s -> keeps low (clear_subtree p s).
  Proof.
    intros H. unfold clear_subtree. apply low_bind.
    - apply low_each; [|exact H]. intros q s' H'. apply low_if; [apply low_marks, H'|apply keeps_ret, H'].
    - intros s' H'. apply low_each; [|exact H']. intros q s1 H1. apply low_if; [apply low_marks, H1|apply keeps_ret, H1].
  Qed.
  Lemma low_rename_subtree o n s : low s -> keeps low (rename_subtree o n s).
  Proof.
    intros H. unfold rename_subtree. apply low_bind; [|intros s1 H1; apply low_bind; [|intros s2 H2; apply low_bind; [|intros s3 H3]]];
    (apply low_each; [|assumption]); intros q s' H'; apply low_marks, H'.
  Qed.
  Lemma low_add p n s : low s -> keeps low (t_add p n s).
  Proof.
    intros H. unfold t_add. destruct p; [apply keeps_fail, H|]. destruct (node_at _ _); [apply keeps_fail, H|]. apply low_if; [apply low_tree, H|apply keeps_fail, H].
  Qed.
  Lemma low_put p n s : low s -> keeps low (t_put p n s).
  Proof. intros H. unfold t_put. destruct (node_at _ _); [apply low_tree, H|apply keeps_fail, H]. Qed.
  Lemma low_remove p s : low s -> keeps low (t_remove p s).
  Proof. intros H. unfold t_remove. destruct (node_at _ _); [|apply keeps_fail, H]. apply low_if; [apply low_tree, H|apply keeps_fail, H]. Qed.
  Lemma low_remove_all be p s : low s -> keeps low (t_remove_all be p s).
  Proof.
    intros H. unfold t_remove_all. apply low_bind; [|intros s' H'; apply low_tree, H']. apply low_each; [|exact H]. intros q s' H'.
    apply low_if; [apply low_tree, H'|apply keeps_ret, H'].
  Qed.
  Lemma low_rename o n s : low s -> keeps low (t_rename o n s).
  Proof.
    intros H. unfold t_rename. destruct (node_at _ o) as [x|]; [|apply keeps_fail, H]. apply low_if; [apply keeps_fail, H|]. apply low_if; [apply keeps_fail, H|].
    destruct (node_at _ n) as [y|]; [|apply low_tree, H]. apply low_if; [apply low_if; [apply keeps_fail, H|apply low_if; [apply low_tree, H|apply keeps_fail, H]]|].
    apply low_if; [apply keeps_fail, H|apply low_tree, H].
  Qed.
  Lemma low_materialize be i p s : low s -> keeps low (materialize be i p s).
  Proof.
    intros H. induction p as [|c q IH]; cbn [materialize]; [apply keeps_ret, H|]. apply low_bind; [exact IH|]. intros s' H'.
    destruct (lstat _ _ _ _); [apply keeps_ret, H'|apply low_add, H'|apply keeps_fail, H'|apply keeps_fail, H'].
  Qed.
  Lemma low_copy_up be p s : low s -> keeps low (copy_up be p s).
  Proof.
    intros H. unfold copy_up. destruct p as [|c q]; [apply keeps_ret, H|].
    destruct (lookup be s (c :: q)) as [[|j] n| | |]; try (apply keeps_ret, H); try (apply keeps_fail, H).
    apply low_bind; [|intros s' H'; apply low_if; [apply low_marks, H'|apply keeps_ret, H']].
    unfold copy_up_from. destruct n; try (apply keeps_fail, H); (apply low_bind; [apply low_materialize, H|]); intros s' H'; try (apply low_add, H').
    destruct (node_at _ _); [|apply low_add, H']. apply low_if; [apply keeps_fail, H'|apply low_tree, H'].
  Qed.
  Lemma low_ensure be p s : low s -> keeps low (ensure_parent be p s).
  Proof.
    intros H. unfold ensure_parent. destruct (lookup _ _ _); try (apply keeps_fail, H). apply low_if; [apply low_copy_up, H|apply keeps_fail, H].
  Qed.
  Lemma low_unmask p s : low s -> keeps low (unmask p s).
  Proof. intros H. apply low_if; [apply low_marks, H|apply keeps_ret, H]. Qed.
  Lemma low_unlink be p rm s : (forall s, low s -> keeps low (rm s)) -> low s -> keeps low (unlink be p rm s).
  Proof.
    intros Hr H. unfold unlink. destruct (lookup_from _ _ _ _); try (apply keeps_fail, H).
    - apply low_bind; [apply low_marks, H|]. intros s' H'. apply keeps_ignore, Hr, H'.
    - apply low_bind; [apply low_clear_subtree, H|]. intros s' H'. apply keeps_ignore, Hr, H'.
  Qed.
  Lemma low_mkdir_one p m s : low s -> keeps low (mkdir_one p m s).
  Proof.
    intros H. unfold mkdir_one. apply low_bind; [apply low_add, H|]. intros s1 H1. apply low_bind; [apply low_marks, H1|]. intros s2 H2. apply low_unmask, H2.
  Qed.
  Lemma low_open_top p creating excl trunc m s : low s -> keeps low (open_top p creating excl trunc m s).
  Proof.
    intros H. unfold open_top. destruct (node_at _ _) as [[| | |]|]; try (apply keeps_fail, H).
    - apply low_if; [apply keeps_fail, H|]. apply low_if; [apply low_put, H|apply keeps_ret, H].
    - apply low_if; [apply low_add, H|apply keeps_fail, H].
  Qed.
  Theorem low_call be c s : low s -> keeps low (run_call be c s).
  Proof.
    intros H. destruct c as [p|p|p m|p m|p cr ex tr m|p d|t p|o n|p m|o n]; cbn [run_call].
    - unfold remove. apply low_if; [apply keeps_fail, H|]. destruct (lookup _ _ _); try (apply keeps_fail, H).
      assert (U : keeps low (unlink be p (t_remove p) s)) by (apply low_unlink; [intros s' H'; apply low_remove, H'|exact H]).
      apply low_if; [|exact U]. destruct (read_dir _ _ _) as [[|]|]; [exact U| |]; apply keeps_fail, H.
    - unfold remove_all. apply low_if; [apply keeps_fail, H|]. destruct (lookup _ _ _); try (apply keeps_fail, H); [|apply keeps_ret, H].
      apply low_unlink; [intros s' H'; apply low_remove_all, H'|exact H].
    - unfold mkdir. destruct (lookup _ _ _); try (apply keeps_fail, H). apply low_bind; [apply low_ensure, H|]. intros s' H'. apply low_mkdir_one, H'.
    - unfold mkdir_all. apply low_each; [|exact H]. intros q s' H'. unfold mkdir_level. destruct (lookup _ _ _); try (apply keeps_fail, H').
      + apply low_if; [apply keeps_ret, H'|apply keeps_fail, H'].
      + apply low_bind; [apply low_ensure, H'|]. intros s1 H1. apply low_mkdir_one, H1.
    - unfold open_write. destruct (lookup _ _ _); try (apply keeps_fail, H).
      + apply low_if; [apply keeps_fail, H|]. apply low_if; [apply keeps_fail, H|]. apply low_bind; [apply low_copy_up, H|]. intros s' H'. apply low_open_top, H'.
      + apply low_if; [|apply keeps_fail, H]. apply low_bind; [apply low_ensure, H|]. intros s1 H1. cbn zeta. apply low_bind; [apply low_open_top, H1|].
        intros s2 H2. apply low_if; [apply low_marks, H2|apply keeps_ret, H2].
    - unfold write_file. destruct (node_at _ _) as [[| | |]|]; try (apply keeps_ret, H). apply low_put, H.
    - unfold symlink. destruct (lookup _ _ _); try (apply keeps_fail, H). apply low_bind; [apply low_ensure, H|]. intros s1 H1. apply low_bind; [apply low_add, H1|].
      intros s2 H2. apply low_unmask, H2.
    - unfold hardlink. destruct (lookup be s o); try (apply keeps_fail, H). destruct (lookup be s n); try (apply keeps_fail, H).
      apply low_bind; [apply low_copy_up, H|]. intros s1 H1. apply low_bind; [apply low_ensure, H1|]. intros s2 H2. apply low_bind; [|intros s3 H3; apply low_unmask, H3].
      unfold t_link. destruct (node_at _ _) as [[| | |]|]; try (apply keeps_fail, H2); apply low_add, H2.
    - unfold chmod. apply low_bind; [apply low_copy_up, H|]. intros s1 H1. destruct (node_at _ _); [apply low_put, H1|apply keeps_fail, H1].
    - unfold rename. apply low_if; [apply keeps_fail, H|]. destruct (lookup _ _ _) as [i x| | |]; try (apply keeps_fail, H).
      apply low_if; [apply keeps_ret, H|]. apply low_if; [apply keeps_fail, H|]. destruct (if is_dir x then rename_dir_check be s o else None); [apply keeps_fail, H|].
      destruct (rename_target_check be s n (is_dir x)); [apply keeps_fail, H|].
      apply low_bind; [apply low_copy_up, H|]. intros s1 H1. apply low_bind; [apply low_ensure, H1|]. intros s2 H2.
      assert (T : forall fin, (forall s, low s -> keeps low (fin s)) ->
        keeps low (s <- t_rename o n s2 ;; s <- clear_subtree n s ;; s <- rename_subtree o n s ;; s <- (if is_dir x then set_opaque n s else ret s) ;; fin s)).
      { intros fin Hf. apply low_bind; [apply low_rename, H2|]. intros s3 H3. apply low_bind; [apply low_clear_subtree, H3|]. intros s4 H4.
        apply low_bind; [apply low_rename_subtree, H4|]. intros s5 H5. apply low_bind; [apply low_if; [apply low_marks, H5|apply keeps_ret, H5]|]. exact Hf. }
      destruct (lookup_from be s2 o 1); try (apply keeps_fail, H2); apply T; intros s3 H3; [apply low_marks, H3|apply low_clear_subtree, H3].
  Qed.
End Lowers.
Theorem lowers_kept be c s s' : reaches s (run_call be c s) s' -> tl s' = tl s.
Proof.
  destruct (low_call s be c s eq_refl) as [K1 K2]. intros [[<- | H]| ->]; [reflexivity| |exact K2]. rewrite Forall_forall in K1. exact (K1 s' H).
Qed.
Theorem after_lowers s e : tl (after s e) = tl s.
Proof.
  unfold after. set (a := run_call (ev_be e) (ev_call e) s). destruct (ev_cut e) as [k|]; [|apply (lowers_kept (ev_be e) (ev_call e)); right; reflexivity].
  destruct (nth_in_or_default k (states s a) (end_of a)) as [H| ->]; apply (lowers_kept (ev_be e) (ev_call e)); [left; exact H|right; reflexivity].
Qed.
Theorem play_lowers h s : tl (play h s) = tl s.
Proof. revert s. induction h as [|e h IH]; intros s; cbn; [reflexivity|]. unfold play in IH. rewrite IH. apply after_lowers. Qed.

(* --- the calls on the merged tree --- *)
Lemma keeps_reaches (P : stack -> Prop) s a : P s -> keeps P a -> forall s', reaches s a s' -> P s'.
Proof. intros H [K1 K2] s' [[<- | Hi]| ->]; [exact H| |exact K2]. rewrite Forall_forall in K1. exact (K1 s' Hi). Qed.
Lemma reaches_end s a : reaches s a (end_of a).
Proof. right. reflexivity. Qed.
Lemma grown_copied (A : path -> node -> Prop) (W : path -> Prop) s s' : wf s -> grown A s s' -> (forall a x, A a x -> W a) -> copied_on W s s'.
Proof.
  intros Ws G H q. destruct (grown_view A s s' q Ws G) as [E|[j [n [x [H1 [H2 [H3 H4]]]]]]]; [left; exact E|right]. split; [exact (H q x H4)|]. right. exists j, n, x. auto.
Qed.
Lemma placed_made (A : path -> node -> Prop) (W : path -> Prop) p x s s1 s' : wf s -> grown A s s1 -> (forall a x, A a x -> W a) -> placed p x s1 s' -> made W p x s s'.
Proof.
  intros Ws G H [_ [_ V]]. split; [rewrite V, path_eqb_refl; reflexivity|]. intros q Hq. assert (C := grown_copied A W s s1 Ws G H q).
  unfold copied_one in *. rewrite V. apply path_eqb_neq in Hq. rewrite Hq. exact C.
Qed.
Lemma making_made (A : path -> node -> Prop) (W : path -> Prop) p x s s' : wf s -> (forall a x, A a x -> W a) -> making A p x s s' -> inv s' /\ (copied_on W s s' \/ made W p x s s').
Proof.
  intros Ws H M. split; [exact (making_inv _ _ _ _ _ M)|]. destruct M as [s1 [G [_ [-> | P]]]]; [left; exact (grown_copied A W s s1 Ws G H)|right; exact (placed_made A W p x s s1 s' Ws G H P)].
Qed.
Lemma copied_refl W s : copied_on W s s.
Proof. intros q. left. reflexivity. Qed.
Lemma made_below W p x s s' q : wf s -> view s 0 p = None -> made W p x s s' -> strictly_under p q -> view s' 0 q = None.
Proof.
  intros Ws V [_ H] Hq. assert (Hq' := Hq). apply strictly_under_iff in Hq' as [H1 H2]. assert (Vq := below_missing s p q Ws V H1).
  destruct (H q (fun E => H2 (eq_sym E))) as [E|[_ [E|[j [n [y [E _]]]]]]]; congruence.
Qed.
Lemma dirs_above_of p a x : dirs_above p a x -> above_of p a.
Proof. intros [H _]. exact H. Qed.
Lemma copy_way_of p a x : copy_way p a x -> under a p.
Proof. intros [H _]. exact H. Qed.

Theorem mkdir_tree be p m s : inv s -> plain_at s p -> plain_at s (tl p) ->
  (forall s', reaches s (mkdir be p m s) s' -> inv s' /\ (copied_on (above_of p) s s' \/ made (above_of p) p (ODir m) s s')) /\
  (err_opt (mkdir be p m s) = None -> view s 0 p = None /\ made (above_of p) p (ODir m) s (end_of (mkdir be p m s)) /\
     forall q, strictly_under p q -> view (end_of (mkdir be p m s)) 0 q = None).
Proof.
  intros I U1 U2. destruct (mkdir_spec be p m s I U1 U2) as [K [E _]]. split.
  - apply keeps_reaches; [split; [exact I|left; apply copied_refl]|]. eapply keeps_weaken; [|exact K]. intros s'. apply making_made; [apply I|exact (dirs_above_of p)].
  - intros H. destruct (E H) as [V [s1 [G [_ P]]]]. assert (M := placed_made _ (above_of p) p _ s s1 _ (proj1 I) G (dirs_above_of p) P).
    split; [exact V|]. split; [exact M|]. intros q Hq. exact (made_below _ p _ s _ q (proj1 I) V M Hq).
Qed.
Theorem symlink_tree be t p s : inv s -> plain_at s p -> plain_at s (tl p) ->
  (forall s', reaches s (symlink be t p s) s' -> inv s' /\ (copied_on (above_of p) s s' \/ made (above_of p) p (OLink t) s s')) /\
  (err_opt (symlink be t p s) = None -> view s 0 p = None /\ made (above_of p) p (OLink t) s (end_of (symlink be t p s))).
Proof.
  intros I U1 U2. destruct (symlink_spec be t p s I U1 U2) as [K [E _]]. split.
  - apply keeps_reaches; [split; [exact I|left; apply copied_refl]|]. eapply keeps_weaken; [|exact K]. intros s'. apply making_made; [apply I|exact (dirs_above_of p)].
  - intros H. destruct (E H) as [V [s1 [G [_ P]]]]. split; [exact V|]. exact (placed_made _ (above_of p) p _ s s1 _ (proj1 I) G (dirs_above_of p) P).
Qed.
Theorem create_tree be p creating excl trunc m s : inv s -> plain_at s p -> plain_at s (tl p) -> view s 0 p = None ->
  (forall s', reaches s (open_write be p creating excl trunc m s) s' -> inv s' /\ (copied_on (above_of p) s s' \/ made (above_of p) p (OFile m 0) s s')) /\
  (err_opt (open_write be p creating excl trunc m s) = None -> creating = true /\ made (above_of p) p (OFile m 0) s (end_of (open_write be p creating excl trunc m s))).
Proof.
  intros I U1 U2 V. destruct (open_new_spec be p creating excl trunc m s I U1 U2 V) as [K E]. split.
  - apply keeps_reaches; [split; [exact I|left; apply copied_refl]|]. eapply keeps_weaken; [|exact K]. intros s'. apply making_made; [apply I|exact (dirs_above_of p)].
  - intros H. destruct (E H) as [Hc [s1 [G [_ P]]]]. split; [exact Hc|]. exact (placed_made _ (above_of p) p _ s s1 _ (proj1 I) G (dirs_above_of p) P).
Qed.
(* A file opened for writing keeps its content, but for a truncating open. *)
Theorem open_tree be p creating excl trunc m s : inv s -> plain_at s p -> view s 0 p <> None ->
  (forall s', reaches s (open_write be p creating excl trunc m s) s' -> inv s' /\ (copied_on (fun a => under a p) s s' \/ exists x, made (fun a => under a p) p x s s')) /\
  (err_opt (open_write be p creating excl trunc m s) = None -> creating && excl = false /\ exists j m0 d m1,
     view s 0 p = Some (j, OFile m0 d) /\ m1 = (match j with 0 => m0 | _ => perm m0 end) /\
     made (fun a => under a p) p (OFile m1 (if trunc then 0%N else d)) s (end_of (open_write be p creating excl trunc m s))).
Proof.
  intros I U V. destruct (open_old_spec be p creating excl trunc m s I U V) as [K E]. split.
  - apply keeps_reaches; [split; [exact I|left; apply copied_refl]|]. eapply keeps_weaken; [|exact K]. intros s' [x M].
    destruct (making_made _ (fun a => under a p) p x s s' (proj1 I) (copy_way_of p) M) as [I' [C|C]]; split; eauto.
  - intros H. destruct (E H) as [Hc [s1 [m1 [d [G [V1 P]]]]]]. split; [exact Hc|].
    assert (M := placed_made _ (fun a => under a p) p _ s s1 _ (proj1 I) G (copy_way_of p) P).
    destruct (grown_view _ s s1 p (proj1 I) G) as [Eq|[j [n [x [A1 [A2 [A3 _]]]]]]].
    + rewrite V1 in Eq. exists 0, m1, d, m1. auto.
    + rewrite V1 in A2. inversion A2; subst x. destruct n; cbn in A3; try contradiction; try discriminate. inversion A3; subst. exists (S j), mode, data, (perm mode). auto.
Qed.
Theorem chmod_tree be p m s : inv s -> plain_at s p ->
  (forall s', reaches s (chmod be p m s) s' -> inv s' /\ (copied_on (fun a => under a p) s s' \/ exists x, made (fun a => under a p) p x s s')) /\
  (err_opt (chmod be p m s) = None -> exists e x, as_copied (view s 0 p) (Some (e, x)) /\ made (fun a => under a p) p (chmoded x m) s (end_of (chmod be p m s))).
Proof.
  intros I U. destruct (chmod_spec be p m s I U) as [K E]. split.
  - apply keeps_reaches; [split; [exact I|left; apply copied_refl]|]. eapply keeps_weaken; [|exact K]. intros s' [x M].
    destruct (making_made _ (fun a => under a p) p x s s' (proj1 I) (copy_way_of p) M) as [I' [C|C]]; split; eauto.
  - intros H. destruct (E H) as [s1 [n [G [V1 P]]]]. exists 0, n. split; [rewrite <- V1; exact (grown_soc _ s s1 p (proj1 I) G)|].
    exact (placed_made _ (fun a => under a p) p _ s s1 _ (proj1 I) G (copy_way_of p) P).
Qed.
Lemma link_way_of o n a x : link_way o n a x -> under a o \/ above_of n a.
Proof. intros [[H _]|[H _]]; auto. Qed.
Theorem hardlink_tree be o n s : inv s -> plain_at s o -> plain_at s n -> plain_at s (tl n) -> ~ under o n ->
  (forall s', reaches s (hardlink be o n s) s' -> inv s' /\ (copied_on (fun a => under a o \/ above_of n a) s s' \/ exists x, made (fun a => under a o \/ above_of n a) n x s s')) /\
  (err_opt (hardlink be o n s) = None -> view s 0 n = None /\ exists x, as_copied (view s 0 o) (Some (0, x)) /\ is_dir x = false /\
     made (fun a => under a o \/ above_of n a) n x s (end_of (hardlink be o n s))).
Proof.
  intros I U1 U2 U3 Hn. destruct (hardlink_spec be o n s I U1 U2 U3 Hn) as [K E]. split.
  - apply keeps_reaches; [split; [exact I|left; apply copied_refl]|]. eapply keeps_weaken; [|exact K]. intros s' [x M].
    destruct (making_made _ (fun a => under a o \/ above_of n a) n x s s' (proj1 I) (link_way_of o n) M) as [I' [C|C]]; split; eauto.
  - intros H. destruct (E H) as [V [s1 [x [G [V1 [D P]]]]]]. split; [exact V|]. exists x. split; [rewrite <- V1; exact (grown_soc _ s s1 o (proj1 I) G)|]. split; [exact D|].
    exact (placed_made _ _ n _ s s1 _ (proj1 I) G (link_way_of o n) P).
Qed.
Theorem write_tree p d s : inv s -> forall s', reaches s (write_file p d s) s' -> inv s' /\
  (s' = s \/ exists m d0, view s 0 p = Some (0, OFile m d0) /\ made (fun _ => False) p (OFile m d) s s').
Proof.
  intros I. destruct (write_spec p d s I) as [[m [d0 [V [St P]]]]|[_ E]].
  - assert (Pl : inv (end_of (write_file p d s)) /\ made (fun _ => False) p (OFile m d) s (end_of (write_file p d s))).
    { split; [apply P|]. destruct P as [_ [_ Vp]]. split; [rewrite Vp, path_eqb_refl; reflexivity|]. intros q Hq. left. rewrite Vp. apply path_eqb_neq in Hq. rewrite Hq. reflexivity. }
    intros s' [H| ->]; [|split; [apply Pl|right; exists m, d0; split; [exact V|apply Pl]]]. unfold states in H. rewrite St in H. destruct H as [<- |[<- |[]]]; [auto|].
    split; [apply Pl|right; exists m, d0; split; [exact V|apply Pl]].
  - rewrite E. intros s' [[<- |[]]| ->]; auto.
Qed.

(* --- rename --- *)
Theorem rename_tree be o n s : inv s -> plain_at s o -> unlinked s n -> plain_at s (tl n) ->
  inv (end_of (rename be o n s)) /\
  (forall s', reaches s (rename be o n s) s' -> taking (fun a => under a o \/ above_of n a) o n s s') /\
  (err_opt (rename be o n s) <> None -> copied_on (fun a => under a o \/ above_of n a) s (end_of (rename be o n s))) /\
  (err_opt (rename be o n s) = None -> (o = n /\ end_of (rename be o n s) = s) \/ taken (fun a => under a o \/ above_of n a) o n s (end_of (rename be o n s))).
Proof.
  intros I U1 U2 U3. destruct (rename_spec be o n s I U1 U2 U3) as [K [I' [Er E]]]. split; [exact I'|]. split; [|split].
  - apply keeps_reaches; [left; apply copied_refl|]. eapply keeps_weaken; [|exact K].
    intros s' [s2 [G [H2 [-> | [Ho [Hn [Ap [Only M]]]]]]]]; [left; exact (grown_copied _ _ s s2 (proj1 I) G (link_way_of o n))|right].
    assert (Hs2 : s2 <> []) by apply (grown_wf _ _ _ G). split.
    + intros q e Hq V. assert (C := grown_soc _ s s2 q (proj1 I) G). unfold same_or_copied in C. rewrite V in C.
      assert (V2 : exists y, view s2 0 q = Some (0, y)).
      { destruct (view s2 0 q) as [[[|j] y]|] eqn:E2; [eauto|exfalso; exact (Only q j y Hq E2)|]. exfalso. destruct C as [C|[j [y [x [_ [C _]]]]]]; discriminate. }
      destruct V2 as [y V2]. rewrite V2 in C. assert (Ay := view_zero s2 q y (grown_wf _ _ _ G) V2).
      assert (A' := moved_at o n s2 s' (rebase o n q) Ho Hn Ap Hs2 M). assert (Hr := rebase_under o n q Hq). apply within_under in Hr. rewrite Hr, (rebase_back o n q Hq), Ay in A'.
      rewrite (view_top s' _ y (moved_wf _ _ _ _ M) A'). exact C.
    + intros q H1 H3. assert (C := grown_copied _ _ s s2 (proj1 I) G (link_way_of o n) q). unfold copied_one in *. rewrite (moved_outside o n s2 s' q Ho Hn Ap Hs2 M H1 H3). exact C.
  - intros H. exact (grown_copied _ _ s _ (proj1 I) (Er H) (link_way_of o n)).
  - intros H. destruct (E H) as [C|[Ap [s2 [G [Only [_ R]]]]]]; [left; exact C|right]. set (s' := end_of (rename be o n s)) in *.
    assert (Same : forall q, strictly_under o q -> view s2 0 q = view s 0 q).
    { intros q Hq. apply strictly_under_iff in Hq as [Hq Hne]. destruct (grown_view _ s s2 q (proj1 I) G) as [Eq|[j [y [x [_ [_ [_ HA]]]]]]]; [exact Eq|]. exfalso.
      destruct HA as [[Hu _]|[Hu _]]; [apply Hne, under_antisym; assumption|]. apply (proj1 Ap). apply (under_trans _ q); [exact Hq|]. destruct n as [|c n]; [exact Hu|apply under_cons, Hu]. }
    assert (In_ : forall q, under n q -> view s' 0 q = view s2 0 (rebase n o q)) by (intros q Hq; rewrite R; apply within_under in Hq; rewrite Hq; reflexivity).
    split; [|split; [|split; [|split; [|split]]]].
    + rewrite (In_ n (under_refl n)), rebase_self. exact (grown_soc _ s s2 o (proj1 I) G).
    + intros q Hq. assert (Hu : under o q) by (apply strictly_under_iff in Hq; tauto). rewrite (In_ _ (rebase_under o n q Hu)), (rebase_back o n q Hu). exact (Same q Hq).
    + intros q Hq. assert (Hu : under n q) by (apply strictly_under_iff in Hq; tauto). rewrite (In_ q Hu). exact (Same _ (rebase_strict n o q Hq)).
    + intros q Hq. rewrite R. destruct (within n q) eqn:Ew; [exfalso; apply within_under in Ew; exact (apart_both o n q Ap Hq Ew)|]. apply within_under in Hq. rewrite Hq. reflexivity.
    + intros q j x Hq. rewrite (In_ q Hq). exact (Only _ j x (rebase_under n o q Hq)).
    + intros q H1 H2. assert (C := grown_copied _ _ s s2 (proj1 I) G (link_way_of o n) q). unfold copied_one in *. rewrite R. apply within_false in H1, H2. rewrite H1, H2. exact C.
Qed.

(* --- histories --- *)
Lemma quiet_copied W s s' : copied_on W s s' -> no_resurface s s'.
Proof. intros C q j n V. destruct (C q) as [E|[_ [E|[k [y [x [_ [E _]]]]]]]]; congruence. Qed.
Lemma quiet_made W p x s s' : made W p x s s' -> no_resurface s s'.
Proof.
  intros [V C] q j n Vq. destruct (path_dec q p) as [-> | Hq]; [congruence|]. destruct (C q Hq) as [E|[_ [E|[k [y [z [_ [E _]]]]]]]]; congruence.
Qed.
Lemma quiet_refl s : no_resurface s s.
Proof. intros q j n H. exact H. Qed.
Lemma quiet_trans s1 s2 s3 : no_resurface s1 s2 -> no_resurface s2 s3 -> no_resurface s1 s3.
Proof. intros H1 H2 q j n V. apply H1, H2, V. Qed.
Lemma quiet_going p s s' : going p s s' -> no_resurface s s'.
Proof.
  intros [H1 H2] q j n V. destruct (within p q) eqn:E; [apply within_under in E; destruct (H2 q E); congruence|]. apply within_false in E. rewrite (H1 q E) in V. exact V.
Qed.
Lemma quiet_taken W o n s s' : taken W o n s s' -> no_resurface s s'.
Proof.
  intros [_ [_ [_ [Ho [Hn C]]]]] q j x V. destruct (within n q) eqn:E; [apply within_under in E; exfalso; exact (Hn q j x E V)|]. apply within_false in E.
  destruct (within o q) eqn:E2; [apply within_under in E2; rewrite (Ho q E2) in V; discriminate|]. apply within_false in E2.
  destruct (C q E2 E) as [Eq|[_ [Eq|[k [y [z [_ [Eq _]]]]]]]]; congruence.
Qed.
Theorem call_quiet be c s : inv s -> proper s c -> is_rename c = false -> forall s', reaches s (run_call be c s) s' -> inv s' /\ no_resurface s s'.
Proof.
  intros I P R. assert (W := proj1 I).
  assert (Two : forall W p x s', inv s' /\ (copied_on W s s' \/ made W p x s s') -> inv s' /\ no_resurface s s').
  { intros W' p x s' [I' [C|M]]; split; try exact I'; [exact (quiet_copied _ _ _ C)|exact (quiet_made _ _ _ _ _ M)]. }
  assert (Two' : forall W p s', inv s' /\ (copied_on W s s' \/ exists x, made W p x s s') -> inv s' /\ no_resurface s s').
  { intros W' p s' [I' [C|[x M]]]; split; try exact I'; [exact (quiet_copied _ _ _ C)|exact (quiet_made _ _ _ _ _ M)]. }
  destruct c as [p|p|p m|p m|p cr ex tr m|p d|t p|o n|p m|o n]; cbn [run_call proper is_rename] in *; [| | | | | | | | |discriminate].
  - intros s' H. split; [exact (keeps_reaches _ s _ I (remove_inv be p s I) s' H)|]. destruct (remove_states be p s W) as [S1 S2]. apply (quiet_going p).
    destruct H as [H| ->]; [rewrite Forall_forall in S1; exact (S1 s' H)|exact S2].
  - intros s' H. split; [exact (keeps_reaches _ s _ I (remove_all_inv be p s I) s' H)|]. destruct (remove_all_states be p s W) as [S1 S2]. apply (quiet_going p).
    destruct H as [H| ->]; [rewrite Forall_forall in S1; exact (S1 s' H)|exact S2].
  - intros s' H. exact (Two _ _ _ s' (proj1 (mkdir_tree be p m s I (proj1 P) (proj2 P)) s' H)).
  - apply keeps_reaches; [split; [exact I|apply quiet_refl]|]. eapply keeps_weaken; [|apply (proj1 (mkdir_all_spec be p m s I P))].
    intros s' [I' [_ M]]. split; [exact I'|]. intros q j n V. destruct (M q) as [[E|[k [y [x [_ [E _]]]]]]|[_ [_ [_ E]]]]; congruence.
  - destruct (view s 0 p) eqn:V.
    + intros s' H. apply (Two' (fun a => under a p) p s'). apply (open_tree be p cr ex tr m s I (proj1 P)); [congruence|exact H].
    + intros s' H. exact (Two _ _ _ s' (proj1 (create_tree be p cr ex tr m s I (proj1 P) (proj2 P) V) s' H)).
  - intros s' H. destruct (write_tree p d s I s' H) as [I' [-> | [m [d0 [_ M]]]]]; split; try exact I'; [apply quiet_refl|exact (quiet_made _ _ _ _ _ M)].
  - intros s' H. exact (Two _ _ _ s' (proj1 (symlink_tree be t p s I (proj1 P) (proj2 P)) s' H)).
  - intros s' H. destruct P as [P1 [P2 [P3 P4]]]. apply (Two' (fun a => under a o \/ above_of n a) n s'). exact (proj1 (hardlink_tree be o n s I P1 P2 P3 P4) s' H).
  - intros s' H. apply (Two' (fun a => under a p) p s'). exact (proj1 (chmod_tree be p m s I P) s' H).
Qed.
Theorem rename_quiet be o n s : inv s -> proper s (CRename o n) -> inv (end_of (rename be o n s)) /\ no_resurface s (end_of (rename be o n s)).
Proof.
  intros I [P1 [P2 P3]]. destruct (rename_tree be o n s I P1 P2 P3) as [I' [_ [Er E]]]. split; [exact I'|].
  destruct (err_opt (rename be o n s)) eqn:Ee; [apply (quiet_copied _ _ _ (Er ltac:(discriminate)))|].
  destruct (E eq_refl) as [[_ ->]|T]; [apply quiet_refl|exact (quiet_taken _ _ _ _ _ T)].
Qed.
Lemma after_reaches s e : reaches s (run_call (ev_be e) (ev_call e) s) (after s e).
Proof.
  unfold after. set (a := run_call (ev_be e) (ev_call e) s). destruct (ev_cut e) as [k|]; [|apply reaches_end].
  destruct (nth_in_or_default k (states s a) (end_of a)) as [H| ->]; [left; exact H|apply reaches_end].
Qed.
Theorem play_quiet h s : inv s -> fair s h -> inv (play h s) /\ no_resurface s (play h s).
Proof.
  revert s. induction h as [|e h IH]; intros s I F; [split; [exact I|apply quiet_refl]|]. destruct F as [P [R F]].
  assert (A : inv (after s e) /\ no_resurface s (after s e)).
  { destruct (is_rename (ev_call e)) eqn:Er.
    - unfold after. rewrite (R eq_refl). destruct (ev_call e); try discriminate. exact (rename_quiet (ev_be e) o n s I P).
    - exact (call_quiet (ev_be e) (ev_call e) s I P Er _ (after_reaches s e)). }
  destruct (IH (after s e) (proj1 A) F) as [I' Q]. split; [exact I'|]. exact (quiet_trans _ _ _ (proj2 A) Q).
Qed.
