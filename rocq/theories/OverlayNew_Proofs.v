(* Calls that put one node in the top: Mkdir, opens for writing, links, Chmod. *)
From Verif Require Import Common ContentRange_Model ContentRange_Proofs Overlay_Model Overlay_Spec Overlay_Proofs OverlayOps_Proofs OverlayGrow_Proofs.
Open Scope nat_scope.

(* s' is s with node x of the top at p, and nothing else changed. *)
Definition placed (p : path) (x : node) (s s' : stack) : Prop :=
  inv s' /\ tl s' = tl s /\ forall q, view s' 0 q = if path_eqb q p then Some (0, x) else view s 0 q.
Lemma placed_at p x s s' : placed p x s s' -> at_ s' 0 p = Some x.
Proof. intros [[W _] [_ V]]. specialize (V p). rewrite path_eqb_refl in V. exact (view_zero s' p x W V). Qed.

Lemma add_placed c q x s : inv s -> view s 0 (c :: q) = None -> dir_at s 0 q = true ->
  placed (c :: q) x s (set_top_tree (tset (top_tree s) (c :: q) x) s).
Proof.
  intros [W Hh] V D. destruct (wf_split s W) as [l [r ->]]. set (s' := set_top_tree _ _). set (p := c :: q) in *.
  assert (Hn : at_ (l :: r) 0 p = None).
  { destruct (at_ (l :: r) 0 p) as [n|] eqn:E; [|reflexivity]. rewrite (view_top _ p n W E) in V. discriminate. }
  assert (At : forall a, at_ s' 0 a = if path_eqb a p then Some x else at_ (l :: r) 0 a).
  { intros a. apply (node_tset (l_tree l) p x a). discriminate. }
  assert (W' : wf s') by (assert (W0 := W); apply wf_cons in W0 as [W1 W2]; apply wf_cons; split; [apply wf_tset; assumption|exact W2]).
  split; [split; [exact W'|]|].
  { intros a Ha. specialize (Hh a Ha). unfold dir_at in *. rewrite At. destruct (path_eqb a p) eqn:E; [|exact Hh].
    apply path_eqb_eq in E. subst a. rewrite Hn in Hh. discriminate. }
  split; [reflexivity|]. intros a. destruct (path_eqb a p) eqn:E.
  - apply (view_top s' a x W'). rewrite At, E. reflexivity.
  - assert (Ea : at_ s' 0 a = at_ (l :: r) 0 a) by (rewrite At, E; reflexivity).
    destruct (at_ (l :: r) 0 a) as [n|] eqn:E0; [rewrite (view_top s' a n W' Ea), (view_top _ a n W E0); reflexivity|].
    apply opt_pair_ext. intros [|j] n; [split; intros H; apply view_zero in H; try assumption; congruence|].
    rewrite (view_lower s' a j n W'), (view_lower (l :: r) a j n W). change (tl s') with (tl (l :: r)).
    rewrite (hides_marks (l :: r) s' 0 a) by (intros; reflexivity). rewrite Ea, E0.
    split; intros [H1 [H2 [H3 H4]]]; (split; [reflexivity|]; split; [exact H2|]; split; [exact H3|]; intros b Hb; specialize (H4 b Hb); unfold nondir_at in *; rewrite At in *).
    + destruct (path_eqb b p) eqn:Eb; [|exact H4]. apply path_eqb_eq in Eb. subst b. rewrite Hn. reflexivity.
    + destruct (path_eqb b p) eqn:Eb; [|exact H4]. apply path_eqb_eq in Eb. subst b. exfalso.
      (* a name below p would be shown by a lower, so p would be too *)
      assert (Va : view (l :: r) 0 a = Some (S j, n)).
      { apply (view_lower _ a j n W). split; [exact E0|]. split; [exact H2|]. split; [exact H3|]. intros b' Hb'.
        destruct (path_eqb b' p) eqn:Eb'; [apply path_eqb_eq in Eb'; subst b'; unfold nondir_at; rewrite Hn; reflexivity|].
        destruct (wf_cons l r) as [WC _]. destruct (WC W) as [WT _].
        unfold nondir_at. destruct (at_ (l :: r) 0 b') as [y|] eqn:Ey; [|reflexivity]. destruct (is_dir y) eqn:Dy; [reflexivity|]. exfalso.
        (* b' and p are both above a *)
        apply strictly_under_iff in Hb' as [Hb1 _]. apply strictly_under_iff in Hb as [Hb2 _].
        destruct Hb1 as [z1 Hz1]. destruct Hb2 as [z2 Hz2].
        assert (Cmp : under b' p \/ under p b').
        { destruct (le_lt_dec (length b') (length p)) as [Hle|Hlt].
          - left. exists (skipn (length z2) z1). assert (z1 ++ b' = z2 ++ p) by congruence.
            assert (length z2 <= length z1) by (apply (f_equal (@length _)) in H; rewrite !app_length in H; lia).
            clear -H H0. assert (Q : z1 = firstn (length z2) z1 ++ skipn (length z2) z1) by (symmetry; apply firstn_skipn).
            rewrite Q in H at 1. rewrite <- app_assoc in H. assert (L : length (firstn (length z2) z1) = length z2) by (rewrite firstn_length; lia).
            revert H. generalize (firstn (length z2) z1), (skipn (length z2) z1), L. intros u. revert z2 H0 Q L. clear. revert z1.
            intros z1 z2 _ _ _ v L H. revert z2 L H. induction u as [|y u IH]; intros [|y' z2] L H; cbn in *; try discriminate; [congruence|].
            inversion H. apply (IH z2); [lia|assumption].
          - right. exists (skipn (length z1) z2). assert (z2 ++ p = z1 ++ b') by congruence.
            assert (length z1 <= length z2) by (apply (f_equal (@length _)) in H; rewrite !app_length in H; lia).
            clear -H H0. assert (Q : z2 = firstn (length z1) z2 ++ skipn (length z1) z2) by (symmetry; apply firstn_skipn).
            rewrite Q in H at 1. rewrite <- app_assoc in H. assert (L : length (firstn (length z1) z2) = length z1) by (rewrite firstn_length; lia).
            revert H. generalize (firstn (length z1) z2), (skipn (length z1) z2), L. intros u. revert z1 H0 Q L. clear. revert z2.
            intros z2 z1 _ _ _ v L H. revert z1 L H. induction u as [|y u IH]; intros [|y' z1] L H; cbn in *; try discriminate; [congruence|].
            inversion H. apply (IH z1); [lia|assumption]. }
        destruct Cmp as [C|C].
        - apply under_inv in C as [-> | C]; [rewrite path_eqb_refl in Eb'; discriminate|].
          assert (Dq : dir_at (l :: r) 0 b' = true).
          { unfold dir_at in D. destruct (at_ (l :: r) 0 q) as [dq|] eqn:Eq; [|discriminate]. destruct (path_dec b' q) as [-> | Hne].
            - unfold dir_at. rewrite Eq. exact D.
            - apply (at_ancestor _ 0 b' q dq W Eq). apply strictly_under_iff. auto. }
          unfold dir_at in Dq. rewrite Ey in Dq. congruence.
        - rewrite (missing_below _ p b' W Hn C) in Ey. discriminate. }
      destruct (visible_ancestor _ p a _ _ W Hb Va) as [i [m [_ Vp]]]. congruence.
Qed.

(* Replacing what the top holds by a node of the same kind. *)
Lemma node_tset' t p n q : (p = [] -> is_dir n = true) -> node_at (tset t p n) q = if path_eqb q p then Some n else node_at t q.
Proof.
  intros Hp. destruct p as [|c p]; [|apply node_tset; discriminate]. specialize (Hp eq_refl). destruct q as [|c q].
  - cbn [node_at path_eqb]. rewrite tget_tset. cbn. destruct n; try discriminate. reflexivity.
  - cbn [node_at]. rewrite tget_tset. reflexivity.
Qed.
Lemma put_placed p x y s : inv s -> at_ s 0 p = Some y -> is_dir x = is_dir y -> placed p x s (set_top_tree (tset (top_tree s) p x) s).
Proof.
  intros [W Hh] Hy Hk. destruct (wf_split s W) as [l [r ->]]. set (s' := set_top_tree _ _).
  assert (Hr : p = [] -> is_dir x = true).
  { intros ->. rewrite Hk. destruct (at_root (l :: r) 0) as [m Hm]; [cbn; lia|]. rewrite Hm in Hy. inversion Hy. reflexivity. }
  assert (At : forall a, at_ s' 0 a = if path_eqb a p then Some x else at_ (l :: r) 0 a) by (intros a; apply (node_tset' (l_tree l) p x a Hr)).
  assert (Kind : forall a, nondir_at s' 0 a = nondir_at (l :: r) 0 a /\ dir_at s' 0 a = dir_at (l :: r) 0 a).
  { intros a. unfold nondir_at, dir_at. rewrite At. destruct (path_eqb a p) eqn:E; [|auto]. apply path_eqb_eq in E. subst a. rewrite Hy, Hk. auto. }
  assert (W' : wf s').
  { assert (W0 := W). apply wf_cons in W0 as [W1 W2]. apply wf_cons. split; [|exact W2]. intros c q n H. cbn [with_tree l_tree top_tree] in *.
    assert (D : dir_at (l :: r) 0 q = true).
    { rewrite tget_tset in H. destruct (path_eqb (c :: q) p) eqn:E.
      - apply path_eqb_eq in E. subst p. exact (at_parent _ 0 c q y W Hy).
      - exact (at_parent (l :: r) 0 c q n W H). }
    rewrite <- (proj2 (Kind q)) in D. unfold dir_at in D. change (at_ s' 0 q) with (node_at (tset (l_tree l) p x) q) in D.
    destruct (node_at (tset (l_tree l) p x) q) as [[m| | |]|]; try discriminate. eauto. }
  split; [split; [exact W'|]|].
  { intros a Ha. rewrite (proj2 (Kind a)). exact (Hh a Ha). }
  split; [reflexivity|]. intros a. destruct (path_eqb a p) eqn:E.
  - apply (view_top s' a x W'). rewrite At, E. reflexivity.
  - assert (Ea : at_ s' 0 a = at_ (l :: r) 0 a) by (rewrite At, E; reflexivity).
    destruct (at_ (l :: r) 0 a) as [n|] eqn:E0; [rewrite (view_top s' a n W' Ea), (view_top _ a n W E0); reflexivity|].
    apply opt_pair_ext. intros [|j] n; [split; intros H; apply view_zero in H; try assumption; congruence|].
    rewrite (view_lower s' a j n W'), (view_lower (l :: r) a j n W). change (tl s') with (tl (l :: r)).
    rewrite (hides_marks (l :: r) s' 0 a) by (intros; reflexivity). rewrite Ea, E0.
    split; intros [H1 [H2 [H3 H4]]]; (split; [reflexivity|]; split; [exact H2|]; split; [exact H3|]; intros b Hb; specialize (H4 b Hb)).
    + rewrite <- (proj1 (Kind b)). exact H4.
    + rewrite (proj1 (Kind b)). exact H4.
Qed.

(* Changing the marks of a name whose node hides all below it, or that is opaque after. *)
Lemma remark_placed p x s1 s2 s3 : placed p x s1 s2 -> (forall q, strictly_under p q -> view s2 0 q = None) -> remarked p s2 s3 -> held s3 ->
  is_dir x = false \/ opi s3 0 p = true \/ cut_off s3 p -> placed p x s1 s3.
Proof.
  intros P Hnone R H3 C. assert (Ap := placed_at p x s1 s2 P). destruct P as [[W2 H2] [T V]]. assert (W3 := remarked_wf _ _ _ R W2).
  split; [split; assumption|]. split; [rewrite (remarked_tl _ _ _ R); exact T|]. intros q. rewrite <- V.
  assert (A3 : at_ s3 0 p = Some x) by (rewrite (remarked_at _ _ _ _ _ R); exact Ap).
  destruct (within p q) eqn:Hw.
  - apply within_under in Hw. destruct (path_dec p q) as [<- | Hn].
    + rewrite (view_top s3 p x W3 A3), (view_top s2 p x W2 Ap). reflexivity.
    + assert (Hs : strictly_under p q) by (apply strictly_under_iff; auto). rewrite (Hnone q Hs).
      assert (Top : at_ s3 0 q = None).
      { rewrite (remarked_at _ _ _ _ _ R). destruct (at_ s2 0 q) as [n|] eqn:E; [|reflexivity]. specialize (Hnone q Hs). rewrite (view_top s2 q n W2 E) in Hnone. discriminate. }
      destruct C as [C|C].
      * apply (below_nondir s3 p q 0 x W3); [exact (view_top s3 p x W3 A3)|exact C|exact Hs].
      * rewrite (hidden_strict s3 p q W3); [rewrite Top; reflexivity|destruct C as [C|C]; auto|exact Hs].
  - apply within_false in Hw. symmetry. exact (view_outside p s2 s3 q (remarked_agree _ _ _ R) Hw).
Qed.
Lemma held_less s s' : s' <> [] -> (forall a, at_ s' 0 a = at_ s 0 a) -> (forall a, opi s' 0 a = true -> opi s 0 a = true) -> held s -> held s'.
Proof. intros _ H1 H2 H a Ha. unfold dir_at. rewrite H1. apply H, H2, Ha. Qed.

(* Mark setters, seen through the stack. *)
Lemma opi_set_op p s a : s <> [] -> opi (on_top (m_set_op p) s) 0 a = path_eqb a p || opi s 0 a.
Proof.
  destruct s as [|l r]; [congruence|]. intros _. change (opb (m_set_op p l) a = path_eqb a p || opb l a). rewrite opb_set_op.
  destruct (path_eqb a p) eqn:E; [reflexivity|]. destruct (path_eqb p a) eqn:E2; [apply path_eqb_eq in E2; subst; rewrite path_eqb_refl in E; discriminate|].
  cbn. apply andb_true_r.
Qed.
Lemma opi_clear_wh p s a : opi (on_top (m_clear_wh p) s) 0 a = opi s 0 a.
Proof. destruct s; reflexivity. Qed.
Lemma whi_clear_wh p s a : whi (on_top (m_clear_wh p) s) 0 a = whi s 0 a && negb (path_eqb p a).
Proof. destruct s as [|l r]; [reflexivity|]. apply whb_clear_wh. Qed.
Lemma topi_whi s p : topi whb s p = whi s 0 p.
Proof. destruct s; reflexivity. Qed.

(* The tail of a creation: the marks of a fresh name. *)
Lemma placed_none p x s1 s2 : placed p x s1 s2 -> wf s1 -> view s1 0 p = None -> forall q, strictly_under p q -> view s2 0 q = None.
Proof.
  intros [_ [_ V]] W1 N q Hs. rewrite V. assert (E : path_eqb q p = false) by (apply path_eqb_neq; intros ->; apply strictly_under_iff in Hs; tauto).
  rewrite E. apply (below_missing s1 p q W1 N). apply strictly_under_iff in Hs. tauto.
Qed.
Lemma unmask_placed p x s1 s2 : placed p x s1 s2 -> (forall q, strictly_under p q -> view s2 0 q = None) -> is_dir x = false \/ opi s2 0 p = true ->
  placed p x s1 (on_top (m_clear_wh p) s2).
Proof.
  intros P Hn C. assert (Hs : s2 <> []) by apply P. apply (remark_placed p x s1 s2 _ P Hn).
  - apply remarked_clear_wh; [exact Hs|apply under_refl].
  - apply (held_less s2); [destruct s2; [congruence|discriminate]|destruct s2; reflexivity|intros a; rewrite opi_clear_wh; auto|apply P].
  - rewrite opi_clear_wh. tauto.
Qed.
Lemma opaque_placed p m s1 s2 : placed p (ODir m) s1 s2 -> (forall q, strictly_under p q -> view s2 0 q = None) ->
  placed p (ODir m) s1 (on_top (m_set_op p) s2).
Proof.
  intros P Hn. assert (Hs : s2 <> []) by apply P. assert (Ap := placed_at _ _ _ _ P). apply (remark_placed p _ s1 s2 _ P Hn).
  - apply remarked_set_op; [exact Hs|apply under_refl].
  - intros a. rewrite opi_set_op by exact Hs. intros Ha. unfold dir_at. assert (E : at_ (on_top (m_set_op p) s2) 0 a = at_ s2 0 a) by (destruct s2; reflexivity).
    rewrite E. apply orb_true_iff in Ha as [Ha|Ha]; [apply path_eqb_eq in Ha; subst a; rewrite Ap; reflexivity|]. apply P, Ha.
  - right. left. rewrite opi_set_op by exact Hs. rewrite path_eqb_refl. reflexivity.
Qed.

(* What a creating or changing call passes through: copy-ups, then the node in place. *)
Definition making (A : path -> node -> Prop) (p : path) (x : node) (s s' : stack) : Prop :=
  exists s1, grown A s s1 /\ held s1 /\ (s' = s1 \/ placed p x s1 s').
Lemma making_grown (A : path -> node -> Prop) p x s s' : held s -> grown A s s' -> making A p x s s'.
Proof. intros H G. exists s'. split; [exact G|]. split; [exact (grown_held A s s' G H)|left; reflexivity]. Qed.
Lemma mkdir_one_making (A : path -> node -> Prop) c q m s s1 : wf s -> grown A s s1 -> held s1 -> view s 0 (c :: q) = None -> dir_at s1 0 q = true ->
  keeps (making A (c :: q) (ODir m) s) (mkdir_one (c :: q) m s1) /\
  (err_opt (mkdir_one (c :: q) m s1) = None -> placed (c :: q) (ODir m) s1 (end_of (mkdir_one (c :: q) m s1)) /\
     whi (end_of (mkdir_one (c :: q) m s1)) 0 (c :: q) = false /\ opi (end_of (mkdir_one (c :: q) m s1)) 0 (c :: q) = true).
Proof.
  intros W G H V D. assert (W1 := grown_wf _ _ _ G). set (p := c :: q) in *. assert (V1 : view s1 0 p = None) by exact (grown_none A s s1 p W G V).
  assert (Hs : s1 <> []) by apply W1. assert (N1 : node_at (top_tree s1) p = None).
  { rewrite <- at_top by exact Hs. destruct (at_ s1 0 p) as [y|] eqn:E; [|reflexivity]. rewrite (view_top s1 p y W1 E) in V1. discriminate. }
  unfold mkdir_one. assert (Ea : t_add p (ODir m) s1 = step (set_top_tree (tset (top_tree s1) p (ODir m)) s1)).
  { unfold t_add, p. fold p. rewrite N1. rewrite dir_holds in D by exact Hs. rewrite D. reflexivity. }
  rewrite Ea. set (s2 := set_top_tree _ s1). assert (P2 : placed p (ODir m) s1 s2) by (apply add_placed; [split; assumption|exact V1|exact D]).
  assert (P3 : placed p (ODir m) s1 (on_top (m_set_op p) s2)) by (apply opaque_placed; [exact P2|exact (placed_none _ _ _ _ P2 W1 V1)]).
  assert (O3 : opi (on_top (m_set_op p) s2) 0 p = true) by (rewrite opi_set_op by apply P2; rewrite path_eqb_refl; reflexivity).
  assert (P4 : placed p (ODir m) s1 (on_top (m_clear_wh p) (on_top (m_set_op p) s2))).
  { apply unmask_placed; [exact P3|exact (placed_none _ _ _ _ P3 W1 V1)|right; exact O3]. }
  assert (Mk : forall s', placed p (ODir m) s1 s' -> making A p (ODir m) s s') by (intros s' P; exists s1; auto).
  unfold set_opaque, unmask, clear_whiteout. cbn [bind step]. set (s3 := on_top (m_set_op p) s2) in *.
  rewrite topi_whi. destruct (whi s3 0 p) eqn:Ew.
  - split; [split; cbn; [repeat constructor; apply Mk; assumption|apply Mk; exact P4]|]. intros _. cbn [end_of fst snd step]. split; [exact P4|].
    rewrite whi_clear_wh, path_eqb_refl, andb_false_r, opi_clear_wh. auto.
  - split; [split; cbn; [repeat constructor; apply Mk; assumption|apply Mk; exact P3]|]. intros _. cbn [end_of fst snd ret]. auto.
Qed.
(* t_add followed by a mark clearing, for nodes that are no directories. *)
Lemma add_unmask_making (A : path -> node -> Prop) c q x s s1 : wf s -> grown A s s1 -> held s1 -> view s 0 (c :: q) = None -> dir_at s1 0 q = true -> is_dir x = false ->
  t_add (c :: q) x s1 = step (set_top_tree (tset (top_tree s1) (c :: q) x) s1) /\
  placed (c :: q) x s1 (set_top_tree (tset (top_tree s1) (c :: q) x) s1) /\
  placed (c :: q) x s1 (on_top (m_clear_wh (c :: q)) (set_top_tree (tset (top_tree s1) (c :: q) x) s1)).
Proof.
  intros W G H V D Hx. assert (W1 := grown_wf _ _ _ G). set (p := c :: q) in *. assert (V1 : view s1 0 p = None) by exact (grown_none A s s1 p W G V).
  assert (Hs : s1 <> []) by apply W1. assert (N1 : node_at (top_tree s1) p = None).
  { rewrite <- at_top by exact Hs. destruct (at_ s1 0 p) as [y|] eqn:E; [|reflexivity]. rewrite (view_top s1 p y W1 E) in V1. discriminate. }
  assert (Ea : t_add p x s1 = step (set_top_tree (tset (top_tree s1) p x) s1)).
  { unfold t_add, p. fold p. rewrite N1. rewrite dir_holds in D by exact Hs. rewrite D. reflexivity. }
  assert (P2 : placed p x s1 (set_top_tree (tset (top_tree s1) p x) s1)) by (apply add_placed; [split; assumption|exact V1|exact D]).
  split; [exact Ea|]. split; [exact P2|]. apply unmask_placed; [exact P2|exact (placed_none _ _ _ _ P2 W1 V1)|left; exact Hx].
Qed.
Lemma unmask_making (A : path -> node -> Prop) c q x s s1 : wf s -> grown A s s1 -> held s1 -> view s 0 (c :: q) = None -> dir_at s1 0 q = true -> is_dir x = false ->
  keeps (making A (c :: q) x s) (s2 <- t_add (c :: q) x s1 ;; unmask (c :: q) s2) /\
  placed (c :: q) x s1 (end_of (s2 <- t_add (c :: q) x s1 ;; unmask (c :: q) s2)) /\
  whi (end_of (s2 <- t_add (c :: q) x s1 ;; unmask (c :: q) s2)) 0 (c :: q) = false.
Proof.
  intros W G H V D Hx. destruct (add_unmask_making A c q x s s1 W G H V D Hx) as [-> [P2 P3]].
  assert (Mk : forall s', placed (c :: q) x s1 s' -> making A (c :: q) x s s') by (intros s' P; exists s1; auto).
  unfold unmask, clear_whiteout. cbn [bind step]. rewrite topi_whi. set (s2 := set_top_tree _ s1) in *. destruct (whi s2 0 (c :: q)) eqn:Ew.
  - cbn [end_of fst snd step]. split; [split; cbn; [repeat constructor; apply Mk; assumption|apply Mk; exact P3]|]. split; [exact P3|].
    rewrite whi_clear_wh, path_eqb_refl, andb_false_r. reflexivity.
  - cbn [end_of fst snd ret]. split; [split; cbn; [repeat constructor; apply Mk; assumption|apply Mk; exact P2]|]. auto.
Qed.

(* --- the calls --- *)
Definition dirs_above (p : path) (a : path) (x : node) : Prop := under a (tl p) /\ is_dir x = true.
Lemma create_spec be c q s : inv s -> plain_at s q -> view s 0 (c :: q) = None -> forall x fin,
  (forall s1, grown (dirs_above (c :: q)) s s1 -> held s1 -> dir_at s1 0 q = true -> keeps (making (dirs_above (c :: q)) (c :: q) x s) (fin s1) /\
     (err_opt (fin s1) = None -> placed (c :: q) x s1 (end_of (fin s1)))) ->
  keeps (making (dirs_above (c :: q)) (c :: q) x s) (bind (ensure_parent be (c :: q) s) fin) /\
  (err_opt (bind (ensure_parent be (c :: q) s) fin) = None -> exists s1, grown (dirs_above (c :: q)) s s1 /\ held s1 /\ placed (c :: q) x s1 (end_of (bind (ensure_parent be (c :: q) s) fin))).
Proof.
  intros [W H] U V x fin F. destruct (ensure_parent_grows be c q s W H U) as [K E].
  change (fun a x => under a q /\ is_dir x = true) with (dirs_above (c :: q)) in K.
  set (a0 := ensure_parent be (c :: q) s) in *. assert (G : grown (dirs_above (c :: q)) s (end_of a0)) by apply K. assert (H1 := grown_held _ _ _ G H).
  split.
  - apply keeps_bind; [eapply keeps_weaken; [|exact K]; intros s'; apply making_grown, H|]. intros Hok. apply (F _ G H1 (E Hok)).
  - intros Hok. apply bind_ok' in Hok as [Hok1 [Hok2 ->]]. exists (end_of a0). split; [exact G|]. split; [exact H1|]. apply (F _ G H1 (E Hok1)), Hok2.
Qed.
Lemma view_root_some s : wf s -> view s 0 [] <> None.
Proof. intros W. destruct (view_root s 0 (wf_len s W)) as [m Hm]. congruence. Qed.

Theorem mkdir_spec be p m s : inv s -> plain_at s p -> plain_at s (tl p) ->
  keeps (making (dirs_above p) p (ODir m) s) (mkdir be p m s) /\
  (err_opt (mkdir be p m s) = None -> view s 0 p = None /\ exists s1, grown (dirs_above p) s s1 /\ held s1 /\ placed p (ODir m) s1 (end_of (mkdir be p m s))) /\
  (view s 0 p <> None -> end_of (mkdir be p m s) = s /\ states_of (mkdir be p m s) = []).
Proof.
  intros [W H] U U'. unfold mkdir. assert (L := lookup_plain be s p W U).
  assert (G0 : making (dirs_above p) p (ODir m) s s) by (apply making_grown; [exact H|apply grown_refl, W]).
  destruct (lookup be s p) as [i n| | |]; try (split; [apply keeps_fail, G0|split; [discriminate|auto]]).
  destruct p as [|c q]; [exfalso; exact (view_root_some s W L)|].
  destruct (create_spec be c q s (conj W H) U' L (ODir m) (mkdir_one (c :: q) m)) as [K E].
  { intros s1 G H1 D. destruct (mkdir_one_making _ c q m s s1 W G H1 L D) as [K E]. split; [exact K|]. intros Hok. apply E, Hok. }
  split; [exact K|]. split; [intros Hok; split; [exact L|exact (E Hok)]|]. intros Hn. congruence.
Qed.
Theorem symlink_spec be t p s : inv s -> plain_at s p -> plain_at s (tl p) ->
  keeps (making (dirs_above p) p (OLink t) s) (symlink be t p s) /\
  (err_opt (symlink be t p s) = None -> view s 0 p = None /\ exists s1, grown (dirs_above p) s s1 /\ held s1 /\ placed p (OLink t) s1 (end_of (symlink be t p s))) /\
  (view s 0 p <> None -> end_of (symlink be t p s) = s /\ states_of (symlink be t p s) = []).
Proof.
  intros [W H] U U'. unfold symlink. assert (L := lookup_plain be s p W U).
  assert (G0 : making (dirs_above p) p (OLink t) s s) by (apply making_grown; [exact H|apply grown_refl, W]).
  destruct (lookup be s p) as [i n| | |]; try (split; [apply keeps_fail, G0|split; [discriminate|auto]]).
  destruct p as [|c q]; [exfalso; exact (view_root_some s W L)|].
  destruct (create_spec be c q s (conj W H) U' L (OLink t) (fun s1 => s2 <- t_add (c :: q) (OLink t) s1 ;; unmask (c :: q) s2)) as [K E].
  { intros s1 G H1 D. destruct (unmask_making _ c q (OLink t) s s1 W G H1 L D eq_refl) as [K [P _]]. auto. }
  split; [exact K|]. split; [intros Hok; split; [exact L|exact (E Hok)]|]. intros Hn. congruence.
Qed.

Definition open_state (p : path) (s s' : stack) : Prop := exists x, making (copy_way p) p x s s'.
Lemma placed_same p x s : inv s -> view s 0 p = Some (0, x) -> placed p x s s.
Proof.
  intros I V. split; [exact I|]. split; [reflexivity|]. intros q. destruct (path_eqb q p) eqn:E; [|reflexivity]. apply path_eqb_eq in E. subst q. exact V.
Qed.
Lemma t_put_ok p x y s : at_ s 0 p = Some y -> t_put p x s = step (set_top_tree (tset (top_tree s) p x) s).
Proof. intros H. assert (s <> []) by (intros ->; discriminate). rewrite at_top in H by assumption. unfold t_put. rewrite H. reflexivity. Qed.

(* Opening for writing a name that is there, Chmod, and writing through the handle. *)
Theorem open_old_spec be p creating excl trunc m s : inv s -> plain_at s p -> view s 0 p <> None ->
  keeps (open_state p s) (open_write be p creating excl trunc m s) /\ (err_opt (open_write be p creating excl trunc m s) = None -> creating && excl = false /\ exists s1 m0 d,
     grown (copy_way p) s s1 /\ view s1 0 p = Some (0, OFile m0 d) /\ placed p (OFile m0 (if trunc then 0%N else d)) s1 (end_of (open_write be p creating excl trunc m s))).
Proof.
  intros [W H] U V. unfold open_write. assert (L := lookup_plain be s p W U).
  assert (G0 : open_state p s s) by (exists (ODir 0); apply making_grown; [exact H|apply grown_refl, W]).
  destruct (lookup be s p) as [i n| | |]; try (split; [apply keeps_fail, G0|discriminate]); [|contradiction].
  destruct (is_dir n) eqn:D; [split; [apply keeps_fail, G0|discriminate]|].
  destruct (creating && excl) eqn:CE; [split; [apply keeps_fail, G0|discriminate]|].
  destruct (copy_up_grows be p s W H U) as [K E]. set (a0 := copy_up be p s) in *.
  assert (G : grown (copy_way p) s (end_of a0)) by apply K. set (s1 := end_of a0) in *.
  assert (I1 : inv s1) by (split; [exact (grown_wf _ _ _ G)|exact (grown_held _ _ _ G H)]).
  assert (O : err_opt a0 = None -> keeps (open_state p s) (open_top p creating excl trunc m s1) /\   (err_opt (open_top p creating excl trunc m s1) = None -> exists m0 d, view s1 0 p = Some (0, OFile m0 d) /\      placed p (OFile m0 (if trunc then 0%N else d)) s1 (end_of (open_top p creating excl trunc m s1)))).
  { intros Hok. assert (N1 := E Hok V). fold s1 in N1. destruct (at_ s1 0 p) as [y|] eqn:Ey; [|congruence].
    assert (F : open_state p s s1) by (exists (ODir 0); apply making_grown; assumption).
    unfold open_top. assert (Ey' := Ey). rewrite at_top in Ey' by apply I1. rewrite Ey'. destruct y as [mm|m0 d|g|mm]; try (split; [apply keeps_fail, F|discriminate]).
    rewrite CE. destruct trunc.
    - rewrite (t_put_ok p _ _ s1 Ey). assert (P := put_placed p (OFile m0 0) _ s1 I1 Ey eq_refl).
      split; [apply keeps_step; exists (OFile m0 0); exists s1; split; [exact G|]; split; [apply I1|right; exact P]|].
      intros _. exists m0, d. split; [exact (view_top s1 p _ (proj1 I1) Ey)|exact P].
    - split; [apply keeps_ret, F|]. intros _. exists m0, d. assert (V1 := view_top s1 p _ (proj1 I1) Ey). split; [exact V1|]. apply placed_same; assumption. }
  split.
  - apply keeps_bind; [|intros Hok; apply O, Hok]. eapply keeps_weaken; [|exact K]. intros s' G'. exists (ODir 0). apply making_grown; assumption.
  - intros Hok. apply bind_ok' in Hok as [H1 [H2 H3]]. split; [reflexivity|]. destruct (proj2 (O H1) H2) as [m0 [d [Vd P]]]. exists s1, m0, d. rewrite H3. auto.
Qed.
Theorem open_new_spec be p creating excl trunc m s : inv s -> plain_at s p -> plain_at s (tl p) -> view s 0 p = None ->
  keeps (making (dirs_above p) p (OFile m 0) s) (open_write be p creating excl trunc m s) /\ (err_opt (open_write be p creating excl trunc m s) = None -> creating = true /\ exists s1, grown (dirs_above p) s s1 /\ held s1 /\     placed p (OFile m 0) s1 (end_of (open_write be p creating excl trunc m s))).
Proof.
  intros [W H] U U' V. unfold open_write. assert (L := lookup_plain be s p W U).
  assert (G0 : making (dirs_above p) p (OFile m 0) s s) by (apply making_grown; [exact H|apply grown_refl, W]).
  destruct (lookup be s p) as [i n| | |]; try (split; [apply keeps_fail, G0|discriminate]); [congruence|].
  destruct creating; [|split; [apply keeps_fail, G0|discriminate]].
  destruct p as [|c q]; [exfalso; exact (view_root_some s W V)|].
  set (fin := fun s1 => s2 <- open_top (c :: q) true excl trunc m s1 ;; if topi whb s1 (c :: q) then clear_whiteout (c :: q) s2 else ret s2).
  destruct (create_spec be c q s (conj W H) U' V (OFile m 0) fin) as [K E]; [|split; [exact K|intros Hok; split; [reflexivity|exact (E Hok)]]].
  intros s1 G H1 D. destruct (add_unmask_making _ c q (OFile m 0) s s1 W G H1 V D eq_refl) as [Ea [P2 P3]].
  assert (N1 : node_at (top_tree s1) (c :: q) = None).
  { assert (W1 := grown_wf _ _ _ G). rewrite <- at_top by apply W1. destruct (at_ s1 0 (c :: q)) as [y|] eqn:Ey; [|reflexivity].
    assert (V1 := grown_none _ s s1 _ W G V). rewrite (view_top s1 _ y W1 Ey) in V1. discriminate. }
  assert (Mk : forall s', placed (c :: q) (OFile m 0) s1 s' -> making (dirs_above (c :: q)) (c :: q) (OFile m 0) s s') by (intros s' P; exists s1; auto).
  assert (Eo : open_top (c :: q) true excl trunc m s1 = t_add (c :: q) (OFile m 0) s1) by (unfold open_top; rewrite N1; reflexivity).
  unfold fin. rewrite Eo, Ea. cbn [bind step]. destruct (topi whb s1 (c :: q)); unfold clear_whiteout; cbn [step ret].
  - split; [split; cbn; [repeat constructor; apply Mk; assumption|apply Mk; exact P3]|]. intros _. exact P3.
  - split; [split; cbn; [repeat constructor; apply Mk; assumption|apply Mk; exact P2]|]. intros _. exact P2.
Qed.
Theorem chmod_spec be p m s : inv s -> plain_at s p ->
  keeps (open_state p s) (chmod be p m s) /\ (err_opt (chmod be p m s) = None -> exists s1 n, grown (copy_way p) s s1 /\ view s1 0 p = Some (0, n) /\ placed p (chmoded n m) s1 (end_of (chmod be p m s))).
Proof.
  intros [W H] U. unfold chmod. destruct (copy_up_grows be p s W H U) as [K _]. set (a0 := copy_up be p s) in *.
  assert (G : grown (copy_way p) s (end_of a0)) by apply K. set (s1 := end_of a0) in *.
  assert (I1 : inv s1) by (split; [exact (grown_wf _ _ _ G)|exact (grown_held _ _ _ G H)]).
  assert (F : open_state p s s1) by (exists (ODir 0); apply making_grown; assumption).
  assert (K0 : keeps (open_state p s) a0) by (eapply keeps_weaken; [|exact K]; intros s' G'; exists (ODir 0); apply making_grown; assumption).
  destruct (node_at (top_tree s1) p) as [n|] eqn:En.
  - assert (En' := En). rewrite <- at_top in En' by apply I1.
    assert (P : placed p (chmoded n m) s1 (set_top_tree (tset (top_tree s1) p (chmoded n m)) s1)) by (apply (put_placed p _ n s1 I1 En'); destruct n; reflexivity).
    split.
    + apply keeps_bind; [exact K0|]. fold s1. intros _. rewrite En. rewrite (t_put_ok p _ n s1 En'). apply keeps_step. exists (chmoded n m), s1.
      split; [exact G|]. split; [apply I1|right; exact P].
    + intros Hok. apply bind_ok' in Hok as [H1 [H2 H3]]. rewrite H3. fold s1. rewrite En. rewrite (t_put_ok p _ n s1 En'). exists s1, n.
      split; [exact G|]. split; [exact (view_top s1 p n (proj1 I1) En')|exact P].
  - split.
    + apply keeps_bind; [exact K0|]. fold s1. intros _. rewrite En. apply keeps_fail, F.
    + intros Hok. apply bind_ok' in Hok as [H1 [H2 H3]]. fold s1 in H2. rewrite En in H2. discriminate.
Qed.
Theorem write_spec p d s : inv s ->
  (exists m d0, view s 0 p = Some (0, OFile m d0) /\ states_of (write_file p d s) = [end_of (write_file p d s)] /\ placed p (OFile m d) s (end_of (write_file p d s))) \/
  ((forall m d0, view s 0 p <> Some (0, OFile m d0)) /\ write_file p d s = ret s).
Proof.
  intros I. assert (W := proj1 I). unfold write_file. destruct (node_at (top_tree s) p) as [[mm|m d0|g|mm]|] eqn:E.
  2: { left. rewrite <- at_top in E by apply W. exists m, d0. split; [exact (view_top s p _ W E)|]. rewrite (t_put_ok p _ _ s E). split; [reflexivity|].
       exact (put_placed p (OFile m d) _ s I E eq_refl). }
  all: right; split; [intros m' d' V; apply (view_zero s p _ W) in V; rewrite at_top in V by apply W; congruence|reflexivity].
Qed.
(* Hard links. *)
Definition link_way (o n a : path) (x : node) : Prop := copy_way o a x \/ dirs_above n a x.
Theorem hardlink_spec be o n s : inv s -> plain_at s o -> plain_at s n -> plain_at s (tl n) -> ~ under o n ->
  keeps (fun s' => exists x, making (link_way o n) n x s s') (hardlink be o n s) /\ (err_opt (hardlink be o n s) = None -> view s 0 n = None /\ exists s1 x, grown (link_way o n) s s1 /\ view s1 0 o = Some (0, x) /\ is_dir x = false /\     placed n x s1 (end_of (hardlink be o n s))).
Proof.
  intros [W H] Uo Un Ut Hun. unfold hardlink. assert (Lo := lookup_plain be s o W Uo). assert (Ln := lookup_plain be s n W Un).
  assert (Mg : forall s', grown (link_way o n) s s' -> exists x, making (link_way o n) n x s s') by (intros s' G; exists (ODir 0); apply making_grown; assumption).
  assert (G0 := Mg s (grown_refl _ s W)).
  destruct (lookup be s o) as [i x| | |]; try (split; [apply keeps_fail, G0|discriminate]).
  destruct (lookup be s n) as [j y| | |]; try (split; [apply keeps_fail, G0|discriminate]).
  destruct n as [|c q]; [exfalso; exact (view_root_some s W Ln)|]. cbn [tl] in Ut.
  destruct (copy_up_grows be o s W H Uo) as [K1 E1]. set (a1 := copy_up be o s) in *.
  assert (K1' : keeps (grown (link_way o (c :: q)) s) a1) by (eapply keeps_weaken; [|exact K1]; intros s'; apply grown_mono; intros a z Hz; left; exact Hz).
  assert (G1' : grown (copy_way o) s (end_of a1)) by apply K1. assert (G1 : grown (link_way o (c :: q)) s (end_of a1)) by apply K1'. set (s1 := end_of a1) in *.
  assert (W1 := grown_wf _ _ _ G1). assert (H1 := grown_held _ _ _ G1 H).
  assert (Ut1 : plain_at s1 q).
  { apply (grown_plain _ s s1 q G1'); [|exact Ut]. intros a z [_ [-> | Hz]] Hs; [|exact Hz]. exfalso. apply Hun, under_cons. apply strictly_under_iff in Hs. tauto. }
  destruct (ensure_parent_grows be c q s1 W1 H1 Ut1) as [K2 E2]. set (a2 := ensure_parent be (c :: q) s1) in *.
  assert (K2' : keeps (grown (link_way o (c :: q)) s) a2).
  { eapply keeps_weaken; [|exact K2]. intros s' G'. eapply grown_trans; [exact W|exact G1|]. eapply grown_mono; [|exact G']. intros a z Hz. right. exact Hz. }
  assert (G2 : grown (link_way o (c :: q)) s (end_of a2)) by apply K2'. assert (G2' : grown (fun a x => under a q /\ is_dir x = true) s1 (end_of a2)) by apply K2.
  set (s2 := end_of a2) in *. assert (H2 := grown_held _ _ _ G2 H). assert (W2 := grown_wf _ _ _ G2).
  set (fin := fun s2 => s3 <- t_link o (c :: q) s2 ;; unmask (c :: q) s3).
  assert (F : err_opt a2 = None -> keeps (fun s' => exists x, making (link_way o (c :: q)) (c :: q) x s s') (fin s2) /\   (err_opt (fin s2) = None -> exists z, view s2 0 o = Some (0, z) /\ is_dir z = false /\ placed (c :: q) z s2 (end_of (fin s2)))).
  { intros Hok. specialize (E2 Hok). fold s2 in E2. unfold fin, t_link. destruct (node_at (top_tree s2) o) as [z|] eqn:Ez.
    - destruct (is_dir z) eqn:Dz.
      + destruct z; try discriminate. cbn [bind fail]. split; [apply (keeps_fail _ s2), Mg, G2|discriminate].
      + assert (T : match z with ODir _ => fail s2 EOther | _ => t_add (c :: q) z s2 end = t_add (c :: q) z s2) by (destruct z; try reflexivity; discriminate).
        rewrite T. destruct (unmask_making (link_way o (c :: q)) c q z s s2 W G2 H2 Ln E2 Dz) as [K [P _]]. split.
        * eapply keeps_weaken; [|exact K]. intros s' M. exists z. exact M.
        * intros _. exists z. split; [|auto]. apply (view_top s2 o z W2). rewrite at_top by apply W2. exact Ez.
    - cbn [bind fail]. split; [apply (keeps_fail _ s2), Mg, G2|discriminate]. }
  assert (KM : forall a, keeps (grown (link_way o (c :: q)) s) a -> keeps (fun s' => exists x, making (link_way o (c :: q)) (c :: q) x s s') a) by (intros a; apply keeps_weaken, Mg).
  split.
  - apply keeps_bind; [apply KM, K1'|]. fold s1. intros _. apply (keeps_bind _ a2 fin); [apply KM, K2'|]. intros Hok. apply F, Hok.
  - intros Hok. apply bind_ok' in Hok as [Ha [Hb Hc]]. fold s1 in Hb, Hc. apply (bind_ok' a2 fin) in Hb as [Hb1 [Hb2 Hb3]].
    split; [exact Ln|]. destruct (proj2 (F Hb1) Hb2) as [z [V [D P]]]. exists s2, z. split; [exact G2|]. split; [exact V|]. split; [exact D|].
    assert (Eq : end_of (fin s2) = end_of (bind a1 (fun s => s <- ensure_parent be (c :: q) s ;; s <- t_link o (c :: q) s ;; unmask (c :: q) s))) by exact (eq_sym (eq_trans Hc Hb3)).
    rewrite Eq in P. exact P.
Qed.

(* Summaries in terms of the merged tree. *)
Lemma soc_refl s q : same_or_copied s s q.
Proof. left. reflexivity. Qed.
Lemma soc_trans s1 s2 s3 q : same_or_copied s1 s2 q -> same_or_copied s2 s3 q -> same_or_copied s1 s3 q.
Proof.
  intros [E1|[j [n [x [A1 [A2 A3]]]]]] [E2|[j' [n' [x' [B1 [B2 B3]]]]]].
  - left. congruence.
  - right. exists j', n', x'. split; [congruence|auto].
  - right. exists j, n, x. split; [exact A1|]. split; [congruence|exact A3].
  - congruence.
Qed.
Lemma grown_soc A s s' q : wf s -> grown A s s' -> same_or_copied s s' q.
Proof. intros W G. destruct (grown_view A s s' q W G) as [E|[j [n [x [H1 [H2 [H3 _]]]]]]]; [left; exact E|right; exists j, n, x; auto]. Qed.
Lemma soc_none s s' q : same_or_copied s s' q -> (view s' 0 q = None <-> view s 0 q = None).
Proof. intros [-> | [j [n [x [-> [-> _]]]]]]; split; auto; discriminate. Qed.
Lemma soc_top s s' q n : same_or_copied s s' q -> view s 0 q = Some (0, n) -> view s' 0 q = Some (0, n).
Proof. intros [-> | [j [y [x [H _]]]]] V; congruence. Qed.
Lemma making_inv A p x s s' : making A p x s s' -> inv s'.
Proof. intros [s1 [G [H [-> | P]]]]; [split; [exact (grown_wf _ _ _ G)|exact H]|apply P]. Qed.
Lemma making_tl A p x s s' : making A p x s s' -> tl s' = tl s.
Proof. intros [s1 [G [H [-> | P]]]]; [apply G|]. destruct P as [_ [-> _]]. apply G. Qed.
Lemma making_soc A p x s s' q : wf s -> making A p x s s' -> same_or_copied s s' q \/ (q = p /\ view s' 0 p = Some (0, x)).
Proof.
  intros W [s1 [G [H [-> | [_ [_ V]]]]]]; [left; exact (grown_soc A s s1 q W G)|].
  destruct (path_dec q p) as [-> | Hn]; [right; split; [reflexivity|rewrite V, path_eqb_refl; reflexivity]|].
  left. destruct (grown_soc A s s1 q W G) as [E|E].
  - left. rewrite V. apply path_eqb_neq in Hn. rewrite Hn. exact E.
  - right. rewrite V. apply path_eqb_neq in Hn. rewrite Hn. exact E.
Qed.
Lemma making_where A p x s s' q : wf s -> making A p x s s' -> q <> p -> view s' 0 q = view s 0 q \/ exists y, A q y.
Proof.
  intros W [s1 [G [H M]]] Hn. assert (E : view s' 0 q = view s1 0 q).
  { destruct M as [-> | [_ [_ V]]]; [reflexivity|]. rewrite V. apply path_eqb_neq in Hn. rewrite Hn. reflexivity. }
  rewrite E. destruct (grown_view A s s1 q W G) as [E'|[j [n [y [_ [_ [_ HA]]]]]]]; [left; exact E'|right; eauto].
Qed.

(* MkdirAll. *)
Lemma under_cmp a b p : under a p -> under b p -> under a b \/ under b a.
Proof.
  intros Ha. revert b. induction p as [|c p IH]; intros b Hb.
  - apply under_nil_r in Ha, Hb. subst. left. apply under_refl.
  - apply under_inv in Hb as [-> | Hb]; [left; exact Ha|]. apply under_inv in Ha as [-> | Ha]; [right; apply under_cons, Hb|]. exact (IH Ha b Hb).
Qed.
Definition mkdirs (p : path) (m : N) (s s' : stack) : Prop :=
  inv s' /\ tl s' = tl s /\ forall q, same_or_copied s s' q \/ (view s 0 q = None /\ q <> [] /\ under q p /\ view s' 0 q = Some (0, ODir m)).
Lemma mkdirs_refl p m s : inv s -> mkdirs p m s s.
Proof. intros I. split; [exact I|]. split; [reflexivity|]. intros q. left. apply soc_refl. Qed.
Lemma mkdirs_making p m s s1 s' c q : mkdirs p m s s1 -> making (dirs_above (c :: q)) (c :: q) (ODir m) s1 s' -> view s1 0 (c :: q) = None -> under (c :: q) p -> mkdirs p m s s'.
Proof.
  intros [I1 [T1 M1]] Mk V Hu. split; [exact (making_inv _ _ _ _ _ Mk)|]. split; [rewrite (making_tl _ _ _ _ _ Mk); exact T1|].
  intros a. destruct (making_soc _ _ _ _ _ a (proj1 I1) Mk) as [E|[-> E]].
  - destruct (M1 a) as [E1|[H1 [H2 [H3 H4]]]]; [left; exact (soc_trans _ _ _ _ E1 E)|right]. split; [exact H1|]. split; [exact H2|]. split; [exact H3|]. exact (soc_top _ _ _ _ E H4).
  - destruct (M1 (c :: q)) as [E1|[_ [_ [_ H4]]]]; [|congruence]. right. split; [exact (proj1 (soc_none _ _ _ E1) V)|]. split; [discriminate|]. auto.
Qed.
Lemma opaque_plain s p a : inv s -> opi s 0 p = true -> (forall b, strictly_under p b -> view s 0 b = None) -> strictly_under p a -> plain_at s a.
Proof.
  intros [W H] O N Ha. left. intros [i [b [g [Hi [Hb Hg]]]]].
  assert (C := proj1 (cut_spec s a 0 i ltac:(lia) (wf_len s W)) Hi).
  destruct i as [|i].
  - assert (Hd := H p O). apply strictly_under_iff in Ha as [Ha _]. apply strictly_under_iff in Hb as [Hb _].
    destruct (under_cmp b p a Hb Ha) as [Cm|Cm].
    + destruct (path_dec b p) as [-> | Hne]; [unfold dir_at in Hd; rewrite Hg in Hd; discriminate|].
      assert (Hs : strictly_under b p) by (apply strictly_under_iff; auto). unfold dir_at in Hd. destruct (at_ s 0 p) as [x|] eqn:Ex; [|discriminate].
      assert (D := at_ancestor s 0 b p x W Ex Hs). unfold dir_at in D. rewrite Hg in D. discriminate.
    + destruct (path_dec p b) as [<- | Hne]; [unfold dir_at in Hd; rewrite Hg in Hd; discriminate|].
      assert (Hs : strictly_under p b) by (apply strictly_under_iff; auto). specialize (N b Hs). rewrite (view_top s b _ W Hg) in N. discriminate.
  - exfalso. destruct C as [_ C]. apply (C 0 ltac:(lia)). right. exists p. auto.
Qed.
Lemma for_each_app f xs ys s : for_each f (xs ++ ys) s = bind (for_each f xs s) (for_each f ys).
Proof.
  revert s. induction xs as [|x xs IH]; intros s; cbn [app for_each].
  - cbn. destruct (for_each f ys s) as [[tr s'] e]. reflexivity.
  - destruct (f x s) as [[tr s1] [e|]]; cbn [bind]; [reflexivity|]. rewrite IH. destruct (for_each f xs s1) as [[tr2 s2] [e|]]; cbn [bind]; [reflexivity|].
    destruct (for_each f ys s2) as [[tr3 s3] e3]. rewrite app_assoc. reflexivity.
Qed.
Lemma bind_ret a : bind a ret = a.
Proof. destruct a as [[tr s] [e|]]; cbn; [reflexivity|]. rewrite app_nil_r. reflexivity. Qed.
Lemma for_each_one f x s : for_each f [x] s = f x s.
Proof. cbn. apply bind_ret. Qed.
Theorem mkdir_all_spec be p m s : inv s -> clear_way s p ->
  keeps (mkdirs p m s) (mkdir_all be p m s) /\
  (err_opt (mkdir_all be p m s) = None -> exists j mode, view (end_of (mkdir_all be p m s)) 0 p = Some (j, ODir mode)).
Proof.
  intros I C. unfold mkdir_all.
  assert (G : forall q, under q p -> keeps (mkdirs p m s) (for_each (mkdir_level be m) (ancestry q) s) /\
    (err_opt (for_each (mkdir_level be m) (ancestry q) s) = None ->
      (exists j mode, view (end_of (for_each (mkdir_level be m) (ancestry q) s)) 0 q = Some (j, ODir mode)) /\
      forall a, under q a -> under a p -> plain_at (end_of (for_each (mkdir_level be m) (ancestry q) s)) a)).
  { induction q as [|c q IH]; intros Hq.
    - cbn. split; [apply keeps_ret, mkdirs_refl, I|]. intros _. split; [|intros a _ Ha; exact (C a Ha)].
      destruct (view_root s 0 (wf_len s (proj1 I))) as [mr Hr]. eauto.
    - cbn [ancestry]. rewrite for_each_app. assert (Hq' : under q p) by (apply (under_trans q (c :: q) p); [apply under_cons, under_refl|exact Hq]).
      destruct (IH Hq') as [K E]. clear IH. set (a1 := for_each (mkdir_level be m) (ancestry q) s) in *. assert (M1 : mkdirs p m s (end_of a1)) by apply K.
      set (s1 := end_of a1) in *. assert (I1 : inv s1) by apply M1.
      assert (L : err_opt a1 = None -> keeps (mkdirs p m s) (mkdir_level be m (c :: q) s1) /\
        (err_opt (mkdir_level be m (c :: q) s1) = None -> (exists j mode, view (end_of (mkdir_level be m (c :: q) s1)) 0 (c :: q) = Some (j, ODir mode)) /\
          forall a, under (c :: q) a -> under a p -> plain_at (end_of (mkdir_level be m (c :: q) s1)) a)).
      { intros Hok. destruct (E Hok) as [_ Pl]. assert (U1 : plain_at s1 (c :: q)) by (apply Pl; [apply under_cons, under_refl|exact Hq]).
        assert (U2 : plain_at s1 q) by (apply Pl; [apply under_refl|exact Hq']).
        unfold mkdir_level. assert (Lk := lookup_plain be s1 (c :: q) (proj1 I1) U1).
        destruct (lookup be s1 (c :: q)) as [i n| | |]; try (split; [apply keeps_fail, M1|discriminate]).
        - destruct (is_dir n) eqn:D; [|split; [apply keeps_fail, M1|discriminate]]. split; [apply keeps_ret, M1|]. intros _. cbn. split.
          + destruct n; try discriminate. eauto.
          + intros a Ha Hp. apply Pl; [|exact Hp]. apply (under_trans q (c :: q) a); [apply under_cons, under_refl|exact Ha].
        - destruct (ensure_parent_grows be c q s1 (proj1 I1) (proj2 I1) U2) as [K2 E2]. change (fun a x => under a q /\ is_dir x = true) with (dirs_above (c :: q)) in K2.
          set (a2 := ensure_parent be (c :: q) s1) in *. assert (G2 : grown (dirs_above (c :: q)) s1 (end_of a2)) by apply K2. set (s2 := end_of a2) in *.
          assert (H2 := grown_held _ _ _ G2 (proj2 I1)).
          assert (MM : forall s', making (dirs_above (c :: q)) (c :: q) (ODir m) s1 s' -> mkdirs p m s s') by (intros s' Mk; exact (mkdirs_making p m s s1 s' c q M1 Mk Lk Hq)).
          split.
          + apply keeps_bind; [eapply keeps_weaken; [|exact K2]; intros s' G'; apply MM, making_grown; [apply I1|exact G']|]. intros Hok2.
            eapply keeps_weaken; [exact MM|]. exact (proj1 (mkdir_one_making _ c q m s1 s2 (proj1 I1) G2 H2 Lk (E2 Hok2))).
          + intros H. apply bind_ok' in H as [Hok2 [Hok3 Heq]]. rewrite Heq. fold s2 in Hok3 |- *.
            destruct (proj2 (mkdir_one_making _ c q m s1 s2 (proj1 I1) G2 H2 Lk (E2 Hok2)) Hok3) as [P [_ Op]]. assert (Ap := placed_at _ _ _ _ P).
            split; [exists 0, m; apply view_top; [apply P|exact Ap]|]. intros a Ha _. destruct (path_dec (c :: q) a) as [<- | Hne]; [right; congruence|].
            apply (opaque_plain _ (c :: q) a); [apply P|exact Op| |apply strictly_under_iff; auto].
            intros b Hb. apply (placed_none _ _ _ _ P (grown_wf _ _ _ G2)); [|exact Hb]. exact (grown_none _ _ _ _ (proj1 I1) G2 Lk). }
      split.
      + apply keeps_bind; [exact K|]. intros Hok. fold s1. rewrite for_each_one. apply L, Hok.
      + intros H. apply bind_ok' in H as [H1 [H2 H3]]. rewrite H3. fold s1 in H2 |- *. rewrite for_each_one in H2 |- *. exact (proj2 (L H1) H2). }
  destruct (G p (under_refl p)) as [K E]. split; [exact K|]. intros Hok. apply E, Hok.
Qed.
