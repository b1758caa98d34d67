(* synthfs: what calls do to the tree as seen by paths. *)
From Verif Require Import Common CommonLemmas ContentRange_Model ContentRange_Proofs PathLex_Model PathLex_Proofs Synth_Model Synth_Spec Synth_Proofs SynthTree_Proofs.
Open Scope nat_scope.

Lemma at_app h l1 : forall a l2, at_path h a (l1 ++ l2) = match at_path h a l1 with Some d => at_path h d l2 | None => None end.
Proof. induction l1 as [|c l1 IH]; intros a l2; cbn; [reflexivity|]. destruct (lookup h a c); [apply IH|reflexivity]. Qed.
Lemma at_snoc h a l c : at_path h a (l ++ [c]) = match at_path h a l with Some d => lookup h d c | None => None end.
Proof. rewrite at_app. destruct (at_path h a l); [|reflexivity]. cbn. now destruct (lookup h n c). Qed.
Lemma at_reach h l : forall a n, at_path h a l = Some n -> reach h a n.
Proof.
  induction l as [|c l IH] using rev_ind; intros a n H; [cbn in H; apply some_inj in H; subst; apply reach_self|].
  rewrite at_snoc in H. destruct (at_path h a l) as [d|] eqn:E; [|discriminate]. eapply reach_step; [eapply IH, E|exact H].
Qed.
Lemma reach_at h a n : reach h a n -> exists l, at_path h a l = Some n.
Proof. induction 1 as [|e nm n Hr [l Hl] Hk]; [now exists []|]. exists (l ++ [nm]). rewrite at_snoc, Hl. exact Hk. Qed.

Lemma at_unique h a : tree_inv h -> acyclic h -> forall l1 l2 n, at_path h a l1 = Some n -> at_path h a l2 = Some n -> l1 = l2.
Proof.
  intros H Ha. induction l1 as [|c1 l1 IH] using rev_ind; intros l2 n H1 H2.
  - destruct l2 as [|c2 l2 _] using rev_ind; [reflexivity|]. cbn in H1. apply some_inj in H1. subst n. rewrite at_snoc in H2. destruct (at_path h a l2) as [d|] eqn:E; [|discriminate].
    exfalso. apply (Ha d c2 a H2). eapply at_reach, E.
  - rewrite at_snoc in H1. destruct (at_path h a l1) as [d1|] eqn:E1; [|discriminate]. destruct l2 as [|c2 l2 _] using rev_ind.
    + cbn in H2. apply some_inj in H2. subst n. exfalso. apply (Ha d1 c1 a H1). eapply at_reach, E1.
    + rewrite at_snoc in H2. destruct (at_path h a l2) as [d2|] eqn:E2; [|discriminate]. destruct (t_once h H _ _ _ _ _ H1 H2) as [-> ->]. f_equal. eapply IH; [reflexivity|exact E2].
Qed.

Lemma prefix_snoc {A} (a l : list A) c : (exists t, l = a ++ t) -> exists t, l ++ [c] = a ++ t.
Proof. intros [t ->]. exists (t ++ [c]). now rewrite app_assoc. Qed.

(* The frame: lookups changed only in one cell, and below what was there. *)
Lemma frame_paths h h' a d base : tree_inv h -> acyclic h ->
  (forall n, lookup h d base = Some n -> ~ reach h n a) ->
  (forall e c, (e <> d \/ c <> base) -> (forall n, lookup h d base = Some n -> ~ reach h n e) -> lookup h' e c = lookup h e c) ->
  forall l, (forall lp, at_path h a lp = Some d -> ~ prefix_of (lp ++ [base]) l) -> at_path h' a l = at_path h a l.
Proof.
  intros H Ha Hout Hf. induction l as [|c l IH] using rev_ind; intros Hp; [reflexivity|].
  assert (forall lp, at_path h a lp = Some d -> ~ prefix_of (lp ++ [base]) l) as Hp2 by (intros lp Hlp Hpre; apply (Hp lp Hlp); now apply prefix_snoc).
  rewrite !at_snoc, (IH Hp2). destruct (at_path h a l) as [e|] eqn:E; [|reflexivity]. apply Hf.
  - destruct (Nat.eq_dec e d) as [-> | Hne]; [|now left]. right. intros ->. apply (Hp l E). exists []. now rewrite app_nil_r.
  - intros n Hl Hr. destruct (reach_at h n e Hr) as [t Ht].
    assert (reach h a e) as Hae by (eapply at_reach, E).
    (* the path to e goes through the cell *)
    assert (reach h a d \/ ~ reach h a d) as [Hd|Hd].
    { clear -H Ha Hr Hae Hl Hout. induction Hr as [|e nm k Hr IHr Hlk].
      - inversion Hae as [Heq|e0 nm0 n0 Hr0 Hl0]; subst.
        + exfalso. apply (Hout _ Hl). apply reach_self.
        + destruct (t_once h H _ _ _ _ _ Hl Hl0) as [-> ->]. now left.
      - inversion Hae as [Heq|e0 nm0 n0 Hr0 Hl0]; subst.
        + exfalso. apply (Hout _ Hl). eapply reach_step; eassumption.
        + destruct (t_once h H _ _ _ _ _ Hlk Hl0) as [-> ->]. now apply IHr. }
    + destruct (reach_at h a d Hd) as [lp Hlp]. assert (at_path h a (lp ++ [base] ++ t) = Some e) as He.
      { rewrite at_app, Hlp. cbn. now rewrite Hl. }
      pose proof (at_unique h a H Ha l (lp ++ [base] ++ t) e E He) as ->. apply (Hp2 lp Hlp). exists t. now rewrite <- app_assoc.
    + exfalso. clear -H Ha Hr Hae Hl Hout Hd. induction Hr as [|e nm k Hr IHr Hlk].
      * inversion Hae as [Heq|e0 nm0 n0 Hr0 Hl0]; subst.
        -- apply (Hout _ Hl). apply reach_self.
        -- destruct (t_once h H _ _ _ _ _ Hl Hl0) as [-> ->]. contradiction.
      * inversion Hae as [Heq|e0 nm0 n0 Hr0 Hl0]; subst.
        -- apply (Hout _ Hl). eapply reach_step; eassumption.
        -- destruct (t_once h H _ _ _ _ _ Hlk Hl0) as [-> ->]. now apply IHr.
Qed.

(* What is seen of nodes. *)
Lemma seen_refl h : same_seen h h.
Proof. intros n _. reflexivity. Qed.
Lemma seen_trans a b c : same_seen a b -> same_seen b c -> same_seen a c.
Proof.
  intros H1 H2 n Hn. rewrite H2, H1; auto. specialize (H1 n Hn). unfold seen in H1. destruct (nodes a n); [|contradiction]. destruct (nodes b n); [discriminate|discriminate].
Qed.
Lemma seen_entless h h' : (forall k, option_map entless (nodes h' k) = option_map entless (nodes h k)) -> same_seen h h'.
Proof.
  intros H n _. specialize (H n). unfold seen. destruct (nodes h' n) as [[]|], (nodes h n) as [[]|]; cbn in *; try discriminate; try reflexivity; congruence.
Qed.
Lemma seen_remove h d nm : same_seen h (remove_entry h d nm).
Proof. apply seen_entless. intros. apply nodes_remove. Qed.
Lemma seen_add h d nm n : same_seen h (add_entry h d nm n).
Proof. apply seen_entless. intros. apply nodes_add. Qed.
Lemma seen_same h h' : (forall n, nodes h' n = nodes h n) -> same_seen h h'.
Proof. intros H n _. unfold seen. now rewrite H. Qed.
Lemma seen_close h n : same_seen h (close_if_file h n).
Proof. apply seen_same. intros. apply close_if_nodes. Qed.
Lemma seen_alloc h x : tree_inv h -> same_seen h (fst (alloc h x)).
Proof.
  intros H n Hn. unfold seen. cbn. rewrite setf_other; [reflexivity|]. intros ->. apply Hn. apply (t_fresh h H). lia.
Qed.
Lemma seen_enter h d nm x : tree_inv h -> same_seen h (fst (enter_new h d nm x)).
Proof. intros H. rewrite enter_eq. cbn [fst]. eapply seen_trans; [apply (seen_alloc h x H)|apply seen_add]. Qed.
Lemma seen_file h d nm mode t : tree_inv h -> same_seen h (fst (enter_file h d nm mode t)).
Proof. intros H. rewrite enter_file_eq. eapply seen_trans; [apply (seen_same h (fst (fresh_view h t))); reflexivity|]. apply seen_enter. now apply inv_fresh. Qed.
Lemma seen_bump h n : same_seen h (bump h n).
Proof.
  intros k _. unfold bump. destruct (nodes h n) as [x|] eqn:Hx; [|reflexivity]. unfold seen. rewrite nodes_set. destruct (Nat.eqb_spec k n) as [-> | _]; [|reflexivity]. rewrite Hx. now destruct x.
Qed.
Lemma seen_drop h n : same_seen h (drop_ref h n).
Proof.
  intros k _. unfold drop_ref. destruct (nodes h n) as [x|] eqn:Hx; [|reflexivity]. unfold seen. rewrite nodes_set. destruct (Nat.eqb_spec k n) as [-> | _]; [|reflexivity]. rewrite Hx. now destruct x.
Qed.
Lemma seen_emptied h h' : emptied h h' -> same_seen h h'.
Proof. intros [_ H] k _. unfold seen. destruct (H k) as [-> | (m & p & es & -> & ->)]; reflexivity. Qed.
Lemma seen_displace h d base ex : same_seen h (displace h d base ex).
Proof. unfold displace. destruct ex; [|apply seen_refl]. eapply seen_trans; [apply (seen_remove h d base)|apply seen_close]. Qed.
Lemma seen_retitle h n d nm : same_seen h (retitle h n d nm).
Proof.
  intros k _. unfold retitle. destruct (nodes h n) as [x|] eqn:Hx; [|reflexivity]. unfold seen. rewrite nodes_set. destruct (Nat.eqb_spec k n) as [-> | _]; [|reflexivity]. rewrite Hx. now destruct x.
Qed.
Lemma seen_move h od ob n nd nb : same_seen h (move h od ob n nd nb).
Proof. unfold move. eapply seen_trans; [apply seen_remove|]. eapply seen_trans; [apply seen_retitle|apply seen_add]. Qed.

(* Removal empties only what is below. *)
Lemma remove_subtree_below fuel : forall h n h' k, tree_inv h -> remove_subtree fuel h n = Some h' -> ~ reach h n k -> nodes h' k = nodes h k.
Proof.
  induction fuel as [|f IH]; intros h n h' k Hi H Hk; [discriminate|]. cbn in H. destruct (nodes h n) as [[m p es|m v|m t]|] eqn:Hn; try (apply some_inj in H; subst; reflexivity).
  assert (forall es' h1 h2, incl es' es -> emptied h h1 -> nodes h1 k = nodes h k ->
    fold_left (fun oh (e : list byte * nat) => match oh with None => None | Some h1 => remove_subtree f h1 (snd e) end) es' (Some h1) = Some h2 -> nodes h2 k = nodes h k) as Hfold.
  { induction es' as [|[nm e] es' IHe]; intros h1 h2 Hin Hem Hh1 E; cbn [fold_left] in E; [apply some_inj in E; now subst|]. cbn [snd] in E.
    destruct (remove_subtree f h1 e) as [h3|] eqn:E3; [|rewrite (fold_none (fun h1 e => remove_subtree f h1 (snd e))) in E; discriminate].
    apply (IHe h3 h2); auto.
    - intros x Hx. apply Hin. now right.
    - eapply emptied_trans; [exact Hem|eapply remove_subtree_emptied, E3].
    - rewrite <- Hh1. eapply IH; [now apply (emptied_inv h)|exact E3|]. intros Hr. apply Hk. apply (reach_sub h) in Hr; [|now apply emptied_sub].
      eapply reach_trans; [apply (reach_one h n nm e)|exact Hr]. unfold lookup. rewrite Hn. apply in_assoc; [eapply (t_keys h Hi), Hn|]. apply Hin. now left. }
  destruct (fold_left _ es (Some h)) as [h1|] eqn:E; [|discriminate]. apply Hfold in E; [|apply incl_refl|apply emptied_refl|reflexivity]. apply some_inj in H. subst h'.
  destruct (nodes h1 n) as [[m1 p1 es1| |]|]; try exact E. rewrite nodes_set. destruct (Nat.eqb_spec k n) as [-> | _]; [|exact E]. exfalso. apply Hk. apply reach_self.
Qed.

(* Calls that name one entry touch only that entry. *)
Definition one_cell (h h' : heap) (d : nat) (base : list byte) : Prop :=
  forall e c, (e <> d \/ c <> base) -> (forall n, lookup h d base = Some n -> ~ reach h n e) -> lookup h' e c = lookup h e c.
Lemma cell_same h h' d base : (forall e c, lookup h' e c = lookup h e c) -> one_cell h h' d base.
Proof. intros H e c _ _. apply H. Qed.
Lemma cell_if (e d : nat) (c base : list byte) : (e <> d \/ c <> base) -> (Nat.eqb e d && bytes_eqb c base)%bool = false.
Proof.
  intros H. destruct (Nat.eqb_spec e d) as [-> | ]; [|reflexivity]. cbn. apply bytes_eqb_neq. destruct H; [contradiction|assumption].
Qed.
Lemma cell_enter h d base x : tree_inv h -> is_dir_at h d -> leaf_node x d base -> one_cell h (fst (enter_new h d base x)) d base.
Proof. intros H Hd Hx e c Hne _. rewrite lookup_enter by assumption. now rewrite cell_if. Qed.
Lemma cell_file h d base mode t : tree_inv h -> is_dir_at h d -> one_cell h (fst (enter_file h d base mode t)) d base.
Proof. intros H Hd e c Hne _. rewrite enter_file_eq. rewrite lookup_enter; [|now apply inv_fresh|exact Hd|now split]. now rewrite cell_if. Qed.
Lemma cell_displace h d base ex : one_cell h (displace h d base ex) d base.
Proof. intros e c Hne _. destruct ex as [x|]; [|reflexivity]. rewrite displace_lookup. now rewrite cell_if. Qed.

Definition frames (h h' : heap) (b : nat) (name : list byte) : Prop :=
  (forall d base, resolve_parent h b name = Ok (d, base) -> one_cell h h' d base) /\
  (forall e, resolve_parent h b name = Err e -> forall d c, lookup h' d c = lookup h d c) /\ same_seen h h'.
Lemma frames_same h b name : frames h h b name.
Proof. split; [intros; now apply cell_same|split; [reflexivity|apply seen_refl]]. Qed.
Lemma frames_lookup h h' b name : (forall d c, lookup h' d c = lookup h d c) -> same_seen h h' -> frames h h' b name.
Proof. intros Hl Hs. split; [intros; now apply cell_same|split; [intros; apply Hl|exact Hs]]. Qed.
Lemma frames_cell h h' b name d base : resolve_parent h b name = Ok (d, base) -> one_cell h h' d base -> same_seen h h' -> frames h h' b name.
Proof. intros E Hc Hs. split; [|split; [intros; congruence|exact Hs]]. intros d' base' E'. assert (d' = d /\ base' = base) as [-> ->] by (split; congruence). exact Hc. Qed.

Lemma frames_mkdir h b name mode : tree_inv h -> frames h (fst (mkdir h b name mode)) b name.
Proof.
  intros H. unfold mkdir. destruct (resolve_parent h b name) as [[d base]|e] eqn:E; [|apply frames_same]. destruct (_ || _); [apply frames_same|]. destruct (lookup h d base); [apply frames_same|]. cbn [fst].
  pose proof (resolve_parent_inside _ _ _ _ _ H E) as [_ Hd]. apply (frames_cell _ _ _ _ d base E); [apply cell_enter; auto; apply new_dir_leaf|now apply seen_enter].
Qed.
Lemma frames_symlink h b t name mode : tree_inv h -> frames h (fst (symlink h b t name mode)) b name.
Proof.
  intros H. unfold symlink. destruct (resolve_parent h b name) as [[d base]|e] eqn:E; [|apply frames_same]. destruct (lookup h d base); [apply frames_same|]. cbn [fst].
  pose proof (resolve_parent_inside _ _ _ _ _ H E) as [_ Hd]. apply (frames_cell _ _ _ _ d base E); [apply cell_enter; auto; now split|now apply seen_enter].
Qed.
Lemma frames_link h b old name : tree_inv h -> frames h (fst (link h b old name)) b name.
Proof.
  intros H. unfold link. destruct (resolve h b old true) as [f|]; [|apply frames_same]. destruct (nodes h (f_node f)) as [[m p es|m v|m t]|]; try apply frames_same.
  destruct (resolve_parent h b name) as [[d base]|e] eqn:E; [|apply frames_same]. destruct (lookup h d base); [apply frames_same|]. cbn [fst].
  pose proof (resolve_parent_inside _ _ _ _ _ H E) as [_ Hd]. apply (frames_cell _ _ _ _ d base E); [apply cell_enter; auto; now split|now apply seen_enter].
Qed.
Lemma frames_remove busy h b name : frames h (fst (remove busy h b name)) b name.
Proof.
  unfold remove. destruct (resolve_parent h b name) as [[d base]|e] eqn:E; [|apply frames_same]. destruct (lookup h d base) as [n|]; [|apply frames_same]. destruct (holds_something h n); [apply frames_same|]. destruct (busy && _); [apply frames_same|]. cbn [fst].
  apply (frames_cell _ _ _ _ d base E); [apply (cell_displace h d base (Some n))|apply (seen_displace h d base (Some n))].
Qed.
Lemma frames_remove_all fuel h b name h' r : tree_inv h -> remove_all fuel h b name = Some (h', r) -> frames h h' b name.
Proof.
  intros H. unfold remove_all. assert (forall r' : sres unit, Some (h, r') = Some (h', r) -> frames h h' b name) as Hsame by (intros r' E; assert (h' = h) as -> by congruence; apply frames_same).
  destruct (ends_with_dot name); [apply Hsame|]. destruct (normalize name) as [[|c l]|]; [apply Hsame| |apply Hsame]. destruct (resolve_parent h b name) as [[d base]|e] eqn:E; [|apply Hsame]. destruct (lookup h d base) as [n|] eqn:El; [|apply Hsame].
  destruct (remove_subtree fuel h n) as [h1|] eqn:Es; [|discriminate]. intros E1. assert (h' = remove_entry h1 d base) as -> by congruence. apply (frames_cell _ _ _ _ d base E).
  - intros e c1 Hne Hout. rewrite lookup_remove, cell_if by exact Hne. unfold lookup. now rewrite (remove_subtree_below fuel h n h1 e H Es (Hout n El)).
  - eapply seen_trans; [eapply seen_emptied, remove_subtree_emptied, Es|apply seen_remove].
Qed.
Lemma seen_open_existing h b name q : same_seen h (fst (open_existing h b name q)).
Proof.
  unfold open_existing, open_node. destruct (resolve h b name true) as [f|]; [|apply seen_refl]. destruct (nodes h (f_node f)) as [[m p es|m v|m t]|]; try apply seen_refl.
  - destruct (o_write q); [apply seen_refl|apply seen_bump].
  - destruct (o_opens q); [apply seen_bump|apply seen_refl].
Qed.
Lemma frames_open h b name q : tree_inv h -> frames h (fst (open_file h b name q)) b name.
Proof.
  intros H. assert (frames h (fst (open_existing h b name q)) b name) as Hoe by (apply frames_lookup; [intros; apply open_existing_lookup|apply seen_open_existing]).
  unfold open_file. destruct (o_create q); [|exact Hoe]. destruct (resolve_parent h b name) as [[d base]|] eqn:E; [|apply frames_same].
  pose proof (resolve_parent_inside _ _ _ _ _ H E) as [_ Hd]. destruct (lookup h d base).
  - destruct (o_excl q); [apply frames_same|exact Hoe].
  - destruct (negb (o_allocs q)); [apply frames_same|]. pose proof (cell_file h d base (o_mode q) (o_tag q) H Hd) as Hc. pose proof (seen_file h d base (o_mode q) (o_tag q) H) as Hs. destruct (enter_file _ _ _ _ _) as [h1 n]. cbn [fst] in Hc, Hs.
    apply (frames_cell _ _ _ _ d base E); unfold open_node; destruct (o_opens q); auto.
    + intros e c Hne Hout. cbn [fst]. rewrite bump_lookup. now apply Hc.
    + eapply seen_trans; [exact Hs|apply seen_bump].
Qed.

Lemma frames_step busy st o st' r i name b : state_ok st -> step busy st o = Some (st', r) -> named_by o = Some (i, name) -> nth_error (st_roots st) i = Some b ->
  frames (st_heap st) (st_heap st') b name.
Proof.
  intros [H _] E Hn Eb. destruct o; cbn in Hn; try discriminate; cbn [step] in E;
    match type of Hn with Some (?i0, ?n0) = _ => assert (i0 = i /\ n0 = name) as [-> ->] by (split; congruence) end; rewrite Eb in E;
    try (match type of E with lift st (Some ?x) = _ => destruct x as [h1 r1] eqn:Ex; cbn in E; assert (st' = with_heap st h1) as -> by congruence; cbn [st_heap with_heap]; apply (f_equal fst) in Ex; cbn [fst] in Ex; subst h1 end).
  - now apply frames_mkdir.
  - now apply frames_symlink.
  - now apply frames_link.
  - now apply frames_remove.
  - destruct (remove_all _ _ _ _) as [[h1 r1]|] eqn:Er; [|discriminate]. cbn in E. assert (st' = with_heap st h1) as -> by congruence. eapply frames_remove_all; eassumption.
  - now apply frames_open.
Qed.

Lemma at_exists h a l n : tree_inv h -> is_dir_at h a -> at_path h a l = Some n -> nodes h n <> None.
Proof.
  intros H (m & p & es & Ha) E. destruct l as [|c l _] using rev_ind; [cbn in E; apply some_inj in E; subst; congruence|]. rewrite at_snoc in E. destruct (at_path h a l); [|discriminate]. eapply listed_node; eassumption.
Qed.
Lemma same_at_intro h h' a l : tree_inv h -> is_dir_at h a -> same_seen h h' -> at_path h' a l = at_path h a l -> same_at h h' a l.
Proof.
  intros H Hd Hs E. split; [exact E|]. unfold seen_at. rewrite E. destruct (at_path h a l) as [n|] eqn:En; [|reflexivity]. apply Hs. eapply at_exists; eassumption.
Qed.

Lemma touches_only busy st o st' r i name b : state_ok st -> acyclic (st_heap st) -> step busy st o = Some (st', r) -> named_by o = Some (i, name) -> nth_error (st_roots st) i = Some b ->
  forall a, is_dir_at (st_heap st) a ->
  match resolve_parent (st_heap st) b name with
  | Err _ => forall l, same_at (st_heap st) (st_heap st') a l
  | Ok (d, base) => (forall n, lookup (st_heap st) d base = Some n -> ~ reach (st_heap st) n a) ->
      forall l, (forall lp, at_path (st_heap st) a lp = Some d -> ~ prefix_of (lp ++ [base]) l) -> same_at (st_heap st) (st_heap st') a l
  end.
Proof.
  intros Hst Ha E Hn Eb a Hd. pose proof (frames_step _ _ _ _ _ _ _ _ Hst E Hn Eb) as (Hc & He & Hs). destruct Hst as [H _]. destruct (resolve_parent (st_heap st) b name) as [[d base]|e].
  - intros Hout l Hl. apply same_at_intro; auto. eapply frame_paths; eauto. now apply (Hc d base).
  - intros l. apply same_at_intro; auto. specialize (He e eq_refl). clear -He. revert a. induction l as [|c l IH]; intros a; cbn; [reflexivity|]. rewrite He. destruct (lookup (st_heap st) a c); auto.
Qed.

(* Growth: everything resolvable stays so. *)
Record extends (h h' : heap) : Prop := {
  ex_lookup : forall d nm n, lookup h d nm = Some n -> lookup h' d nm = Some n;
  ex_core : forall k x, nodes h k = Some x -> exists x', nodes h' k = Some x' /\ core x' = core x /\ look_of x' = look_of x }.
Lemma extends_refl h : extends h h.
Proof. constructor; eauto. Qed.
Lemma extends_trans a b c : extends a b -> extends b c -> extends a c.
Proof.
  intros [H1 H2] [H3 H4]. constructor; [auto|]. intros k x Hx. destruct (H2 k x Hx) as (y & Hy & E1 & E2). destruct (H4 k y Hy) as (z & Hz & E3 & E4). exists z. repeat split; congruence.
Qed.
Lemma extends_enter h d nm x : tree_inv h -> is_dir_at h d -> leaf_node x d nm -> lookup h d nm = None -> extends h (fst (enter_new h d nm x)).
Proof.
  intros H Hd Hx Hn. constructor.
  - intros d' nm' n Hl. rewrite lookup_enter by assumption. destruct (Nat.eqb d' d && bytes_eqb nm' nm) eqn:E; [|exact Hl].
    apply andb_true_iff in E. destruct E as [E1 E2]. apply Nat.eqb_eq in E1. apply bytes_eqb_eq in E2. subst. congruence.
  - intros k y Hy. rewrite enter_eq. cbn [fst]. assert (nodes (fst (alloc h x)) k = Some y) as Hy2.
    { cbn. rewrite setf_other; [exact Hy|]. intros ->. rewrite (t_fresh h H (next h)) in Hy by lia. discriminate. }
    pose proof (nodes_add (fst (alloc h x)) d nm (next h) k) as Ha. rewrite Hy2 in Ha. destruct (nodes (add_entry (fst (alloc h x)) d nm (next h)) k) as [z|]; [|discriminate]. exists z. split; [reflexivity|].
    destruct y, z; cbn in *; try discriminate; split; unfold core; cbn; congruence.
Qed.
Lemma extends_keeps h h' a : extends h h' -> tree_inv h -> is_dir_at h a -> keeps_all h h' a.
Proof.
  intros [Hl Hc] H Hd l Hl2. destruct (at_path h a l) as [n|] eqn:E; [|contradiction]. assert (at_path h' a l = Some n) as E'.
  { clear Hl2. revert n E. induction l as [|c l IH] using rev_ind; intros n E; [exact E|]. rewrite at_snoc in *. destruct (at_path h a l) as [d|]; [|discriminate]. rewrite (IH d eq_refl). auto. }
  split; [congruence|]. unfold seen_at. rewrite E, E'. pose proof (at_exists h a l n H Hd E) as Hn. destruct (nodes h n) as [x|] eqn:Hx; [|contradiction]. destruct (Hc n x Hx) as (x' & Hx' & _ & Hlk). unfold seen. rewrite Hx, Hx'. cbn. now rewrite Hlk.
Qed.

Lemma extends_walk h h' b fo : extends h h' -> forall hops comps cur f, walk_comps h b fo hops cur comps = Ok f -> nodes h (f_node f) <> None -> walk_comps h' b fo hops cur comps = Ok f.
Proof.
  intros [Hl Hc]. assert (forall k p, parent_of h k = Some p -> parent_of h' k = Some p) as Hpar.
  { intros k p. unfold parent_of. destruct (nodes h k) as [x|] eqn:Hx; [|discriminate]. destruct (Hc k x Hx) as (x' & -> & E & _). destruct x, x'; cbn in *; unfold core in E; cbn in E; try discriminate; congruence. }
  induction hops as [|hops IHh]; induction comps as [|c rest IHc]; intros cur f Hw Hnn.
  1,3: rewrite walk_nil in *; exact Hw.
  all: rewrite walk_cons in *; destruct (is_empty c || is_dot c); [now apply IHc|]; destruct (is_dotdot c);
    [ destruct (Nat.eqb cur b); [discriminate|]; destruct (parent_of h cur) as [p|] eqn:Hp; [|discriminate]; rewrite (Hpar _ _ Hp); now apply IHc |];
    destruct (lookup h cur c) as [n|] eqn:El; [|discriminate]; rewrite (Hl _ _ _ El); cbn zeta in *.
  - destruct (nodes h n) as [x|] eqn:Hx.
    + destruct (Hc n x Hx) as (x' & -> & E & E2). destruct x as [m p es|m v|m t], x' as [m' p' es'|m' v'|m' t']; cbn in E2; try discriminate.
      * destruct (nothing_left rest); [exact Hw|now apply IHc].
      * exact Hw.
      * assert (t' = t) as -> by congruence. exact Hw.
    + destruct (nothing_left rest); [|discriminate]. assert (f = {| f_node := n; f_at := Some (cur, c) |}) as -> by congruence. cbn in Hnn. contradiction.
  - destruct (nodes h n) as [x|] eqn:Hx.
    + destruct (Hc n x Hx) as (x' & -> & E & E2). destruct x as [m p es|m v|m t], x' as [m' p' es'|m' v'|m' t']; cbn in E2; try discriminate.
      * destruct (nothing_left rest); [exact Hw|now apply IHc].
      * exact Hw.
      * assert (t' = t) as -> by congruence. destruct (negb (nothing_left rest) || fo); [|exact Hw]. destruct (rooted t); [discriminate|]. now apply IHh.
    + destruct (nothing_left rest); [|discriminate]. assert (f = {| f_node := n; f_at := Some (cur, c) |}) as -> by congruence. cbn in Hnn. contradiction.
Qed.

(* Resolving in two goes. *)
Definition res_node (r : sres found) : sres nat := match r with Ok f => Ok (f_node f) | Err e => Err e end.
Lemma nothing_skip h b fo hops cur rest r : nothing_left rest = true -> walk_comps h b fo hops cur (rest ++ r) = walk_comps h b fo hops cur r.
Proof.
  destruct rest as [|c [|]]; cbn [nothing_left]; try discriminate; [reflexivity|]. intros Hc. cbn [app]. rewrite walk_cons. now rewrite Hc.
Qed.
Lemma nothing_app (rest r : list (list byte)) : nothing_left (rest ++ r) = true -> nothing_left rest = true /\ nothing_left r = true.
Proof.
  destruct rest as [|c [|c2 rest]]; cbn [app nothing_left]; [auto| |discriminate]. destruct r as [|x r]; [auto|discriminate].
Qed.
Lemma nothing_walk h b fo hops cur r : nothing_left r = true -> walk_comps h b fo hops cur r = Ok {| f_node := cur; f_at := None |}.
Proof. intros H. rewrite <- (app_nil_r r), nothing_skip by exact H. apply walk_nil. Qed.

Lemma walk_concat h b : forall hops comps cur f, walk_comps h b true hops cur comps = Ok f -> is_dir_at h (f_node f) ->
  exists k, k <= hops /\ forall r, res_node (walk_comps h b true hops cur (comps ++ r)) = res_node (walk_comps h b true k (f_node f) r).
Proof.
  induction hops as [|hops IHh]; induction comps as [|c rest IHc]; intros cur f Hw Hd.
  1,3: rewrite walk_nil in Hw; assert (f = {| f_node := cur; f_at := None |}) as -> by congruence; eexists; split; [apply Nat.le_refl|reflexivity].
  all: rewrite walk_cons in Hw; destruct (is_empty c || is_dot c) eqn:Es;
    [destruct (IHc _ _ Hw Hd) as (k & Hk & Hr); exists k; split; [exact Hk|]; intros r; cbn [app]; rewrite walk_cons, Es; apply Hr|]; destruct (is_dotdot c) eqn:Edd;
    [ destruct (Nat.eqb cur b) eqn:Ecb; [discriminate|]; destruct (parent_of h cur) as [p|] eqn:Hp; [|discriminate];
      destruct (IHc _ _ Hw Hd) as (k & Hk & Hr); exists k; split; [exact Hk|]; intros r; cbn [app]; rewrite walk_cons, Es, Edd, Ecb, Hp; apply Hr |];
    destruct (lookup h cur c) as [n|] eqn:El; [|discriminate]; cbn zeta in Hw; destruct Hd as (m0 & p0 & es0 & Hd);
    destruct (nodes h n) as [[m p es|m v|m t]|] eqn:Hn.
  (* directories *)
  1,5: destruct (nothing_left rest) eqn:Enl;
    [ assert (f = {| f_node := n; f_at := Some (cur, c) |}) as -> by congruence; eexists; split; [apply Nat.le_refl|]; intros r; cbn [app f_node]; rewrite walk_cons, Es, Edd, El; cbn zeta; rewrite Hn;
      destruct (nothing_left (rest ++ r)) eqn:Enr; [apply nothing_app in Enr; rewrite nothing_walk by apply Enr; reflexivity|now rewrite nothing_skip]
    | destruct (IHc _ _ Hw (ex_intro _ m0 (ex_intro _ p0 (ex_intro _ es0 Hd)))) as (k & Hk & Hr); exists k; split; [exact Hk|]; intros r; cbn [app]; rewrite walk_cons, Es, Edd, El; cbn zeta; rewrite Hn;
      destruct (nothing_left (rest ++ r)) eqn:Enr; [apply nothing_app in Enr; destruct Enr; congruence|apply Hr] ].
  (* files *)
  1,4: destruct (nothing_left rest); [|discriminate]; assert (f = {| f_node := n; f_at := Some (cur, c) |}) as -> by congruence; cbn in Hd; congruence.
  (* missing *)
  2,4: destruct (nothing_left rest); [|discriminate]; assert (f = {| f_node := n; f_at := Some (cur, c) |}) as -> by congruence; cbn in Hd; congruence.
  (* links *)
  - rewrite orb_true_r in Hw. discriminate.
  - rewrite orb_true_r in Hw. destruct (rooted t) eqn:Ert; [discriminate|]. destruct (nothing_left rest) eqn:Enl.
    + destruct (IHh _ _ _ Hw (ex_intro _ m0 (ex_intro _ p0 (ex_intro _ es0 Hd)))) as (k & Hk & Hr). exists k. split; [lia|]. intros r. cbn [app]. rewrite walk_cons, Es, Edd, El. cbn zeta. rewrite Hn, orb_true_r, Ert.
      destruct (nothing_left (rest ++ r)) eqn:Enr.
      * apply nothing_app in Enr. rewrite (nothing_walk h b true k (f_node f) r) by apply Enr. now rewrite Hw.
      * rewrite Hr. now rewrite nothing_skip.
    + destruct (IHh _ _ _ Hw (ex_intro _ m0 (ex_intro _ p0 (ex_intro _ es0 Hd)))) as (k & Hk & Hr). exists k. split; [lia|]. intros r. cbn [app]. rewrite walk_cons, Es, Edd, El. cbn zeta. rewrite Hn, orb_true_r, Ert.
      destruct (nothing_left (rest ++ r)) eqn:Enr; [apply nothing_app in Enr; destruct Enr; congruence|]. rewrite app_assoc. apply Hr.
Qed.

(* A directory entry just below a resolved directory resolves. *)
Lemma walk_child h b hops cur l f c n : walk_comps h b true hops cur l = Ok f -> is_dir_at h (f_node f) -> proper c -> lookup h (f_node f) c = Some n -> is_dir_at h n ->
  exists f', walk_comps h b true hops cur (l ++ [c]) = Ok f' /\ f_node f' = n.
Proof.
  intros Hw Hd Hc Hl (m & p & es & Hn). destruct (walk_concat h b hops l cur f Hw Hd) as (k & _ & Hr). specialize (Hr [c]). rewrite walk_cons in Hr. destruct (proper_tests c Hc) as (E1 & E2 & E3). rewrite E1, E2, E3, Hl in Hr. cbn in Hr. rewrite Hn in Hr. cbn in Hr.
  destruct (walk_comps h b true hops cur (l ++ [c])) as [f'|e]; cbn in Hr; [|discriminate]. exists f'. split; [reflexivity|congruence].
Qed.

(* MkdirAll. *)
Lemma resolve_parent_join h b l c : Forall proper (l ++ [c]) -> resolve_parent h b (join_sep (l ++ [c])) =
  match walk_comps h b true max_hops b l with
  | Err e => Err e
  | Ok f => match nodes h (f_node f) with Some (NDir _ _ _) => Ok (f_node f, c) | _ => Err ENotDir end
  end.
Proof.
  intros Hp. unfold resolve_parent. rewrite normalize_join; [|now destruct l|exact Hp]. destruct (l ++ [c]) as [|x r] eqn:E; [now destruct l|]. rewrite <- E, removelast_last, last_last. reflexivity.
Qed.
Lemma resolve_join h b l fo : l <> [] -> Forall proper l -> resolve h b (join_sep l) fo = walk_comps h b fo max_hops b l.
Proof. intros Hne Hp. unfold resolve. now rewrite normalize_join. Qed.

Lemma mkdir_loop_spec b mode : forall l pre h h' r, tree_inv h -> Forall proper (pre ++ l) -> mkdir_all_loop h b (heads pre l) mode = (h', r) ->
  extends h h' /\ (r = Ok tt -> (exists f, walk_comps h b true max_hops b pre = Ok f /\ is_dir_at h (f_node f)) -> exists f, walk_comps h' b true max_hops b (pre ++ l) = Ok f /\ is_dir_at h' (f_node f)).
Proof.
  induction l as [|c l IH]; intros pre h h' r H Hp E; cbn [heads mkdir_all_loop] in E.
  - assert (h' = h) as -> by congruence. split; [apply extends_refl|]. intros _ Hf. now rewrite app_nil_r.
  - assert (Forall proper (pre ++ [c])) as Hpc.
    { apply Forall_app in Hp. destruct Hp as [Hp1 Hp2]. inversion Hp2; subst. apply Forall_app. split; auto. }
    assert (proper c) as Hcc by (apply Forall_app in Hpc; destruct Hpc as [_ Hpc]; now inversion Hpc).
    assert (Forall proper ((pre ++ [c]) ++ l)) as Hpl by now rewrite <- app_assoc.
    unfold mkdir in E. rewrite resolve_parent_join in E by exact Hpc. destruct (walk_comps h b true max_hops b pre) as [f|e] eqn:Ew.
    2:{ assert (E0 : match e with EExist => True | _ => h' = h /\ r <> Ok tt end).
        { destruct e; first [exact I | split; congruence]. }
        destruct e; try (destruct E0 as [-> Hne]; split; [apply extends_refl|intros; contradiction]).
        destruct (resolve h b (join_sep (pre ++ [c])) true) as [f|e].
        - destruct (nodes h (f_node f)) as [[m q es| |]|]; try (assert (h' = h) as -> by congruence; split; [apply extends_refl|intros Hr; congruence]).
          destruct (IH (pre ++ [c]) h h' r H Hpl E) as [Hx _]. split; [exact Hx|]. intros _ (f0 & Hf0 & _). discriminate.
        - assert (h' = h) as -> by congruence. split; [apply extends_refl|]. intros Hr. congruence. }
    destruct (nodes h (f_node f)) as [[m q es|m v|m t]|] eqn:Hn; try (assert (h' = h) as -> by congruence; split; [apply extends_refl|intros Hr; congruence]).
    assert (is_dir_at h (f_node f)) as Hd by (exists m, q, es; exact Hn).
    destruct (proper_tests c Hcc) as (E1 & E2 & E3). rewrite E1, E2, E3 in E. cbn [orb] in E. destruct (lookup h (f_node f) c) as [n|] eqn:El.
    + destruct (resolve h b (join_sep (pre ++ [c])) true) as [f2|e] eqn:Er.
      * destruct (nodes h (f_node f2)) as [[m2 q2 es2|m2 v2|m2 t2]|] eqn:Hn2; try (assert (h' = h) as -> by congruence; split; [apply extends_refl|intros Hr; congruence]).
        rewrite resolve_join in Er; [|now destruct pre|exact Hpc]. destruct (IH (pre ++ [c]) h h' r H Hpl E) as [Hx Hr]. split; [exact Hx|]. intros Hok _. rewrite <- app_assoc in Hr. apply Hr; [exact Hok|]. exists f2. split; [exact Er|]. exists m2, q2, es2. exact Hn2.
      * assert (h' = h) as -> by congruence. split; [apply extends_refl|intros Hr; congruence].
    + pose proof (new_dir_leaf c mode (f_node f)) as Hleaf. pose proof (extends_enter h (f_node f) c _ H Hd Hleaf El) as Hx. pose proof (inv_enter h (f_node f) c _ H Hd Hleaf) as Hi.
      set (h1 := fst (enter_new h (f_node f) c (new_dir c mode (f_node f)))) in *. destruct (IH (pre ++ [c]) h1 h' r Hi Hpl E) as [Hx2 Hr]. split; [now apply (extends_trans _ _ _ Hx)|].
      intros Hok _. rewrite <- app_assoc in Hr. apply Hr; [exact Hok|].
      assert (is_dir_at h1 (next h)) as Hnd.
      { unfold h1. rewrite enter_eq. cbn [fst]. apply (same_core_dir _ _ _ (add_core _ (f_node f) c (next h))). eexists _, _, _. cbn. apply setf_same. }
      destruct (walk_child h1 b max_hops b pre f c (next h)) as (f' & Hf' & Hnn).
      * apply (extends_walk h h1 b true Hx); [exact Ew|congruence].
      * unfold h1. apply (proj2 (keeps_enter h (f_node f) c _ H Hd Hleaf)). exact Hd.
      * exact Hcc.
      * unfold h1. rewrite lookup_enter by assumption. now rewrite Nat.eqb_refl, bytes_eqb_refl.
      * exact Hnd.
      * exists f'. split; [exact Hf'|]. now rewrite Hnn.
Qed.

Lemma mkdir_all_spec h b name mode h' r : tree_inv h -> is_dir_at h b -> mkdir_all h b name mode = (h', r) ->
  (forall a, is_dir_at h a -> keeps_all h h' a) /\ (r = Ok tt -> exists f, resolve h' b name true = Ok f /\ is_dir_at h' (f_node f)).
Proof.
  intros H Hb. unfold mkdir_all, resolve. destruct (normalize name) as [comps|e] eqn:En.
  - intros E. apply normalize_proper in En. destruct (mkdir_loop_spec b mode comps [] h h' r H En E) as [Hx Hr]. split; [intros a Ha; now apply extends_keeps|].
    intros Hok. cbn [app] in Hr. apply Hr; [exact Hok|]. exists {| f_node := b; f_at := None |}. split; [apply walk_nil|exact Hb].
  - intros E. assert (h' = h) as -> by congruence. split; [intros a _ l _; split; reflexivity|]. intros Hr. congruence.
Qed.

(* Rename. *)

Lemma rename_cells h b old new h' r : tree_inv h -> rename h b old new = (h', r) ->
  match r with
  | Err _ => h' = h
  | Ok _ => exists od ob n nd nb, rename_ends h b old new od ob n nd nb /\
      (forall x, lookup h nd nb = Some x -> entries h x = []) /\
      (forall e c, lookup h' e c = if Nat.eqb e nd && bytes_eqb c nb then Some n else if Nat.eqb e od && bytes_eqb c ob then None else lookup h e c) /\
      same_seen h h'
  end.
Proof.
  intros H. rewrite rename_eq. destruct (resolve_parent h b old) as [[od ob]|] eqn:Eo; [|intros E; assert (h' = h) as -> by congruence; match type of E with (_, ?x) = _ => assert (r = x) as -> by congruence end; reflexivity].
  destruct (lookup h od ob) as [n|] eqn:El; [|intros E; assert (h' = h) as -> by congruence; match type of E with (_, ?x) = _ => assert (r = x) as -> by congruence end; reflexivity].
  destruct (resolve_parent h b new) as [[nd nb]|] eqn:En; [|intros E; assert (h' = h) as -> by congruence; match type of E with (_, ?x) = _ => assert (r = x) as -> by congruence end; reflexivity].
  destruct (match lookup h nd nb with Some x => _ | None => _ end) eqn:Eh; [intros E; assert (h' = h) as -> by congruence; match type of E with (_, ?x) = _ => assert (r = x) as -> by congruence end; reflexivity|].
  intros E. assert (r = Ok tt) as -> by congruence. assert (h' = move (displace h nd nb (lookup h nd nb)) od ob n nd nb) as -> by congruence. exists od, ob, n, nd, nb.
  split; [repeat split; assumption|]. split.
  { intros x Hx. rewrite Hx in Eh. unfold holds_something in Eh. unfold entries. destruct (nodes h x) as [[m p [|]| |]|]; try reflexivity. discriminate. }
  pose proof (resolve_parent_inside _ _ _ _ _ H En) as [_ Hd]. split.
  - intros e c. unfold move. rewrite lookup_add; [|apply retitle_dir, (same_core_dir _ _ _ (remove_core _ od ob)), (same_core_dir _ _ _ (displace_core h nd nb (lookup h nd nb))), Hd].
    rewrite retitle_lookup, lookup_remove. destruct (Nat.eqb e nd && bytes_eqb c nb) eqn:E1; [reflexivity|]. destruct (Nat.eqb e od && bytes_eqb c ob); [reflexivity|].
    destruct (lookup h nd nb) as [x|]; [|reflexivity]. rewrite displace_lookup. now rewrite E1.
  - eapply seen_trans; [apply seen_displace|apply seen_move].
Qed.

Lemma cell_eq (e d : nat) (c base : list byte) : (Nat.eqb e d && bytes_eqb c base)%bool = true <-> e = d /\ c = base.
Proof. rewrite andb_true_iff, Nat.eqb_eq, bytes_eqb_eq. tauto. Qed.

Lemma rename_paths h b old new h' od ob n nd nb : tree_inv h -> acyclic h ->
  rename_ends h b old new od ob n nd nb -> ~ reach h n nd -> (forall x, lookup h nd nb = Some x -> entries h x = []) ->
  (forall e c, lookup h' e c = if Nat.eqb e nd && bytes_eqb c nb then Some n else if Nat.eqb e od && bytes_eqb c ob then None else lookup h e c) ->
  forall a, (forall l, (forall lo, at_path h a lo = Some od -> ~ prefix_of (lo ++ [ob]) l) -> (forall ln, at_path h a ln = Some nd -> ~ prefix_of (ln ++ [nb]) l) -> at_path h' a l = at_path h a l) /\
  (forall q, at_path h' n q = at_path h n q) /\
  (forall lo ln, at_path h a lo = Some od -> at_path h a ln = Some nd ->
    at_path h' a ln = Some nd /\ (forall q, at_path h' a (ln ++ nb :: q) = at_path h a (lo ++ ob :: q)) /\ (lo ++ [ob] <> ln ++ [nb] -> forall q, at_path h' a (lo ++ ob :: q) = None)).
Proof.
  intros H Ha (Ho & Hl & Hn) Hm Hrep Hlk a.
  assert (forall l, (forall lo, at_path h a lo = Some od -> ~ prefix_of (lo ++ [ob]) l) -> (forall ln, at_path h a ln = Some nd -> ~ prefix_of (ln ++ [nb]) l) -> at_path h' a l = at_path h a l) as Hframe.
  { induction l as [|c l IH] using rev_ind; intros H1 H2; [reflexivity|]. rewrite !at_snoc. rewrite IH.
    - destruct (at_path h a l) as [e|] eqn:E; [|reflexivity]. rewrite Hlk. destruct (Nat.eqb e nd && bytes_eqb c nb) eqn:E1.
      + apply cell_eq in E1. destruct E1 as [-> ->]. exfalso. apply (H2 l E). exists []. now rewrite app_nil_r.
      + destruct (Nat.eqb e od && bytes_eqb c ob) eqn:E2; [|reflexivity]. apply cell_eq in E2. destruct E2 as [-> ->]. exfalso. apply (H1 l E). exists []. now rewrite app_nil_r.
    - intros lo Hlo Hp. apply (H1 lo Hlo). now apply prefix_snoc.
    - intros ln Hln Hp. apply (H2 ln Hln). now apply prefix_snoc. }
  assert (forall q, at_path h' n q = at_path h n q) as Hsub.
  { induction q as [|c q IH] using rev_ind; [reflexivity|]. rewrite !at_snoc, IH. destruct (at_path h n q) as [e|] eqn:E; [|reflexivity]. rewrite Hlk. destruct (Nat.eqb e nd && bytes_eqb c nb) eqn:E1.
    - apply cell_eq in E1. destruct E1 as [-> ->]. exfalso. apply Hm. eapply at_reach, E.
    - destruct (Nat.eqb e od && bytes_eqb c ob) eqn:E2; [|reflexivity]. apply cell_eq in E2. destruct E2 as [-> ->]. exfalso. apply (Ha od ob n Hl). eapply at_reach, E. }
  split; [exact Hframe|]. split; [exact Hsub|]. intros lo ln Hlo Hln.
  assert (~ prefix_of (lo ++ [ob]) ln) as Hnp.
  { intros [t ->]. rewrite <- app_assoc, at_app, Hlo in Hln. cbn in Hln. rewrite Hl in Hln. apply Hm. eapply at_reach, Hln. }
  assert (at_path h' a ln = Some nd) as Hln'.
  { rewrite Hframe; [exact Hln| |].
    - intros lo' Hlo' Hp. pose proof (at_unique h a H Ha lo lo' od Hlo Hlo') as <-. contradiction.
    - intros ln' Hln2 [t Ht]. pose proof (at_unique h a H Ha ln ln' nd Hln Hln2) as <-. assert (length ln = length ((ln ++ [nb]) ++ t)) as Hlen by now rewrite <- Ht. rewrite !app_length in Hlen. cbn in Hlen. lia. }
  split; [exact Hln'|]. split.
  - intros q. rewrite !at_app, Hln', Hlo. cbn. rewrite Hlk, Nat.eqb_refl, bytes_eqb_refl, Hl. cbn. apply Hsub.
  - intros Hne q.
    assert (~ (od = nd /\ ob = nb)) as Hcell.
    { intros [-> ->]. apply Hne. now rewrite (at_unique h a H Ha lo ln nd Hlo Hln). }
    rewrite at_app.
    (* the old parent is either still where it was, or went with the new name's old entry, which was empty *)
    destruct (at_path h' a lo) as [e|] eqn:E; [|reflexivity]. assert (e = od) as ->.
    { assert (~ prefix_of (ln ++ [nb]) lo \/ prefix_of (ln ++ [nb]) lo) as [Hp|Hp].
      { clear. revert lo. induction (ln ++ [nb]) as [|x l IH]; intros lo; [right; now exists lo|]. destruct lo as [|y lo]; [left; intros [t Ht]; discriminate|].
        destruct (bytes_dec x y) as [-> | Hxy]; [|left; intros [t Ht]; cbn in Ht; congruence]. destruct (IH lo) as [Hl|[t ->]]; [left|right].
        - intros [t Ht]. cbn in Ht. apply Hl. exists t. congruence.
        - now exists t. }
      - rewrite Hframe in E; [congruence| |].
        + intros lo' Hlo' [t Ht]. pose proof (at_unique h a H Ha lo lo' od Hlo Hlo') as <-. assert (length lo = length ((lo ++ [ob]) ++ t)) as Hlen by now rewrite <- Ht. rewrite !app_length in Hlen. cbn in Hlen. lia.
        + intros ln' Hln2 Hp2. pose proof (at_unique h a H Ha ln ln' nd Hln Hln2) as <-. contradiction.
      - exfalso. destruct Hp as [t ->]. rewrite <- app_assoc, at_app, Hln in Hlo. cbn in Hlo. destruct (lookup h nd nb) as [x|] eqn:Ex; [|discriminate]. specialize (Hrep x eq_refl).
        assert (forall c, lookup h x c = None) as Hnone by (intros c; unfold lookup; unfold entries in Hrep; destruct (nodes h x) as [[m p es| |]|]; try reflexivity; now rewrite Hrep).
        destruct t as [|c t]; cbn in Hlo; [apply some_inj in Hlo; subst od; rewrite Hnone in Hl; discriminate|rewrite Hnone in Hlo; discriminate]. }
    cbn. rewrite Hlk. destruct (Nat.eqb od nd && bytes_eqb ob nb) eqn:E1; [apply cell_eq in E1; contradiction|]. now rewrite Nat.eqb_refl, bytes_eqb_refl.
Qed.
