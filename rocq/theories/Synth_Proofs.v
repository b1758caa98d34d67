(* Lemmas for the synthfs tree: primitive heap changes, the tree invariant, resolution. *)
From Verif Require Import Common CommonLemmas ContentRange_Model ContentRange_Proofs PathLex_Model PathLex_Proofs Synth_Model Synth_Spec.
Open Scope nat_scope.

Lemma bytes_eqb_refl a : bytes_eqb a a = true.
Proof. now apply bytes_eqb_eq. Qed.
Lemma bytes_eqb_neq a b : a <> b -> bytes_eqb a b = false.
Proof. intros H. destruct (bytes_eqb a b) eqn:E; [|reflexivity]. apply bytes_eqb_eq in E. contradiction. Qed.
Lemma bytes_dec (a b : list byte) : {a = b} + {a <> b}.
Proof. apply list_eq_dec, N.eq_dec. Qed.

Lemma setf_same {A} (f : nat -> A) i x : setf f i x i = x.
Proof. unfold setf. now rewrite Nat.eqb_refl. Qed.
Lemma setf_other {A} (f : nat -> A) i x j : j <> i -> setf f i x j = f j.
Proof. intros H. unfold setf. destruct (Nat.eqb_spec j i); [contradiction|reflexivity]. Qed.

Lemma assoc_drop nm es nm' : assoc nm' (drop_name nm es) = if bytes_eqb nm' nm then None else assoc nm' es.
Proof.
  induction es as [|[k n] es IH]; [cbn; now destruct (bytes_eqb nm' nm)|].
  change (drop_name nm ((k, n) :: es)) with (if negb (bytes_eqb nm k) then (k, n) :: drop_name nm es else drop_name nm es). cbn [assoc].
  destruct (bytes_dec nm k) as [-> | Hk].
  - rewrite bytes_eqb_refl. cbn [negb]. rewrite IH. destruct (bytes_eqb nm' k); reflexivity.
  - rewrite (bytes_eqb_neq nm k Hk). cbn [negb assoc]. rewrite IH. destruct (bytes_dec nm' k) as [-> | Hk2].
    + rewrite bytes_eqb_refl. now rewrite (bytes_eqb_neq k nm) by congruence.
    + now rewrite (bytes_eqb_neq nm' k Hk2).
Qed.
Lemma assoc_app nm a b : assoc nm (a ++ b) = match assoc nm a with Some n => Some n | None => assoc nm b end.
Proof. induction a as [|[k n] a IH]; cbn; [reflexivity|]. destruct (bytes_eqb nm k); [reflexivity|apply IH]. Qed.
Lemma assoc_in nm es n : assoc nm es = Some n -> In (nm, n) es.
Proof.
  induction es as [|[k m] es IH]; cbn; [discriminate|]. destruct (bytes_eqb nm k) eqn:E.
  - apply bytes_eqb_eq in E. intros H. apply some_inj in H. subst. now left.
  - intros H. right. auto.
Qed.
Lemma in_assoc nm es n : NoDup (map fst es) -> In (nm, n) es -> assoc nm es = Some n.
Proof.
  induction es as [|[k m] es IH]; cbn; [tauto|]. intros Hnd [Heq | Hin].
  - assert (k = nm /\ m = n) as [-> ->] by (split; congruence). now rewrite bytes_eqb_refl.
  - inversion Hnd as [|? ? Hni Hnd']; subst. rewrite bytes_eqb_neq.
    + now apply IH.
    + intros ->. apply Hni. now apply (in_map fst) in Hin.
Qed.
Lemma drop_name_incl nm es e : In e (drop_name nm es) -> In e es.
Proof. unfold drop_name. rewrite filter_In. tauto. Qed.
Lemma drop_name_NoDup nm es : NoDup (map fst es) -> NoDup (map fst (drop_name nm es)).
Proof.
  induction es as [|[k n] es IH]; cbn; [auto|]. intros H. inversion H as [|? ? Hni Hnd]; subst.
  destruct (negb (bytes_eqb nm k)); cbn; [|auto]. constructor; [|auto].
  intros Hin. apply Hni. apply in_map_iff in Hin. destruct Hin as [[k2 n2] [Hk Hin]]. cbn in Hk. subst.
  apply drop_name_incl in Hin. now apply (in_map fst) in Hin.
Qed.
Lemma drop_name_gone nm es : ~ In nm (map fst (drop_name nm es)).
Proof.
  intros H. apply in_map_iff in H. destruct H as [[k n] [Hk Hin]]. cbn in Hk. subst k.
  unfold drop_name in Hin. rewrite filter_In in Hin. cbn in Hin. rewrite bytes_eqb_refl in Hin. destruct Hin as [_ Hin]. discriminate.
Qed.
Lemma drop_add_NoDup nm n es : NoDup (map fst es) -> NoDup (map fst (drop_name nm es ++ [(nm, n)])).
Proof.
  intros H. rewrite map_app. cbn. apply NoDup_rev in H. rewrite <- (rev_involutive (map fst (drop_name nm es) ++ [nm])).
  apply NoDup_rev. rewrite rev_app_distr. cbn. constructor.
  - rewrite <- in_rev. apply drop_name_gone.
  - apply NoDup_rev, drop_name_NoDup. rewrite <- (rev_involutive (map fst es)). now apply NoDup_rev.
Qed.

(* What the primitive changes do to nodes and lookups. *)
Lemma nodes_set h n x k : nodes (set_node h n x) k = if Nat.eqb k n then Some x else nodes h k.
Proof. reflexivity. Qed.
Lemma lookup_dir h d nm n : lookup h d nm = Some n -> is_dir_at h d.
Proof. unfold lookup, is_dir_at. destruct (nodes h d) as [[m p es| |]|]; try discriminate. eauto. Qed.
Lemma lookup_nodes h h' : (forall n, nodes h' n = nodes h n) -> forall d nm, lookup h' d nm = lookup h d nm.
Proof. intros H d nm. unfold lookup. now rewrite H. Qed.

Lemma lookup_add h d nm n d' nm' : is_dir_at h d ->
  lookup (add_entry h d nm n) d' nm' = if Nat.eqb d' d && bytes_eqb nm' nm then Some n else lookup h d' nm'.
Proof.
  intros (m & p & es & Hd). unfold lookup, add_entry. rewrite Hd, nodes_set. destruct (Nat.eqb_spec d' d) as [-> | Hne]; cbn [andb]; [|reflexivity].
  rewrite Hd, assoc_app, assoc_drop. cbn. destruct (bytes_eqb nm' nm); [reflexivity|]. now destruct (assoc nm' es).
Qed.
Lemma lookup_remove h d nm d' nm' :
  lookup (remove_entry h d nm) d' nm' = if Nat.eqb d' d && bytes_eqb nm' nm then None else lookup h d' nm'.
Proof.
  unfold lookup, remove_entry. destruct (nodes h d) as [[m p es| |]|] eqn:Hd.
  - rewrite nodes_set. destruct (Nat.eqb_spec d' d) as [-> | Hne]; cbn [andb]; [|reflexivity].
    now rewrite Hd, assoc_drop.
  - destruct (Nat.eqb_spec d' d) as [-> | Hne]; cbn [andb]; [|reflexivity]. rewrite Hd. now destruct (bytes_eqb nm' nm).
  - destruct (Nat.eqb_spec d' d) as [-> | Hne]; cbn [andb]; [|reflexivity]. rewrite Hd. now destruct (bytes_eqb nm' nm).
  - destruct (Nat.eqb_spec d' d) as [-> | Hne]; cbn [andb]; [|reflexivity]. rewrite Hd. now destruct (bytes_eqb nm' nm).
Qed.

(* A change that keeps every node's own data: names, modes, parents, views, targets. *)
Definition entless (x : node) : node := match x with NDir m p _ => NDir m p [] | _ => x end.
Lemma nodes_add h d nm n k : option_map entless (nodes (add_entry h d nm n) k) = option_map entless (nodes h k).
Proof.
  unfold add_entry. destruct (nodes h d) as [[m p es| |]|] eqn:Hd; try reflexivity. rewrite nodes_set.
  destruct (Nat.eqb_spec k d) as [-> | _]; [|reflexivity]. now rewrite Hd.
Qed.
Lemma nodes_remove h d nm k : option_map entless (nodes (remove_entry h d nm) k) = option_map entless (nodes h k).
Proof.
  unfold remove_entry. destruct (nodes h d) as [[m p es| |]|] eqn:Hd; try reflexivity. rewrite nodes_set.
  destruct (Nat.eqb_spec k d) as [-> | _]; [|reflexivity]. now rewrite Hd.
Qed.

(* Same nodes but for entries and reference counts or modes. *)
Definition core (x : node) : list byte * option (option nat) := (m_name (meta_of x), match x with NDir _ p _ => Some p | _ => None end).
Definition same_core (h h' : heap) : Prop := forall k, option_map core (nodes h' k) = option_map core (nodes h k).
Lemma entless_core h h' : (forall k, option_map entless (nodes h' k) = option_map entless (nodes h k)) -> same_core h h'.
Proof.
  intros H k. specialize (H k). destruct (nodes h' k) as [[? ? ?|? ?|? ?]|], (nodes h k) as [[? ? ?|? ?|? ?]|]; cbn in *; try discriminate; try reflexivity; unfold core; cbn; congruence.
Qed.
Lemma same_core_dir h h' d : same_core h h' -> is_dir_at h d -> is_dir_at h' d.
Proof.
  intros H (m & p & es & Hd). specialize (H d). rewrite Hd in H. unfold is_dir_at.
  destruct (nodes h' d) as [[? ? ?|? ?|? ?]|]; cbn in H; try discriminate; eauto.
Qed.
Lemma same_core_refl h : same_core h h.
Proof. intros k. reflexivity. Qed.
Lemma same_core_trans a b c : same_core a b -> same_core b c -> same_core a c.
Proof. intros H1 H2 k. now rewrite H2, H1. Qed.
Lemma same_core_sym a b : same_core a b -> same_core b a.
Proof. intros H1 k. now rewrite H1. Qed.

Definition sub_edges (h' h : heap) : Prop := forall d nm n, lookup h' d nm = Some n -> lookup h d nm = Some n.
Definition keys_ok (h : heap) : Prop := forall d m p es, nodes h d = Some (NDir m p es) -> NoDup (map fst es).

Lemma core_name h h' k x : same_core h h' -> nodes h k = Some x ->
  exists x', nodes h' k = Some x' /\ m_name (meta_of x') = m_name (meta_of x) /\ is_dirnode x' = is_dirnode x /\ parent_of h' k = parent_of h k.
Proof.
  intros H Hx. specialize (H k). unfold parent_of. rewrite Hx in *. destruct (nodes h' k) as [x'|]; [|discriminate]. exists x'. split; [reflexivity|].
  destruct x as [m p es|m v|m t], x' as [m' p' es'|m' v'|m' t']; unfold core in H; cbn in *; try discriminate; repeat split; congruence.
Qed.

(* Shrinking a tree keeps the invariant. *)
Lemma inv_shrink h h' : tree_inv h -> next h' = next h -> same_core h h' -> sub_edges h' h -> keys_ok h' -> tree_inv h'.
Proof.
  intros [Hf Hk He Ho] Hn Hc Hs Hk'. constructor.
  - intros n Hle. specialize (Hc n). rewrite (Hf n) in Hc by lia. destruct (nodes h' n); [discriminate|reflexivity].
  - exact Hk'.
  - intros d nm n Hl. apply Hs in Hl. destruct (He _ _ _ Hl) as (x & Hx & Hname & Hpar).
    destruct (core_name _ _ _ _ Hc Hx) as (x' & Hx' & Hnm & Hd & Hp). exists x'. repeat split; [exact Hx'|congruence|].
    intros Hdir. rewrite Hp. apply Hpar. congruence.
  - intros d nm d' nm' n H1 H2. apply (Ho d nm d' nm' n); now apply Hs.
Qed.

Lemma remove_next h d nm : next (remove_entry h d nm) = next h.
Proof. unfold remove_entry. destruct (nodes h d) as [[]|]; reflexivity. Qed.
Lemma add_next h d nm n : next (add_entry h d nm n) = next h.
Proof. unfold add_entry. destruct (nodes h d) as [[]|]; reflexivity. Qed.
Lemma remove_sub h d nm : sub_edges (remove_entry h d nm) h.
Proof. intros d' nm' n. rewrite lookup_remove. destruct (_ && _); [discriminate|auto]. Qed.
Lemma remove_keys h d nm : keys_ok h -> keys_ok (remove_entry h d nm).
Proof.
  intros Hk d' m p es. unfold remove_entry. destruct (nodes h d) as [[m1 p1 es1| |]|] eqn:Hd; try apply Hk. rewrite nodes_set.
  destruct (Nat.eqb_spec d' d) as [-> | _]; [|apply Hk]. intros H. assert (es = drop_name nm es1) as -> by congruence. apply drop_name_NoDup. eapply Hk, Hd.
Qed.
Lemma add_keys h d nm n : keys_ok h -> keys_ok (add_entry h d nm n).
Proof.
  intros Hk d' m p es. unfold add_entry. destruct (nodes h d) as [[m1 p1 es1| |]|] eqn:Hd; try apply Hk. rewrite nodes_set.
  destruct (Nat.eqb_spec d' d) as [-> | _]; [|apply Hk]. intros H. assert (es = drop_name nm es1 ++ [(nm, n)]) as -> by congruence. apply drop_add_NoDup. eapply Hk, Hd.
Qed.
Lemma remove_core h d nm : same_core h (remove_entry h d nm).
Proof. apply entless_core. intros k. apply nodes_remove. Qed.
Lemma add_core h d nm n : same_core h (add_entry h d nm n).
Proof. apply entless_core. intros k. apply nodes_add. Qed.
Lemma inv_remove h d nm : tree_inv h -> tree_inv (remove_entry h d nm).
Proof. intros H. apply (inv_shrink h); [exact H|apply remove_next|apply remove_core|apply remove_sub|exact (remove_keys h d nm (t_keys h H))]. Qed.

Lemma inv_same h h' : tree_inv h -> next h' = next h -> (forall n, nodes h' n = nodes h n) -> tree_inv h'.
Proof.
  intros H Hn Hs. apply (inv_shrink h); auto.
  - intros k. now rewrite Hs.
  - intros d nm n. now rewrite (lookup_nodes h h' Hs).
  - intros d m p es. rewrite Hs. apply (t_keys h H).
Qed.
Lemma close_if_nodes h n k : nodes (close_if_file h n) k = nodes h k.
Proof. unfold close_if_file. destruct (nodes h n) as [[]|]; reflexivity. Qed.
Lemma close_if_next h n : next (close_if_file h n) = next h.
Proof. unfold close_if_file. destruct (nodes h n) as [[]|]; reflexivity. Qed.
Lemma inv_close h n : tree_inv h -> tree_inv (close_if_file h n).
Proof. intros H. apply (inv_same h); [exact H|apply close_if_next|intros; apply close_if_nodes]. Qed.

(* Entering a node that nothing lists yet. *)
Lemma inv_add h d nm n x : tree_inv h -> is_dir_at h d -> nodes h n = Some x -> m_name (meta_of x) = nm ->
  (is_dirnode x = true -> parent_of h n = Some d) -> (forall d' nm', lookup h d' nm' <> Some n) -> tree_inv (add_entry h d nm n).
Proof.
  intros [Hf Hk He Ho] Hd Hx Hname Hpar Hun. pose proof (add_core h d nm n) as Hc. constructor.
  - intros k Hle. rewrite add_next in Hle. specialize (Hc k). rewrite (Hf k Hle) in Hc. destruct (nodes (add_entry h d nm n) k); [discriminate|reflexivity].
  - apply add_keys. exact Hk.
  - intros d' nm' n' Hl. rewrite (lookup_add h d nm n d' nm' Hd) in Hl. destruct (Nat.eqb_spec d' d) as [-> | Hne]; cbn [andb] in Hl.
    + destruct (bytes_eqb nm' nm) eqn:Eb.
      * apply bytes_eqb_eq in Eb. apply some_inj in Hl. subst nm' n'.
        destruct (core_name _ _ _ _ Hc Hx) as (x' & Hx' & Hnm & Hdd & Hp). exists x'. repeat split; [exact Hx'|congruence|]. intros Hdir. rewrite Hp. apply Hpar. congruence.
      * destruct (He _ _ _ Hl) as (y & Hy & Hyn & Hyp). destruct (core_name _ _ _ _ Hc Hy) as (x' & Hx' & Hnm & Hdd & Hp). exists x'. repeat split; [exact Hx'|congruence|]. intros Hdir. rewrite Hp. apply Hyp. congruence.
    + destruct (He _ _ _ Hl) as (y & Hy & Hyn & Hyp). destruct (core_name _ _ _ _ Hc Hy) as (x' & Hx' & Hnm & Hdd & Hp). exists x'. repeat split; [exact Hx'|congruence|]. intros Hdir. rewrite Hp. apply Hyp. congruence.
  - intros d1 nm1 d2 nm2 k H1 H2. rewrite (lookup_add h d nm n d1 nm1 Hd) in H1. rewrite (lookup_add h d nm n d2 nm2 Hd) in H2.
    destruct (Nat.eqb d1 d && bytes_eqb nm1 nm) eqn:E1, (Nat.eqb d2 d && bytes_eqb nm2 nm) eqn:E2.
    + apply andb_true_iff in E1, E2. destruct E1 as [E1 E1'], E2 as [E2 E2']. apply Nat.eqb_eq in E1, E2. apply bytes_eqb_eq in E1', E2'. split; congruence.
    + exfalso. apply (Hun d2 nm2). congruence.
    + exfalso. apply (Hun d1 nm1). congruence.
    + now apply (Ho d1 nm1 d2 nm2 k).
Qed.

(* A fresh node: unlisted, and no entries. *)
Lemma alloc_lookup h x d nm : tree_inv h -> (forall m p es, x = NDir m p es -> es = []) -> lookup (fst (alloc h x)) d nm = lookup h d nm.
Proof.
  intros H Hx. unfold lookup, alloc. cbn [fst nodes]. destruct (Nat.eq_dec d (next h)) as [-> | Hne].
  - rewrite setf_same, (t_fresh h H (next h)) by lia. destruct x as [m p es| |]; try reflexivity. now rewrite (Hx _ _ _ eq_refl).
  - now rewrite setf_other.
Qed.
Lemma fresh_unlisted h d nm : tree_inv h -> lookup h d nm <> Some (next h).
Proof. intros H Hl. destruct (t_ent h H _ _ _ Hl) as (x & Hx & _). rewrite (t_fresh h H (next h)) in Hx by lia. discriminate. Qed.
Lemma dir_old h d : tree_inv h -> is_dir_at h d -> d < next h.
Proof. intros H (m & p & es & Hd). destruct (Nat.lt_ge_cases d (next h)) as [Hl|Hl]; [exact Hl|]. rewrite (t_fresh h H d Hl) in Hd. discriminate. Qed.
Lemma inv_alloc h x : tree_inv h -> (forall m p es, x = NDir m p es -> es = []) -> tree_inv (fst (alloc h x)).
Proof.
  intros H Hx. constructor.
  - intros n. cbn. intros Hle. rewrite setf_other by lia. apply (t_fresh h H). lia.
  - intros d m p es. cbn. unfold setf. destruct (Nat.eqb d (next h)).
    + intros Hd. apply some_inj in Hd. rewrite (Hx _ _ _ Hd). constructor.
    + apply (t_keys h H).
  - intros d nm n Hl. rewrite (alloc_lookup h x d nm H Hx) in Hl. destruct (t_ent h H _ _ _ Hl) as (y & Hy & Hn & Hp).
    assert (n <> next h) as Hne by (intros ->; now apply (fresh_unlisted h d nm H)).
    exists y. cbn. rewrite setf_other by exact Hne. repeat split; [exact Hy|exact Hn|]. intros Hd. unfold parent_of. cbn. rewrite setf_other by exact Hne. now apply Hp.
  - intros d nm d' nm' n. rewrite !alloc_lookup by assumption. apply (t_once h H).
Qed.
Lemma alloc_dir h x d : tree_inv h -> is_dir_at h d -> is_dir_at (fst (alloc h x)) d.
Proof.
  intros H Hd. pose proof (dir_old h d H Hd). destruct Hd as (m & p & es & Hd). exists m, p, es. cbn. now rewrite setf_other by lia.
Qed.

Definition leaf_node (x : node) (d : nat) (nm : list byte) : Prop :=
  m_name (meta_of x) = nm /\ match x with NDir _ p es => p = Some d /\ es = [] | _ => True end.
Lemma leaf_empty x d nm : leaf_node x d nm -> forall m p es, x = NDir m p es -> es = [].
Proof. intros [_ H] m p es ->. apply H. Qed.

Lemma enter_eq h d nm x : enter_new h d nm x = (add_entry (fst (alloc h x)) d nm (next h), next h).
Proof. reflexivity. Qed.
Lemma inv_enter h d nm x : tree_inv h -> is_dir_at h d -> leaf_node x d nm -> tree_inv (fst (enter_new h d nm x)).
Proof.
  intros H Hd Hx. pose proof (leaf_empty _ _ _ Hx) as He. rewrite enter_eq. cbn [fst]. apply (inv_add _ _ _ _ x).
  - now apply inv_alloc.
  - now apply alloc_dir.
  - cbn. apply setf_same.
  - apply Hx.
  - intros Hdir. unfold parent_of. cbn. rewrite setf_same. destruct x as [m p es| |]; try discriminate. apply Hx.
  - intros d' nm'. rewrite alloc_lookup by assumption. now apply fresh_unlisted.
Qed.
Lemma lookup_enter h d nm x d' nm' : tree_inv h -> is_dir_at h d -> leaf_node x d nm ->
  lookup (fst (enter_new h d nm x)) d' nm' = if Nat.eqb d' d && bytes_eqb nm' nm then Some (next h) else lookup h d' nm'.
Proof.
  intros H Hd Hx. pose proof (leaf_empty _ _ _ Hx) as He. rewrite enter_eq. cbn [fst]. rewrite lookup_add by now apply alloc_dir. now rewrite alloc_lookup.
Qed.
Lemma fresh_nodes h t n : nodes (fst (fresh_view h t)) n = nodes h n.
Proof. reflexivity. Qed.
Lemma inv_fresh h t : tree_inv h -> tree_inv (fst (fresh_view h t)).
Proof. intros H. now apply (inv_same h). Qed.

(* Setting metadata other than the name. *)
Lemma with_meta_core x m : m_name m = m_name (meta_of x) -> core (with_meta x m) = core x.
Proof. intros H. destruct x; cbn in *; unfold core; cbn; now rewrite H. Qed.
Lemma meta_core h n x m : nodes h n = Some x -> m_name m = m_name (meta_of x) -> same_core h (set_node h n (with_meta x m)).
Proof.
  intros Hx Hm k. rewrite nodes_set. destruct (Nat.eqb_spec k n) as [-> | _]; [|reflexivity]. rewrite Hx. cbn. now rewrite with_meta_core.
Qed.
Lemma meta_lookup h n x m d nm : nodes h n = Some x -> lookup (set_node h n (with_meta x m)) d nm = lookup h d nm.
Proof.
  intros Hx. unfold lookup. rewrite nodes_set. destruct (Nat.eqb_spec d n) as [-> | _]; [|reflexivity]. rewrite Hx. now destruct x.
Qed.
Lemma inv_meta h n x m : tree_inv h -> nodes h n = Some x -> m_name m = m_name (meta_of x) -> tree_inv (set_node h n (with_meta x m)).
Proof.
  intros H Hx Hm. apply (inv_shrink h); [exact H|reflexivity|now apply meta_core|intros d nm k; now rewrite meta_lookup|].
  intros d m' p es. rewrite nodes_set. destruct (Nat.eqb_spec d n) as [-> | _]; [|apply (t_keys h H)].
  intros He. apply some_inj in He. destruct x as [m0 p0 es0| |]; cbn in He; try discriminate. assert (es0 = es) as <- by congruence. eapply (t_keys h H), Hx.
Qed.
Lemma inv_bump h n : tree_inv h -> tree_inv (bump h n).
Proof. intros H. unfold bump. destruct (nodes h n) as [x|] eqn:Hx; [|exact H]. now apply inv_meta. Qed.
Lemma inv_drop h n : tree_inv h -> tree_inv (drop_ref h n).
Proof. intros H. unfold drop_ref. destruct (nodes h n) as [x|] eqn:Hx; [|exact H]. now apply inv_meta. Qed.

(* Retitling a node that nothing lists. *)
Lemma inv_retitle h n d nm : tree_inv h -> (forall d' nm', lookup h d' nm' <> Some n) -> tree_inv (retitle h n d nm).
Proof.
  intros H Hun. unfold retitle. destruct (nodes h n) as [x|] eqn:Hx; [|exact H].
  set (m := {| m_name := nm; m_mode := m_mode (meta_of x); m_ref := m_ref (meta_of x) |}).
  set (y := match x with NDir _ _ es => NDir m (Some d) es | _ => with_meta x m end).
  assert (forall d' nm', lookup (set_node h n y) d' nm' = lookup h d' nm') as Hlk.
  { intros d' nm'. unfold lookup. rewrite nodes_set. destruct (Nat.eqb_spec d' n) as [-> | _]; [|reflexivity]. rewrite Hx. unfold y. now destruct x. }
  constructor.
  - intros k Hle. rewrite nodes_set. destruct (Nat.eqb_spec k n) as [-> | _]; [|now apply (t_fresh h H)]. cbn in Hle. rewrite (t_fresh h H n Hle) in Hx. discriminate.
  - intros d' m' p es. rewrite nodes_set. destruct (Nat.eqb_spec d' n) as [-> | _]; [|apply (t_keys h H)].
    unfold y. intros He. apply some_inj in He. destruct x as [m0 p0 es0| |]; cbn in He; try discriminate. assert (es0 = es) as <- by congruence. eapply (t_keys h H), Hx.
  - intros d' nm' k Hl. rewrite Hlk in Hl. destruct (t_ent h H _ _ _ Hl) as (z & Hz & Hn & Hp).
    assert (k <> n) as Hne by (intros ->; now apply (Hun d' nm')). exists z. unfold parent_of. rewrite nodes_set.
    destruct (Nat.eqb_spec k n); [contradiction|]. repeat split; assumption.
  - intros d1 nm1 d2 nm2 k. rewrite !Hlk. apply (t_once h H).
Qed.
Lemma retitle_lookup h n d nm d' nm' : lookup (retitle h n d nm) d' nm' = lookup h d' nm'.
Proof.
  unfold retitle. destruct (nodes h n) as [x|] eqn:Hx; [|reflexivity]. unfold lookup. rewrite nodes_set. destruct (Nat.eqb_spec d' n) as [-> | _]; [|reflexivity]. rewrite Hx. now destruct x.
Qed.
Lemma retitle_dir h n d nm k : is_dir_at h k -> is_dir_at (retitle h n d nm) k.
Proof.
  intros (m & p & es & Hk). unfold retitle, is_dir_at. destruct (nodes h n) as [x|] eqn:Hx; [|eauto]. rewrite nodes_set. destruct (Nat.eqb_spec k n) as [-> | _]; [|eauto].
  rewrite Hx in Hk. apply some_inj in Hk. subst x. eauto.
Qed.
Lemma retitle_node h n d nm x : nodes h n = Some x -> exists y, nodes (retitle h n d nm) n = Some y /\ m_name (meta_of y) = nm /\ is_dirnode y = is_dirnode x /\ (is_dirnode y = true -> parent_of (retitle h n d nm) n = Some d).
Proof.
  intros Hx. unfold retitle. rewrite Hx. unfold parent_of. rewrite nodes_set, Nat.eqb_refl. eexists. split; [reflexivity|]. destruct x; cbn; repeat split; auto; discriminate.
Qed.

(* Clearing a directory. *)
Lemma clear_spec h n m p es : nodes h n = Some (NDir m p es) ->
  same_core h (set_node h n (NDir m p [])) /\ sub_edges (set_node h n (NDir m p [])) h /\ (keys_ok h -> keys_ok (set_node h n (NDir m p []))).
Proof.
  intros Hn. repeat split.
  - intros k. rewrite nodes_set. destruct (Nat.eqb_spec k n) as [-> | _]; [|reflexivity]. now rewrite Hn.
  - intros d nm e. unfold lookup. rewrite nodes_set. destruct (Nat.eqb_spec d n); [discriminate|auto].
  - intros Hk d m' p' es'. rewrite nodes_set. destruct (Nat.eqb_spec d n) as [-> | _]; [|apply Hk]. intros He. assert (es' = []) as -> by congruence. constructor.
Qed.

(* [h'] is [h] with some directories emptied. *)
Record emptied (h h' : heap) : Prop := {
  em_next : next h' = next h;
  em_nodes : forall k, nodes h' k = nodes h k \/ exists m p es, nodes h k = Some (NDir m p es) /\ nodes h' k = Some (NDir m p []) }.
Lemma emptied_refl h : emptied h h.
Proof. constructor; auto. Qed.
Lemma emptied_trans a b c : emptied a b -> emptied b c -> emptied a c.
Proof.
  intros [Hn1 H1] [Hn2 H2]. constructor; [congruence|]. intros k. destruct (H2 k) as [E2|(m & p & es & E2 & E2')], (H1 k) as [E1|(m1 & p1 & es1 & E1 & E1')].
  - left. congruence.
  - right. exists m1, p1, es1. split; congruence.
  - right. exists m, p, es. split; congruence.
  - right. exists m1, p1, es1. split; congruence.
Qed.
Lemma emptied_core h h' : emptied h h' -> same_core h h'.
Proof. intros [_ H] k. destruct (H k) as [-> | (m & p & es & -> & ->)]; reflexivity. Qed.
Lemma emptied_sub h h' : emptied h h' -> sub_edges h' h.
Proof.
  intros [_ H] d nm n. unfold lookup. destruct (H d) as [-> | (m & p & es & -> & ->)]; [auto|discriminate].
Qed.
Lemma emptied_inv h h' : emptied h h' -> tree_inv h -> tree_inv h'.
Proof.
  intros He H. apply (inv_shrink h); [exact H|apply He|now apply emptied_core|now apply emptied_sub|].
  intros d m p es Hd. destruct (em_nodes _ _ He d) as [E|(m1 & p1 & es1 & E1 & E1')].
  - rewrite E in Hd. eapply (t_keys h H), Hd.
  - assert (es = []) as -> by congruence. constructor.
Qed.
Lemma emptied_close h v : emptied h (close_view h v).
Proof. constructor; auto. Qed.

Lemma fold_none {B} (f : heap -> B -> option heap) es : fold_left (fun oh e => match oh with None => None | Some h1 => f h1 e end) es None = None.
Proof. induction es; cbn; auto. Qed.

Lemma remove_subtree_emptied fuel : forall h n h', remove_subtree fuel h n = Some h' -> emptied h h'.
Proof.
  induction fuel as [|f IH]; intros h n h' H; [discriminate|]. cbn in H.
  destruct (nodes h n) as [[m p es|m v|m t]|] eqn:Hn.
  - assert (forall es h1 h2, fold_left (fun oh (e : list byte * nat) => match oh with None => None | Some h1 => remove_subtree f h1 (snd e) end) es (Some h1) = Some h2 -> emptied h1 h2) as Hfold.
    { clear -IH. induction es as [|e es IHe]; intros h1 h2 H; cbn in H.
      - apply some_inj in H. subst. apply emptied_refl.
      - destruct (remove_subtree f h1 (snd e)) as [h3|] eqn:E.
        + eapply emptied_trans; [eapply IH, E|apply IHe, H].
        + rewrite (fold_none (fun h1 e => remove_subtree f h1 (snd e))) in H. discriminate. }
    destruct (fold_left _ es (Some h)) as [h1|] eqn:E; [|discriminate]. apply Hfold in E. apply some_inj in H. subst h'.
    eapply emptied_trans; [exact E|]. destruct (nodes h1 n) as [[m1 p1 es1| |]|] eqn:Hn1; try apply emptied_refl.
    constructor; [reflexivity|]. intros k. rewrite nodes_set. destruct (Nat.eqb_spec k n) as [-> | _]; [right; eauto|now left].
  - apply some_inj in H. subst. apply emptied_close.
  - apply some_inj in H. subst. apply emptied_refl.
  - apply some_inj in H. subst. apply emptied_refl.
Qed.

(* Resolution. *)
Lemma walk_nil h b fo hops cur : walk_comps h b fo hops cur [] = Ok {| f_node := cur; f_at := None |}.
Proof. now destruct hops. Qed.
Lemma walk_cons h b fo hops cur c rest :
  walk_comps h b fo hops cur (c :: rest) =
    if is_empty c || is_dot c then walk_comps h b fo hops cur rest
    else if is_dotdot c then
      if Nat.eqb cur b then Err EEscapes
      else match parent_of h cur with None => Err EEscapes | Some p => walk_comps h b fo hops p rest end
    else
      match lookup h cur c with
      | None => Err ENotExist
      | Some n =>
          let last := nothing_left rest in
          match nodes h n with
          | Some (NLink _ target) =>
              if negb last || fo then
                match hops with
                | O => Err ELoop
                | S k => if rooted target then Err EEscapes
                         else walk_comps h b fo k cur (if last then split_sep target else split_sep target ++ rest)
                end
              else Ok {| f_node := n; f_at := Some (cur, c) |}
          | Some (NDir _ _ _) => if last then Ok {| f_node := n; f_at := Some (cur, c) |} else walk_comps h b fo hops n rest
          | _ => if last then Ok {| f_node := n; f_at := Some (cur, c) |} else Err ENotDir
          end
      end.
Proof. now destruct hops. Qed.

Lemma reach_trans h a b c : reach h a b -> reach h b c -> reach h a c.
Proof. intros H1 H2. induction H2; [exact H1|eapply reach_step; eassumption]. Qed.
Lemma reach_one h d nm n : lookup h d nm = Some n -> reach h d n.
Proof. intros H. eapply reach_step; [apply reach_self|exact H]. Qed.
Lemma parent_is_dir h d p : parent_of h d = Some p -> is_dir_at h d.
Proof. unfold parent_of, is_dir_at. destruct (nodes h d) as [[m q es| |]|]; try discriminate. eauto. Qed.
Lemma parent_lister h d nm n p : tree_inv h -> lookup h d nm = Some n -> parent_of h n = Some p -> p = d.
Proof.
  intros H Hl Hp. destruct (t_ent h H _ _ _ Hl) as (x & Hx & _ & Hpar). pose proof (parent_is_dir _ _ _ Hp) as (m & q & es & Hd).
  rewrite Hx in Hd. apply some_inj in Hd. subst x. specialize (Hpar eq_refl). congruence.
Qed.


Lemma walk_inside h b fo : tree_inv h -> forall hops comps cur f, reach h b cur -> walk_comps h b fo hops cur comps = Ok f -> found_in h b f.
Proof.
  intros H. induction hops as [|hops IHh]; induction comps as [|c rest IHc]; intros cur f Hr Hw.
  1,3: rewrite walk_nil in Hw; assert (f = {| f_node := cur; f_at := None |}) as -> by congruence; split; [exact Hr|discriminate].
  all: rewrite walk_cons in Hw; destruct (is_empty c || is_dot c); [eapply IHc; eassumption|]; destruct (is_dotdot c);
    [ destruct (Nat.eqb_spec cur b) as [|Hne]; [discriminate|]; destruct (parent_of h cur) as [p|] eqn:Hp; [|discriminate];
      inversion Hr as [Heq|e nm n Hre Hle Heq]; subst; [contradiction|];
      pose proof (parent_lister _ _ _ _ _ H Hle Hp); subst p; eapply IHc; eassumption |];
    destruct (lookup h cur c) as [n|] eqn:Hl; [|discriminate]; cbn zeta in Hw;
    assert (reach h b n) as Hrn by (eapply reach_step; eassumption);
    assert (found_in h b {| f_node := n; f_at := Some (cur, c) |}) as Hfound
      by (split; [exact Hrn|intros d nm E; cbn in *; assert (d = cur /\ nm = c) as [-> ->] by (split; congruence); split; assumption]).
  - destruct (nodes h n) as [[m p es|m v|m t]|], (nothing_left rest); cbn [negb orb] in Hw; try discriminate; try (assert (f = {| f_node := n; f_at := Some (cur, c) |}) as -> by congruence; exact Hfound).
    + eapply IHc; eassumption.
    + destruct fo; [discriminate|]. assert (f = {| f_node := n; f_at := Some (cur, c) |}) as -> by congruence; exact Hfound.
  - destruct (nodes h n) as [[m p es|m v|m t]|], (nothing_left rest); cbn [negb orb] in Hw; try discriminate; try (assert (f = {| f_node := n; f_at := Some (cur, c) |}) as -> by congruence; exact Hfound).
    + eapply IHc; eassumption.
    + destruct fo; [|assert (f = {| f_node := n; f_at := Some (cur, c) |}) as -> by congruence; exact Hfound].
      destruct (rooted t); [discriminate|]. eapply IHh; [exact Hr|exact Hw].
    + destruct (rooted t); [discriminate|]. eapply IHh; [exact Hr|exact Hw].
Qed.

Lemma resolve_inside h b name fo f : tree_inv h -> resolve h b name fo = Ok f -> found_in h b f.
Proof.
  intros H. unfold resolve. destruct (normalize name); [|discriminate]. apply walk_inside; [exact H|apply reach_self].
Qed.
Lemma resolve_parent_inside h b name d base : tree_inv h -> resolve_parent h b name = Ok (d, base) -> reach h b d /\ is_dir_at h d.
Proof.
  intros H. unfold resolve_parent. destruct (normalize name) as [[|c comps]|]; [discriminate| |discriminate].
  destruct (walk_comps h b true max_hops b (removelast (c :: comps))) as [f|e] eqn:E; [|discriminate].
  apply walk_inside in E; [|exact H|apply reach_self]. destruct (nodes h (f_node f)) as [[m p es| |]|] eqn:En; try discriminate.
  intros Heq. assert (f_node f = d) as <- by congruence. split; [apply E|]. exists m, p, es. exact En.
Qed.

(* Resolution is POSIX resolution, given the hop budget. *)
Lemma tests_false c : is_empty c || is_dot c = false -> is_dotdot c = false -> c <> [] /\ c <> [dot] /\ c <> [dot; dot].
Proof.
  rewrite orb_false_iff. intros [H1 H2] H3. repeat split; intros ->; discriminate.
Qed.
Lemma tests_skip c : is_empty c || is_dot c = true <-> c = [] \/ c = [dot].
Proof. rewrite orb_true_iff, is_empty_true, is_dot_true. tauto. Qed.

Lemma walk_namei h b fo : tree_inv h -> forall hops comps cur f, reach h b cur -> walk_comps h b fo hops cur comps = Ok f -> exists k, k <= hops /\ namei h b fo k cur comps f.
Proof.
  intros H. induction hops as [|hops IHh]; induction comps as [|c rest IHc]; intros cur f Hr Hw.
  1,3: rewrite walk_nil in Hw; assert (f = {| f_node := cur; f_at := None |}) as -> by congruence; exists 0; split; [lia|constructor].
  all: rewrite walk_cons in Hw; destruct (is_empty c || is_dot c) eqn:Esk;
    [destruct (IHc _ _ Hr Hw) as (k & Hk & Hn); exists k; split; [exact Hk|apply nm_skip; [now apply tests_skip|exact Hn]]|];
    destruct (is_dotdot c) eqn:Edd;
    [ destruct (Nat.eqb_spec cur b) as [|Hne]; [discriminate|]; destruct (parent_of h cur) as [p|] eqn:Hp; [|discriminate];
      inversion Hr as [Heq|e nm n Hre Hle Heq]; [subst; contradiction|]; subst n;
      pose proof (parent_lister _ _ _ _ _ H Hle Hp); subst p; destruct (IHc _ _ Hre Hw) as (k & Hk & Hn); exists k; split; [exact Hk|];
      apply is_dotdot_true in Edd; subst c; eapply nm_up; eassumption |];
    destruct (tests_false c Esk Edd) as (Hc1 & Hc2 & Hc3);
    destruct (lookup h cur c) as [n|] eqn:Hl; [|discriminate]; cbn zeta in Hw;
    assert (reach h b n) as Hrn by (eapply reach_step; eassumption);
    destruct (t_ent h H _ _ _ Hl) as (x & Hx & _); rewrite Hx in Hw.
  - destruct x as [m p es|m v|m t], (nothing_left rest) eqn:En; cbn [negb orb] in Hw; try discriminate.
    + assert (f = {| f_node := n; f_at := Some (cur, c) |}) as -> by congruence. exists 0. split; [lia|]. eapply nm_last; eauto. discriminate.
    + destruct (IHc _ _ Hrn Hw) as (k & Hk & Hn). exists k. split; [exact Hk|]. eapply nm_down; eauto.
    + assert (f = {| f_node := n; f_at := Some (cur, c) |}) as -> by congruence. exists 0. split; [lia|]. eapply nm_last; eauto. discriminate.
    + destruct fo; [discriminate|]. assert (f = {| f_node := n; f_at := Some (cur, c) |}) as -> by congruence. exists 0. split; [lia|]. eapply nm_last; eauto.
  - destruct x as [m p es|m v|m t], (nothing_left rest) eqn:En; cbn [negb orb] in Hw; try discriminate.
    + assert (f = {| f_node := n; f_at := Some (cur, c) |}) as -> by congruence. exists 0. split; [lia|]. eapply nm_last; eauto. discriminate.
    + destruct (IHc _ _ Hrn Hw) as (k & Hk & Hn). exists k. split; [exact Hk|]. eapply nm_down; eauto.
    + assert (f = {| f_node := n; f_at := Some (cur, c) |}) as -> by congruence. exists 0. split; [lia|]. eapply nm_last; eauto. discriminate.
    + destruct fo.
      * destruct (rooted t) eqn:Ert; [discriminate|]. destruct (IHh _ _ _ Hr Hw) as (k & Hk & Hn). exists (S k). split; [lia|]. eapply nm_link; eauto. rewrite En, app_nil_r. exact Hn.
      * assert (f = {| f_node := n; f_at := Some (cur, c) |}) as -> by congruence. exists 0. split; [lia|]. eapply nm_last; eauto.
    + destruct (rooted t) eqn:Ert; [discriminate|]. destruct (IHh _ _ _ Hr Hw) as (k & Hk & Hn). exists (S k). split; [lia|]. eapply nm_link; eauto. rewrite En. exact Hn.
Qed.

Lemma tests_true c : c <> [] -> c <> [dot] -> c <> [dot; dot] -> is_empty c || is_dot c = false /\ is_dotdot c = false.
Proof.
  intros H1 H2 H3. split.
  - destruct (is_empty c || is_dot c) eqn:E; [|reflexivity]. apply tests_skip in E. tauto.
  - destruct (is_dotdot c) eqn:E; [|reflexivity]. apply is_dotdot_true in E. contradiction.
Qed.

Lemma namei_walk h b fo : tree_inv h -> forall k cur comps f, namei h b fo k cur comps f -> is_dir_at h cur -> forall hops, k <= hops -> walk_comps h b fo hops cur comps = Ok f.
Proof.
  intros H k cur comps f Hn. induction Hn as [cur|k cur c l f Hc Hn IH|k cur d nm l f Hne Hl Hn IH|k cur c l n m t f H1 H2 H3 Hl Hx Ht Hlast Hn IH|cur c l n x H1 H2 H3 Hl Hx Hlast Hfo|k cur c l n m p es f H1 H2 H3 Hl Hx Hlast Hn IH];
    intros Hd hops Hk.
  - apply walk_nil.
  - rewrite walk_cons. apply tests_skip in Hc. rewrite Hc. now apply IH.
  - rewrite walk_cons. change (is_empty [dot; dot] || is_dot [dot; dot]) with false. change (is_dotdot [dot; dot]) with true. cbn iota.
    destruct (Nat.eqb_spec cur b); [contradiction|]. destruct (t_ent h H _ _ _ Hl) as (y & Hy & _ & Hp). destruct Hd as (m & p & es & Hd). rewrite Hd in Hy. apply some_inj in Hy. subst y.
    rewrite (Hp eq_refl). apply IH; [|exact Hk]. eapply lookup_dir, Hl.
  - rewrite walk_cons. destruct (tests_true c H1 H2 H3) as [-> ->]. rewrite Hl. cbn zeta. rewrite Hx. destruct hops as [|hops]; [lia|]. rewrite Ht.
    assert (negb (nothing_left l) || fo = true) as -> by (destruct Hlast as [-> | ->]; [reflexivity|apply orb_true_r]).
    destruct (nothing_left l); [rewrite app_nil_r in IH|]; apply IH; solve [exact Hd|lia].
  - rewrite walk_cons. destruct (tests_true c H1 H2 H3) as [-> ->]. rewrite Hl. cbn zeta. rewrite Hx, Hlast. destruct x as [m p es|m v|m t]; try reflexivity. cbn [negb orb]. now rewrite (Hfo m t eq_refl).
  - rewrite walk_cons. destruct (tests_true c H1 H2 H3) as [-> ->]. rewrite Hl. cbn zeta. rewrite Hx, Hlast. apply IH; [|exact Hk]. exists m, p, es. exact Hx.
Qed.

(* Every call keeps the invariant, and directories stay directories. *)
Definition keeps (h h' : heap) : Prop := tree_inv h' /\ forall d, is_dir_at h d -> is_dir_at h' d.
Lemma keeps_refl h : tree_inv h -> keeps h h.
Proof. split; auto. Qed.
Lemma keeps_trans a b c : keeps a b -> keeps b c -> keeps a c.
Proof. intros [_ H1] [H2 H3]. split; auto. Qed.
Lemma keeps_core h h' : tree_inv h' -> same_core h h' -> keeps h h'.
Proof. intros H Hc. split; [exact H|]. intros d. now apply same_core_dir. Qed.

Lemma keeps_enter h d nm x : tree_inv h -> is_dir_at h d -> leaf_node x d nm -> keeps h (fst (enter_new h d nm x)).
Proof.
  intros H Hd Hx. split; [now apply inv_enter|]. intros k Hk. rewrite enter_eq. cbn [fst]. apply (same_core_dir _ _ _ (add_core _ d nm (next h))). now apply alloc_dir.
Qed.
Lemma keeps_remove h d nm : tree_inv h -> keeps h (remove_entry h d nm).
Proof. intros H. apply keeps_core; [now apply inv_remove|apply remove_core]. Qed.
Lemma keeps_same h h' : tree_inv h -> next h' = next h -> (forall n, nodes h' n = nodes h n) -> keeps h h'.
Proof. intros H Hn Hs. apply keeps_core; [now apply (inv_same h)|intros k; now rewrite Hs]. Qed.
Lemma keeps_close h n : tree_inv h -> keeps h (close_if_file h n).
Proof. intros H. apply keeps_same; [exact H|apply close_if_next|intros; apply close_if_nodes]. Qed.
Lemma keeps_meta h n x m : tree_inv h -> nodes h n = Some x -> m_name m = m_name (meta_of x) -> keeps h (set_node h n (with_meta x m)).
Proof. intros. apply keeps_core; [now apply inv_meta|now apply meta_core]. Qed.
Lemma keeps_bump h n : tree_inv h -> keeps h (bump h n).
Proof. intros H. unfold bump. destruct (nodes h n) as [x|] eqn:Hx; [now apply keeps_meta|now apply keeps_refl]. Qed.
Lemma keeps_drop h n : tree_inv h -> keeps h (drop_ref h n).
Proof. intros H. unfold drop_ref. destruct (nodes h n) as [x|] eqn:Hx; [now apply keeps_meta|now apply keeps_refl]. Qed.
Lemma keeps_emptied h h' : tree_inv h -> emptied h h' -> keeps h h'.
Proof. intros H He. apply keeps_core; [now apply (emptied_inv h)|now apply emptied_core]. Qed.
Lemma keeps_file h d nm mode t : tree_inv h -> is_dir_at h d -> keeps h (fst (enter_file h d nm mode t)).
Proof.
  intros H Hd. unfold enter_file. destruct (fresh_view h t) as [h1 v] eqn:E. assert (h1 = fst (fresh_view h t)) as -> by now rewrite E.
  eapply keeps_trans; [now apply (keeps_same h (fst (fresh_view h t)))|]. apply keeps_enter; [now apply inv_fresh|exact Hd|now split].
Qed.

Lemma new_dir_leaf nm mode d : leaf_node (new_dir nm mode d) d nm.
Proof. repeat split. Qed.

Lemma keeps_mkdir h b name mode : tree_inv h -> keeps h (fst (mkdir h b name mode)).
Proof.
  intros H. unfold mkdir. destruct (resolve_parent h b name) as [[d base]|e] eqn:E; [|now apply keeps_refl].
  apply resolve_parent_inside in E; [|exact H]. destruct (_ || _); [now apply keeps_refl|]. destruct (lookup h d base); [now apply keeps_refl|].
  cbn [fst]. apply keeps_enter; [exact H|apply E|apply new_dir_leaf].
Qed.
Lemma keeps_mkdir_loop b mode ps : forall h, tree_inv h -> keeps h (fst (mkdir_all_loop h b ps mode)).
Proof.
  induction ps as [|p ps IH]; intros h H; cbn [mkdir_all_loop]; [now apply keeps_refl|].
  pose proof (keeps_mkdir h b (join_sep p) mode H) as Hk. destruct (mkdir h b (join_sep p) mode) as [h1 [u|e]]; cbn [fst] in Hk.
  - eapply keeps_trans; [exact Hk|apply IH, Hk].
  - destruct e; try exact Hk. destruct (resolve h1 b (join_sep p) true) as [f|e]; [|exact Hk]. destruct (nodes h1 (f_node f)) as [[m q es| |]|]; try exact Hk.
    eapply keeps_trans; [exact Hk|apply IH, Hk].
Qed.
Lemma keeps_mkdir_all h b name mode : tree_inv h -> keeps h (fst (mkdir_all h b name mode)).
Proof. intros H. unfold mkdir_all. destruct (normalize name); [now apply keeps_mkdir_loop|now apply keeps_refl]. Qed.
Lemma keeps_symlink h b t name mode : tree_inv h -> keeps h (fst (symlink h b t name mode)).
Proof.
  intros H. unfold symlink. destruct (resolve_parent h b name) as [[d base]|e] eqn:E; [|now apply keeps_refl].
  apply resolve_parent_inside in E; [|exact H]. destruct (lookup h d base); [now apply keeps_refl|]. cbn [fst]. apply keeps_enter; [exact H|apply E|now split].
Qed.
Lemma keeps_link h b old new : tree_inv h -> keeps h (fst (link h b old new)).
Proof.
  intros H. unfold link. destruct (resolve h b old true) as [f|e]; [|now apply keeps_refl]. destruct (nodes h (f_node f)) as [[m q es|m v|m t]|]; try now apply keeps_refl.
  destruct (resolve_parent h b new) as [[d base]|e] eqn:E; [|now apply keeps_refl].
  apply resolve_parent_inside in E; [|exact H]. destruct (lookup h d base); [now apply keeps_refl|]. cbn [fst]. apply keeps_enter; [exact H|apply E|now split].
Qed.
Lemma keeps_displace h d base ex : tree_inv h -> keeps h (displace h d base ex).
Proof.
  intros H. unfold displace. destruct ex as [x|]; [|now apply keeps_refl]. eapply keeps_trans; [now apply keeps_remove|]. now apply keeps_close, inv_remove.
Qed.
Lemma keeps_removal busy h b name : tree_inv h -> keeps h (fst (remove busy h b name)).
Proof.
  intros H. unfold remove. destruct (resolve_parent h b name) as [[d base]|e]; [|now apply keeps_refl]. destruct (lookup h d base) as [n|]; [|now apply keeps_refl].
  destruct (holds_something h n); [now apply keeps_refl|]. destruct (busy && _); [now apply keeps_refl|]. cbn [fst]. apply (keeps_displace h d base (Some n) H).
Qed.
Lemma keeps_remove_all fuel h b name h' r : tree_inv h -> remove_all fuel h b name = Some (h', r) -> keeps h h'.
Proof.
  intros H. unfold remove_all. assert (forall r1, Some (h, r1) = Some (h', r) -> keeps h h') as Hsame by (intros; assert (h' = h) as -> by congruence; now apply keeps_refl).
  destruct (ends_with_dot name); [apply Hsame|]. destruct (normalize name) as [[|c l]|e]; try (apply Hsame).
  destruct (resolve_parent h b name) as [[d base]|e]; [|apply Hsame]. destruct (lookup h d base) as [n|]; [|apply Hsame].
  destruct (remove_subtree fuel h n) as [h1|] eqn:Es; [|discriminate]. intros E. assert (h' = remove_entry h1 d base) as -> by congruence.
  apply remove_subtree_emptied in Es. eapply keeps_trans; [apply (keeps_emptied h h1 H Es)|apply keeps_remove, (emptied_inv h h1 Es H)].
Qed.

(* The moving part of a rename. *)
Definition move (h : heap) (od : nat) (ob : list byte) (n nd : nat) (nb : list byte) : heap :=
  add_entry (retitle (remove_entry h od ob) n nd nb) nd nb n.
Lemma only_listing h od ob n : tree_inv h -> (forall d nm, lookup h d nm = Some n -> d = od /\ nm = ob) -> forall d nm, lookup (remove_entry h od ob) d nm <> Some n.
Proof.
  intros H Ho d nm. rewrite lookup_remove. destruct (Nat.eqb d od && bytes_eqb nm ob) eqn:E; [discriminate|]. intros Hl. destruct (Ho d nm Hl) as [-> ->].
  rewrite Nat.eqb_refl, bytes_eqb_refl in E. discriminate.
Qed.
Lemma keeps_move h od ob n nd nb : tree_inv h -> is_dir_at h nd -> nodes h n <> None -> (forall d nm, lookup h d nm = Some n -> d = od /\ nm = ob) -> keeps h (move h od ob n nd nb).
Proof.
  intros H Hnd Hn Ho. unfold move. pose proof (only_listing h od ob n H Ho) as Hun. pose proof (inv_remove h od ob H) as H1. set (h1 := remove_entry h od ob) in *.
  destruct (nodes h1 n) as [x|] eqn:Hx.
  2:{ pose proof (remove_core h od ob n) as Hc. fold h1 in Hc. rewrite Hx in Hc. destruct (nodes h n); [discriminate|contradiction]. }
  destruct (retitle_node h1 n nd nb x Hx) as (y & Hy & Hyn & Hyd & Hyp).
  assert (forall d, is_dir_at h d -> is_dir_at (retitle h1 n nd nb) d) as Hdirs by (intros d Hd; apply retitle_dir, (same_core_dir h h1 d); [apply remove_core|exact Hd]).
  split.
  - apply (inv_add _ nd nb n y); auto; [now apply inv_retitle|]. intros d nm. rewrite retitle_lookup. apply Hun.
  - intros d Hd. apply (same_core_dir _ _ _ (add_core _ nd nb n)). auto.
Qed.
Lemma listed_once h od ob n : tree_inv h -> lookup h od ob = Some n -> forall d nm, lookup h d nm = Some n -> d = od /\ nm = ob.
Proof. intros H Hl d nm Hl2. apply (t_once h H d nm od ob n Hl2 Hl). Qed.
Lemma listed_node h d nm n : tree_inv h -> lookup h d nm = Some n -> nodes h n <> None.
Proof. intros H Hl. destruct (t_ent h H _ _ _ Hl) as (x & Hx & _). congruence. Qed.
Lemma core_some h h' n : same_core h h' -> nodes h n <> None -> nodes h' n <> None.
Proof. intros H Hn. specialize (H n). destruct (nodes h' n); [discriminate|]. destruct (nodes h n); [discriminate|contradiction]. Qed.

Lemma displace_lookup h d base x d' nm' : lookup (displace h d base (Some x)) d' nm' = if Nat.eqb d' d && bytes_eqb nm' base then None else lookup h d' nm'.
Proof. unfold displace. rewrite (lookup_nodes (remove_entry h d base)) by apply close_if_nodes. apply lookup_remove. Qed.
Lemma displace_core h d base ex : same_core h (displace h d base ex).
Proof. unfold displace. destruct ex; [|apply same_core_refl]. eapply same_core_trans; [apply (remove_core h d base)|]. intros k. now rewrite close_if_nodes. Qed.
Lemma displace_sub h d base ex : sub_edges (displace h d base ex) h.
Proof. destruct ex as [x|]; [|intros ? ? ?; auto]. intros d' nm' n. rewrite displace_lookup. destruct (_ && _); [discriminate|auto]. Qed.
Lemma displace_next h d base ex : next (displace h d base ex) = next h.
Proof. destruct ex; [|reflexivity]. cbn. now rewrite close_if_next, remove_next. Qed.

Lemma rename_eq h b old new :
  rename h b old new =
  match resolve_parent h b old with
  | Err e => (h, Err e)
  | Ok (od, ob) =>
      match lookup h od ob with
      | None => (h, Err ENotExist)
      | Some n =>
          match resolve_parent h b new with
          | Err e => (h, Err e)
          | Ok (nd, nb) =>
              if match lookup h nd nb with Some x => holds_something h x | None => false end then (h, Err ENotEmpty)
              else (move (displace h nd nb (lookup h nd nb)) od ob n nd nb, Ok tt)
          end
      end
  end.
Proof.
  unfold rename, move. destruct (resolve_parent h b old) as [[od ob]|]; [|reflexivity]. destruct (lookup h od ob) as [n|]; [|reflexivity].
  destruct (resolve_parent h b new) as [[nd nb]|]; [|reflexivity]. destruct (lookup h nd nb) as [x|]; [|reflexivity]. now destruct (holds_something h x).
Qed.
Lemma keeps_rename h b old new : tree_inv h -> keeps h (fst (rename h b old new)).
Proof.
  intros H. rewrite rename_eq. destruct (resolve_parent h b old) as [[od ob]|] eqn:Eo; [|now apply keeps_refl]. destruct (lookup h od ob) as [n|] eqn:El; [|now apply keeps_refl].
  destruct (resolve_parent h b new) as [[nd nb]|] eqn:En; [|now apply keeps_refl]. destruct (match lookup h nd nb with Some x => _ | None => _ end); [now apply keeps_refl|]. cbn [fst].
  apply resolve_parent_inside in En; [|exact H]. pose proof (keeps_displace h nd nb (lookup h nd nb) H) as Hk. eapply keeps_trans; [exact Hk|]. apply keeps_move.
  - apply Hk.
  - apply Hk, En.
  - eapply core_some; [apply displace_core|]. eapply listed_node; eassumption.
  - intros d nm Hl. apply displace_sub in Hl. revert d nm Hl. now apply listed_once.
Qed.

Lemma keeps_open_existing h b name q : tree_inv h -> keeps h (fst (open_existing h b name q)).
Proof.
  intros H. unfold open_existing, open_node. destruct (resolve h b name true) as [f|]; [|now apply keeps_refl]. destruct (nodes h (f_node f)) as [[m p es|m v|m t]|]; try now apply keeps_refl.
  - destruct (o_write q); [now apply keeps_refl|now apply keeps_bump].
  - destruct (o_opens q); [now apply keeps_bump|now apply keeps_refl].
Qed.
Lemma keeps_open h b name q : tree_inv h -> keeps h (fst (open_file h b name q)).
Proof.
  intros H. unfold open_file. destruct (o_create q); [|now apply keeps_open_existing]. destruct (resolve_parent h b name) as [[d base]|] eqn:E; [|now apply keeps_refl].
  apply resolve_parent_inside in E; [|exact H]. destruct (lookup h d base).
  - destruct (o_excl q); [now apply keeps_refl|now apply keeps_open_existing].
  - destruct (negb (o_allocs q)); [now apply keeps_refl|]. pose proof (keeps_file h d base (o_mode q) (o_tag q) H (proj2 E)) as Hk. destruct (enter_file _ _ _ _ _) as [h1 n]. cbn [fst] in Hk.
    unfold open_node. destruct (o_opens q); [|exact Hk]. eapply keeps_trans; [exact Hk|]. apply keeps_bump, Hk.
Qed.
Lemma keeps_chmod h b name fo mode : tree_inv h -> keeps h (fst (chmod h b name fo mode)).
Proof.
  intros H. unfold chmod. destruct (resolve h b name fo) as [f|]; [|now apply keeps_refl]. destruct (nodes h (f_node f)) as [x|] eqn:Hx; [|now apply keeps_refl]. now apply keeps_meta.
Qed.

(* Ingestion. *)
Lemma keeps_ensure_loop b mode ps : forall h par h' r, tree_inv h -> is_dir_at h par -> ensure_loop h b ps mode par = (h', r) -> keeps h h' /\ forall d, r = Ok d -> is_dir_at h' d.
Proof.
  induction ps as [|p ps IH]; intros h par h' r H Hpar E; cbn [ensure_loop] in E.
  - assert (h' = h /\ r = Ok par) as [-> ->] by (split; congruence). split; [now apply keeps_refl|]. intros d Hd. assert (d = par) as -> by congruence. exact Hpar.
  - assert (forall e, (h, @Err nat e) = (h', r) -> keeps h h' /\ forall d, r = Ok d -> is_dir_at h' d) as Herr.
    { intros e He. assert (h' = h /\ r = Err e) as [-> ->] by (split; congruence). split; [now apply keeps_refl|discriminate]. }
    destruct (resolve h b (join_sep p) true) as [f|e].
    + destruct (nodes h (f_node f)) as [[m q es| |]|] eqn:Hf; try (eapply Herr, E). eapply IH; [exact H| |exact E]. exists m, q, es. exact Hf.
    + destruct e; try (eapply Herr, E). destruct (resolve_parent h b (join_sep p)) as [[d base]|e] eqn:Ep; [|eapply Herr, E].
      apply resolve_parent_inside in Ep; [|exact H]. pose proof (keeps_enter h d base (new_dir base mode d) H (proj2 Ep) (new_dir_leaf _ _ _)) as Hk.
      rewrite enter_eq in E, Hk. cbn [fst] in Hk. assert (is_dir_at (add_entry (fst (alloc h (new_dir base mode d))) d base (next h)) (next h)) as Hnd.
      { apply (same_core_dir _ _ _ (add_core _ d base (next h))). eexists _, _, _. cbn. apply setf_same. }
      destruct (IH _ _ _ _ (proj1 Hk) Hnd E) as [Hk2 Hr]. split; [now apply (keeps_trans _ _ _ Hk)|exact Hr].
Qed.
Lemma keeps_ensure h b name mode h' r : tree_inv h -> is_dir_at h b -> ensure_parents h b name mode = (h', r) -> keeps h h' /\ forall d base, r = Ok (d, base) -> is_dir_at h' d.
Proof.
  intros H Hb. unfold ensure_parents. destruct (normalize name) as [[|c l]|e]; [| |].
  1,3: intros E; match type of E with (?y, ?x) = (?y', ?r) => assert (y' = y /\ r = x) as [-> ->] by (split; congruence) end; split; [now apply keeps_refl|discriminate].
  destruct (ensure_loop h b (heads [] (removelast (c :: l))) mode b) as [h1 [d|e]] eqn:E; apply keeps_ensure_loop in E; auto; destruct E as [Hk Hd]; intros E.
  - assert (h' = h1 /\ r = Ok (d, last (c :: l) [])) as [-> ->] by (split; congruence). split; [exact Hk|]. intros d0 b0 E0. assert (d0 = d) as -> by congruence. auto.
  - assert (h' = h1 /\ r = Err e) as [-> ->] by (split; congruence). split; [exact Hk|discriminate].
Qed.
Lemma keeps_add_file h b name t mode sc stats cb : tree_inv h -> is_dir_at h b -> keeps h (fst (add_file h b name t mode sc stats cb)).
Proof.
  intros H Hb. unfold add_file. destruct (negb stats); [now apply keeps_refl|]. destruct (ensure_parents h b name sc) as [h1 [[d base]|e]] eqn:E; apply keeps_ensure in E; auto; destruct E as [Hk Hd].
  - destruct (normalize name) as [comps|e]; [|exact Hk]. destruct (cb comps false _) as [[]|]; try exact Hk. cbn [fst]. eapply keeps_trans; [exact Hk|].
    pose proof (keeps_displace h1 d base (lookup h1 d base) (proj1 Hk)) as Hk2. eapply keeps_trans; [exact Hk2|]. apply keeps_file; [apply Hk2|]. apply Hk2. eapply Hd. reflexivity.
  - exact Hk.
Qed.

Lemma keeps_materialize h dst base mode ex ov h' d : tree_inv h -> is_dir_at h dst -> materialize_dir h dst base mode ex ov = Some (h', d) -> keeps h h' /\ is_dir_at h' d.
Proof.
  intros H Hd. unfold materialize_dir.
  assert (forall h1, keeps h h1 -> Some (enter_new h1 dst base (new_dir base mode dst)) = Some (h', d) -> keeps h h' /\ is_dir_at h' d) as Henter.
  { intros h1 Hk E. apply some_inj in E. pose proof (keeps_enter h1 dst base (new_dir base mode dst) (proj1 Hk) (proj2 Hk _ Hd) (new_dir_leaf _ _ _)) as Hk2. rewrite E in Hk2. cbn [fst] in Hk2.
    split; [now apply (keeps_trans _ _ _ Hk)|]. rewrite enter_eq in E. apply (f_equal fst) in E as E1. apply (f_equal snd) in E as E2. cbn [fst snd] in E1, E2. subst h' d.
    apply (same_core_dir _ _ _ (add_core _ dst base (next h1))). eexists _, _, _. cbn. apply setf_same. }
  destruct ex as [x|]; [|apply Henter; now apply keeps_refl]. destruct (existing_dir h x && negb ov) eqn:Ee.
  - intros E. assert (h' = h /\ d = x) as [-> ->] by (split; congruence). split; [now apply keeps_refl|]. apply andb_true_iff in Ee. destruct Ee as [Ee _]. unfold existing_dir in Ee. unfold is_dir_at.
    destruct (nodes h x) as [[m p es| |]|]; try discriminate. eauto.
  - cbn zeta. pose proof (keeps_remove h dst base H) as Hk. destruct ov.
    + destruct (remove_subtree _ _ x) as [h2|] eqn:Es; [|discriminate]. apply remove_subtree_emptied in Es. apply Henter. eapply keeps_trans; [exact Hk|]. apply keeps_emptied; [apply Hk|exact Es].
    + now apply Henter.
Qed.

Fixpoint source_ind' (P : source -> Prop)
  (Hd : forall mode cs lists, Forall (fun c => P (snd c)) cs -> P (SDir mode cs lists))
  (Hf : forall mode t opens, P (SFile mode t opens)) (Hl : forall mode t reads, P (SLink mode t reads)) (Hx : P SFail) (s : source) : P s :=
  match s with
  | SDir mode cs lists => Hd mode cs lists ((fix go (cs : list (list byte * source)) : Forall (fun c => P (snd c)) cs :=
      match cs with [] => Forall_nil _ | c :: r => Forall_cons c (source_ind' P Hd Hf Hl Hx (snd c)) (go r) end) cs)
  | SFile mode t opens => Hf mode t opens
  | SLink mode t reads => Hl mode t reads
  | SFail => Hx
  end.

Lemma descend_cons walk d path nm c cs h :
  descend walk d path ((nm, c) :: cs) h = match walk c h d nm (path ++ [nm]) with Some (h2, Ok _) => descend walk d path cs h2 | o => o end.
Proof. reflexivity. Qed.

Lemma keeps_descend cb d path cs : Forall (fun c => forall h dst base path h' r, tree_inv h -> is_dir_at h dst -> add_walk cb (snd c) h dst base path = Some (h', r) -> keeps h h') cs ->
  forall h h' r, tree_inv h -> is_dir_at h d -> descend (add_walk cb) d path cs h = Some (h', r) -> keeps h h'.
Proof.
  induction 1 as [|[nm c] cs Hc Hcs IH]; intros h h' r H Hd E.
  - cbn in E. assert (h' = h) as -> by congruence. now apply keeps_refl.
  - rewrite descend_cons in E. cbn [snd] in Hc. destruct (add_walk cb c h d nm (path ++ [nm])) as [[h2 [u|e]]|] eqn:Ew; [| |discriminate].
    + pose proof (Hc _ _ _ _ _ _ H Hd Ew) as Hk. eapply keeps_trans; [exact Hk|]. eapply IH; [apply Hk|now apply Hk|exact E].
    + assert (h' = h2) as -> by congruence. eapply Hc; eassumption.
Qed.

Lemma keeps_add_walk cb s : forall h dst base path h' r, tree_inv h -> is_dir_at h dst -> add_walk cb s h dst base path = Some (h', r) -> keeps h h'.
Proof.
  induction s as [mode cs lists IH|mode t opens|mode t reads|] using source_ind'; intros h dst base path h' r H Hd E; cbn [add_walk] in E;
    assert (forall r', Some (h, r') = Some (h', r) -> keeps h h') as Hsame by (intros r' E'; assert (h' = h) as -> by congruence; now apply keeps_refl).
  - set (ex := lookup h dst base) in *. assert (forall ov, match materialize_dir h dst base mode ex ov with None => None | Some (h1, d) => if lists then descend (add_walk cb) d path cs h1 else Some (h1, Err EOther) end = Some (h', r) -> keeps h h') as Hov.
    { intros ov E'. destruct (materialize_dir h dst base mode ex ov) as [[h1 d]|] eqn:Em; [|discriminate]. apply keeps_materialize in Em; auto. destruct Em as [Hk Hdd]. destruct lists.
      - eapply keeps_trans; [exact Hk|]. eapply keeps_descend; [exact IH|apply Hk|exact Hdd|exact E'].
      - assert (h' = h1) as -> by congruence. exact Hk. }
    destruct (cb path true _) as [[]|]; try (eapply Hsame, E); eapply Hov, E.
  - set (ex := lookup h dst base) in *. destruct (cb path false _) as [dec|]; [|eapply Hsame, E].
    assert (keeps h (fst (enter_file (displace h dst base ex) dst base mode t))) as Hke.
    { pose proof (keeps_displace h dst base ex H) as Hk. eapply keeps_trans; [exact Hk|]. apply keeps_file; [apply Hk|now apply Hk]. }
    assert (forall h1 v, fresh_view h t = (h1, v) -> keeps h (close_view h1 v)) as Hkc.
    { intros h1 v Ev. assert (h1 = fst (fresh_view h t)) as -> by now rewrite Ev. now apply keeps_same. }
    destruct dec; [eapply Hsame, E| |]; (destruct (negb opens); [eapply Hsame, E|]); destruct ex as [x|]; try (match type of E with Some (?a, _) = _ => assert (h' = a) as -> by congruence end; exact Hke).
    destruct (fresh_view h t) as [h1 v] eqn:Ev. assert (h' = close_view h1 v) as -> by congruence. now apply Hkc.
  - set (ex := lookup h dst base) in *. destruct (cb path false _) as [dec|]; [|eapply Hsame, E].
    assert (keeps h (fst (enter_new (displace h dst base ex) dst base (NLink (new_meta base mode) t)))) as Hke.
    { pose proof (keeps_displace h dst base ex H) as Hk. eapply keeps_trans; [exact Hk|]. apply keeps_enter; [apply Hk|now apply Hk|now split]. }
    destruct dec; [eapply Hsame, E| |]; (destruct (negb reads); [eapply Hsame, E|]); destruct ex as [x|]; try (eapply Hsame, E); try (match type of E with Some (?a, _) = _ => assert (h' = a) as -> by congruence end; exact Hke).
  - eapply Hsame, E.
Qed.
Lemma keeps_add_fs h b name s sc cb h' r : tree_inv h -> is_dir_at h b -> add_fs h b name s sc cb = Some (h', r) -> keeps h h'.
Proof.
  intros H Hb. unfold add_fs. assert (forall r', Some (h, r') = Some (h', r) -> keeps h h') as Hsame by (intros r' E'; assert (h' = h) as -> by congruence; now apply keeps_refl).
  destruct (normalize name) as [[|c l]|e]; [| |apply Hsame].
  - destruct s as [mode cs [] | | |]; try apply Hsame. apply keeps_descend; auto. apply Forall_forall. intros c _. apply keeps_add_walk.
  - destruct (ensure_parents h b name sc) as [h1 [[d base]|e]] eqn:E; apply keeps_ensure in E; auto; destruct E as [Hk Hd].
    + intros E. eapply keeps_trans; [exact Hk|]. eapply keeps_add_walk; [apply Hk|eapply Hd; reflexivity|exact E].
    + intros E. assert (h' = h1) as -> by congruence. exact Hk.
Qed.

(* Histories. *)
Definition state_ok (st : sstate) : Prop := tree_inv (st_heap st) /\ Forall (is_dir_at (st_heap st)) (st_roots st).
Lemma new_ok mode : state_ok (new_state mode).
Proof.
  split.
  - constructor; cbn.
    + intros n Hn. destruct (Nat.eqb_spec n 0); [lia|reflexivity].
    + intros d m p es. destruct (Nat.eqb d 0); [|discriminate]. intros E. assert (es = []) as -> by congruence. constructor.
    + intros d nm n. unfold lookup. cbn. destruct (Nat.eqb d 0); discriminate.
    + intros d nm d' nm' n. unfold lookup. cbn. destruct (Nat.eqb d 0); discriminate.
  - constructor; [|constructor]. eexists _, _, _. reflexivity.
Qed.
Lemma lift_ok st o st' r : state_ok st -> (forall h', o = Some (h', r) -> keeps (st_heap st) h') -> @lift (sres unit) st o = Some (st', r) -> state_ok st'.
Proof.
  intros [H Hr] Hk E. destruct o as [[h1 r1]|]; [|discriminate]. cbn in E. assert (st' = with_heap st h1 /\ r1 = r) as [-> ->] by (split; congruence). destruct (Hk h1 eq_refl) as [Hi Hd].
  split; [exact Hi|]. cbn. eapply Forall_impl; [|exact Hr]. intros d. apply Hd.
Qed.
Lemma step_ok busy st o st' r : state_ok st -> step busy st o = Some (st', r) -> state_ok st'.
Proof.
  intros Hst E. pose proof Hst as [H Hr].
  assert (forall i (f : nat -> option (heap * sres unit)), (forall b h', is_dir_at (st_heap st) b -> f b = Some (h', r) -> keeps (st_heap st) h') ->
    match nth_error (st_roots st) i with Some b => lift st (f b) | None => Some (st, Err EInval) end = Some (st', r) -> state_ok st') as Hat.
  { intros i f Hf E'. destruct (nth_error (st_roots st) i) as [b|] eqn:Eb.
    - eapply lift_ok; [exact Hst| |exact E']. intros h'. apply Hf. eapply Forall_forall; [exact Hr|]. eapply nth_error_In, Eb.
    - assert (st' = st) as -> by congruence. exact Hst. }
  destruct o; cbn [step] in E; try (eapply Hat; [|exact E]; cbn beta; intros b h' Hb Ef;
    try (match type of Ef with Some ?x = Some _ => assert (h' = fst x) as -> by now replace x with (h', r) by congruence end)).
  - now apply keeps_mkdir.
  - now apply keeps_mkdir_all.
  - now apply keeps_symlink.
  - now apply keeps_link.
  - now apply keeps_removal.
  - eapply keeps_remove_all; eassumption.
  - now apply keeps_rename.
  - cbn [ignore fst]. now apply keeps_open.
  - assert (st' = with_heap st (drop_ref (st_heap st) n)) as -> by congruence. destruct (keeps_drop (st_heap st) n H) as [Hi Hd]. split; [exact Hi|]. cbn. eapply Forall_impl; [|exact Hr]. exact Hd.
  - now apply keeps_chmod.
  - destruct (nth_error (st_roots st) i) as [b|] eqn:Eb; [|assert (st' = st) as -> by congruence; exact Hst]. destruct (open_root (st_heap st) b name) as [d|e] eqn:Eo; [|assert (st' = st) as -> by congruence; exact Hst].
    match type of E with Some (?a, _) = _ => assert (st' = a) as -> by congruence end. split; [exact H|]. cbn. apply Forall_app. split; [exact Hr|]. constructor; [|constructor].
    unfold open_root in Eo. destruct (resolve (st_heap st) b name true) as [f|]; [|discriminate]. destruct (nodes (st_heap st) (f_node f)) as [[m p es| |]|] eqn:Ef; try discriminate. assert (d = f_node f) as -> by congruence. exists m, p, es. exact Ef.
  - now apply keeps_add_file.
  - eapply keeps_add_fs; eassumption.
Qed.
Lemma run_ok busy os : forall st st', state_ok st -> run busy st os = Some st' -> state_ok st'.
Proof.
  induction os as [|o os IH]; intros st st' H E; cbn in E.
  - apply some_inj in E. now subst.
  - destruct (step busy st o) as [[st1 r]|] eqn:Es; [|discriminate]. eapply IH; [|exact E]. eapply step_ok; eassumption.
Qed.
