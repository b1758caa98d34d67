(* synthfs: what AddFS and AddFile do to the tree they add to. *)
From Verif Require Import Common CommonLemmas ContentRange_Model ContentRange_Proofs PathLex_Model PathLex_Proofs Synth_Model Synth_Spec Synth_Proofs SynthTree_Proofs SynthPath_Proofs SynthEffect_Proofs SynthView_Proofs.
Open Scope nat_scope.

(* Nothing that exists is listed anew or looks different. *)
Record adds (h h' : heap) : Prop := {
  ad_next : next h <= next h';
  ad_old : forall e c n, lookup h' e c = Some n -> n < next h -> lookup h e c = Some n;
  ad_seen : same_seen h h';
  ad_view : next_view h <= next_view h';
  ad_tag : forall v, v < next_view h -> tag h' v = tag h v }.
Lemma adds_refl h : adds h h.
Proof. constructor; auto. apply seen_refl. Qed.
Lemma adds_trans a b c : adds a b -> adds b c -> adds a c.
Proof.
  intros [A1 A2 A3 A4 A5] [B1 B2 B3 B4 B5]. constructor; [lia| |now apply (seen_trans _ b)|lia|].
  - intros e k n Hl Hn. apply A2; [|exact Hn]. apply B2; [exact Hl|lia].
  - intros v Hv. rewrite B5 by lia. auto.
Qed.
Lemma seen_nodes h h' n k : same_seen h h' -> seen h n = Some k -> seen h' n = Some k.
Proof. intros Hs Hn. rewrite Hs; [exact Hn|]. unfold seen in Hn. intros E. rewrite E in Hn. discriminate. Qed.
Lemma seen_dir h n : is_dir_at h n <-> exists m, seen h n = Some (LookDir m).
Proof.
  unfold seen. split.
  - intros (m & p & es & ->). cbn. eauto.
  - intros (m & E). unfold is_dir_at. destruct (nodes h n) as [[m0 p0 es0| |]|]; cbn in E; try discriminate. eauto.
Qed.
Lemma existing_is h n : existing_dir h n = true <-> is_dir_at h n.
Proof.
  unfold existing_dir, is_dir_at. destruct (nodes h n) as [[m p es|m v|m t]|]; cbn; split; try discriminate; eauto; intros (? & ? & ? & E); discriminate.
Qed.
Lemma existing_same h h' n : same_seen h h' -> nodes h n <> None -> existing_dir h' n = existing_dir h n.
Proof.
  intros Hs Hn. specialize (Hs n Hn). unfold seen, existing_dir in *. destruct (nodes h n) as [x|]; [|contradiction]. destruct (nodes h' n) as [y|]; [|discriminate]. cbn in Hs. destruct x, y; cbn in *; try discriminate; reflexivity.
Qed.
Lemma shows_adds h h' n s : adds h h' -> shows h n s -> shows h' n s.
Proof.
  intros [A1 A2 A3 A4 A5]. destruct s as [m cs ls|m t o|m t o|]; cbn; auto.
  - rewrite !seen_dir. intros (k & Hk). exists k. now apply (seen_nodes h).
  - intros (v & Hv & Hk & Ht). exists v. split; [lia|]. split; [now apply (seen_nodes h)|]. rewrite A5; auto.
  - intros Hk. now apply (seen_nodes h).
Qed.
Lemma node_old h n : tree_inv h -> nodes h n <> None -> n < next h.
Proof. intros H Hn. destruct (Nat.lt_ge_cases n (next h)) as [Hlt|Hge]; [exact Hlt|]. exfalso. apply Hn. now apply (t_fresh h H). Qed.
Lemma adds_reach h h' x e : tree_inv h -> adds h h' -> e < next h -> reach h' x e -> reach h x e.
Proof.
  intros H Ha Hlt Hr. induction Hr as [|e nm k Hr IH Hl]; [apply reach_self|]. apply (ad_old _ _ Ha) in Hl; [|exact Hlt]. eapply reach_step; [|exact Hl]. apply IH. apply dir_old; [exact H|]. eapply lookup_dir, Hl.
Qed.
Lemma adds_at h h' x l e : tree_inv h -> adds h h' -> e < next h -> at_path h' x l = Some e -> at_path h x l = Some e.
Proof.
  intros H Ha. revert e. induction l as [|c l IH] using rev_ind; intros e Hlt; [auto|]. rewrite !at_snoc. destruct (at_path h' x l) as [k|]; [|discriminate]. intros Hl. apply (ad_old _ _ Ha) in Hl; [|exact Hlt].
  rewrite (IH k); [exact Hl| |reflexivity]. apply dir_old; [exact H|]. eapply lookup_dir, Hl.
Qed.

(* The primitives. *)
Lemma adds_same h h' : (forall k, nodes h' k = nodes h k) -> next h' = next h -> next_view h <= next_view h' -> (forall v, v < next_view h -> tag h' v = tag h v) -> adds h h'.
Proof. intros Hn Hx Hv Ht. constructor; auto; [lia| |now apply seen_same]. intros e c n. now rewrite (lookup_nodes h h'). Qed.
Lemma adds_fresh h t : adds h (fst (fresh_view h t)).
Proof. apply adds_same; [apply fresh_nodes|reflexivity|cbn; lia|]. intros v Hv. cbn. apply setf_other. lia. Qed.
Lemma adds_fresh_close h t h1 v : fresh_view h t = (h1, v) -> adds h (close_view h1 v).
Proof. intros E. assert (h1 = fst (fresh_view h t)) as -> by now rewrite E. apply (adds_trans _ (fst (fresh_view h t))); [apply adds_fresh|]. now apply adds_same. Qed.
Lemma enter_tag h d nm x : tag (fst (enter_new h d nm x)) = tag h /\ next_view (fst (enter_new h d nm x)) = next_view h.
Proof. rewrite enter_eq. cbn [fst]. rewrite tag_add. split; [reflexivity|]. now rewrite (proj2 (closed_add _ _ _ _)). Qed.
Lemma enter_next h d nm x : next (fst (enter_new h d nm x)) = S (next h).
Proof. rewrite enter_eq. cbn [fst]. now rewrite add_next. Qed.
Lemma adds_enter h d nm x : tree_inv h -> is_dir_at h d -> leaf_node x d nm -> adds h (fst (enter_new h d nm x)).
Proof.
  intros H Hd Hx. destruct (enter_tag h d nm x) as [Et Ev]. constructor.
  - rewrite enter_next. lia.
  - intros e c n. rewrite lookup_enter by assumption. destruct (Nat.eqb e d && bytes_eqb c nm); [|auto]. intros E. apply some_inj in E. lia.
  - now apply seen_enter.
  - now rewrite Ev.
  - intros v _. now rewrite Et.
Qed.
Lemma adds_file h d nm mode t : tree_inv h -> is_dir_at h d -> adds h (fst (enter_file h d nm mode t)).
Proof.
  intros H Hd. rewrite enter_file_eq. apply (adds_trans _ (fst (fresh_view h t))); [apply adds_fresh|]. apply adds_enter; [now apply inv_fresh|exact Hd|now split].
Qed.
Lemma remove_tag h d nm : tag (remove_entry h d nm) = tag h.
Proof. unfold remove_entry. destruct (nodes h d) as [[| |]|]; reflexivity. Qed.
Lemma adds_remove h d nm : adds h (remove_entry h d nm).
Proof.
  constructor; [rewrite remove_next; lia| |apply seen_remove|rewrite (proj2 (closed_remove h d nm)); lia|intros v _; now rewrite remove_tag]. intros e c n Hl _. now apply (remove_sub h d nm).
Qed.
Lemma close_if_tag h n : tag (close_if_file h n) = tag h /\ next_view (close_if_file h n) = next_view h.
Proof. unfold close_if_file. destruct (nodes h n) as [[| |]|]; split; reflexivity. Qed.
Lemma adds_displace h d base ex : adds h (displace h d base ex).
Proof.
  destruct ex as [x|]; [|apply adds_refl]. cbn [displace]. apply (adds_trans _ (remove_entry h d base)); [apply adds_remove|]. destruct (close_if_tag (remove_entry h d base) x) as [E1 E2]. apply adds_same; [apply close_if_nodes|apply close_if_next|rewrite E2; lia|intros v _; now rewrite E1].
Qed.
Lemma subtree_tag fuel : forall h n h', remove_subtree fuel h n = Some h' -> tag h' = tag h /\ next_view h' = next_view h.
Proof.
  induction fuel as [|f IH]; intros h n h' H; [discriminate|]. cbn in H. destruct (nodes h n) as [[m p es|m v|m t]|] eqn:Hn; try (apply some_inj in H; subst; split; reflexivity).
  assert (forall es h1 h2, fold_left (fun oh (e : list byte * nat) => match oh with None => None | Some h1 => remove_subtree f h1 (snd e) end) es (Some h1) = Some h2 -> tag h2 = tag h1 /\ next_view h2 = next_view h1) as Hfold.
  { clear -IH. induction es as [|e es IHe]; intros h1 h2 H; cbn in H; [apply some_inj in H; subst; split; reflexivity|]. destruct (remove_subtree f h1 (snd e)) as [h3|] eqn:E.
    - apply IH in E. apply IHe in H. destruct E, H. split; congruence.
    - rewrite (fold_none (fun h1 e => remove_subtree f h1 (snd e))) in H. discriminate. }
  destruct (fold_left _ es (Some h)) as [h1|] eqn:E; [|discriminate]. apply Hfold in E. apply some_inj in H. subst h'. destruct (nodes h1 n) as [[m1 p1 es1| |]|]; exact E.
Qed.
Lemma adds_subtree fuel h n h' : remove_subtree fuel h n = Some h' -> adds h h'.
Proof.
  intros E. pose proof (remove_subtree_emptied _ _ _ _ E) as He. destruct (subtree_tag _ _ _ _ E) as [E1 E2]. constructor; [rewrite (em_next _ _ He); lia| |now apply seen_emptied|lia|intros v _; now rewrite E1]. intros e c k Hl _. now apply (emptied_sub h h').
Qed.

(* One entry of the source: a leaf. *)
Lemma cell_dec (e d : nat) (c base : list byte) : {e = d /\ c = base} + {e <> d \/ c <> base}.
Proof. destruct (Nat.eq_dec e d), (bytes_dec c base); tauto. Qed.
Lemma displace_cell h d base e c : lookup (displace h d base (lookup h d base)) e c = if Nat.eqb e d && bytes_eqb c base then None else lookup h e c.
Proof.
  destruct (lookup h d base) as [x|] eqn:E; [apply displace_lookup|]. cbn [displace]. destruct (Nat.eqb e d && bytes_eqb c base) eqn:Ec; [|reflexivity]. apply cell_eq in Ec. destruct Ec as [-> ->]. exact E.
Qed.
Lemma enter_seen h d nm x : tree_inv h -> is_dir_at h d -> seen (fst (enter_new h d nm x)) (next h) = Some (look_of x).
Proof.
  intros H Hd. rewrite enter_eq. cbn [fst]. assert (next h <> d) as Hne by (apply dir_old in Hd; [lia|exact H]).
  rewrite seen_add; [|cbn; rewrite setf_same; discriminate]. unfold seen. cbn. now rewrite setf_same.
Qed.
Definition leaf_put (h : heap) (d : nat) (base : list byte) (s : source) (h' : heap) : Prop :=
  adds h h' /\ shows h' (next h) s /\ lookup h' d base = Some (next h) /\ (forall e c, e <> d \/ c <> base -> lookup h' e c = lookup h e c).
Lemma put_enter h d base x s : tree_inv h -> is_dir_at h d -> leaf_node x d base ->
  shows (fst (enter_new (displace h d base (lookup h d base)) d base x)) (next h) s -> leaf_put h d base s (fst (enter_new (displace h d base (lookup h d base)) d base x)).
Proof.
  intros H Hd Hx Hs. pose proof (keeps_displace h d base (lookup h d base) H) as [H2 Hk]. specialize (Hk d Hd). split; [|split; [exact Hs|split]].
  - apply (adds_trans _ (displace h d base (lookup h d base))); [apply adds_displace|now apply adds_enter].
  - rewrite lookup_enter by assumption. now rewrite Nat.eqb_refl, bytes_eqb_refl, displace_next.
  - intros e c Hc. rewrite lookup_enter by assumption. rewrite displace_cell. now rewrite (cell_if _ _ _ _ Hc).
Qed.
Lemma put_file h d base mode t o : tree_inv h -> is_dir_at h d -> leaf_put h d base (SFile mode t o) (fst (enter_file (displace h d base (lookup h d base)) d base mode t)).
Proof.
  intros H Hd. pose proof (keeps_displace h d base (lookup h d base) H) as [H2 Hk]. specialize (Hk d Hd). set (h2 := displace h d base (lookup h d base)) in *.
  assert (next h2 = next h) as En by apply displace_next. split; [|split; [|split]].
  - apply (adds_trans _ h2); [apply adds_displace|now apply adds_file].
  - cbn [shows]. exists (next_view h2). split; [|split].
    + rewrite enter_file_eq. rewrite (proj2 (enter_tag _ _ _ _)). cbn. lia.
    + rewrite enter_file_eq. rewrite <- En. change (next h2) with (next (fst (fresh_view h2 t))). rewrite enter_seen; [reflexivity|now apply inv_fresh|exact Hk].
    + apply tag_file.
  - rewrite enter_file_eq, lookup_enter; [|now apply inv_fresh|exact Hk|now split]. rewrite Nat.eqb_refl, bytes_eqb_refl. cbn [andb]. now rewrite <- En.
  - intros e c Hc. rewrite enter_file_eq, lookup_enter; [|now apply inv_fresh|exact Hk|now split]. rewrite fresh_lookup. unfold h2. rewrite displace_cell. now rewrite (cell_if _ _ _ _ Hc).
Qed.
Lemma put_link h d base mode t o : tree_inv h -> is_dir_at h d -> leaf_put h d base (SLink mode t o) (fst (enter_new (displace h d base (lookup h d base)) d base (NLink (new_meta base mode) t))).
Proof.
  intros H Hd. apply put_enter; auto; [now split|]. cbn [shows]. rewrite <- (displace_next h d base (lookup h d base)). pose proof (keeps_displace h d base (lookup h d base) H) as [H2 Hk]. now rewrite enter_seen by auto.
Qed.
Lemma walk_leaf cb s h d base path h' r : source_dir s = false -> tree_inv h -> is_dir_at h d -> add_walk cb s h d base path = Some (h', r) ->
  (adds h h' /\ (forall e c, lookup h' e c = lookup h e c) /\ (r = Ok tt -> cb path false (option_map (existing_dir h) (lookup h d base)) = Some Skip \/ (cb path false (option_map (existing_dir h) (lookup h d base)) = Some Keep /\ lookup h d base <> None))) \/
  (leaf_put h d base s h' /\ (lookup h d base = None \/ cb path false (option_map (existing_dir h) (lookup h d base)) = Some Override)).
Proof.
  intros Hs H Hd E. assert (forall e, Some (h, @Err unit e) = Some (h', r) -> adds h h' /\ (forall e c, lookup h' e c = lookup h e c) /\ (r = Ok tt -> False)) as Herr.
  { intros e Ee. assert (h' = h /\ r = Err e) as [-> ->] by (split; congruence). split; [apply adds_refl|]. split; [auto|discriminate]. }
  assert (Some (h, Ok tt) = Some (h', r) -> adds h h' /\ (forall e c, lookup h' e c = lookup h e c)) as Hok.
  { intros Ee. assert (h' = h) as -> by congruence. split; [apply adds_refl|auto]. }
  destruct s as [mode cs ls|mode t o|mode t o|]; [discriminate| | |]; cbn [add_walk] in E; [| |left; destruct (Herr _ E) as (A & B & C); tauto].
  - set (ans := cb path false (option_map (existing_dir h) (lookup h d base))) in *. destruct ans as [dec|] eqn:Ea; [|left; destruct (Herr _ E) as (A & B & C); tauto].
    destruct dec; [left; destruct (Hok E) as (A & B); tauto| |].
    + destruct (negb o); [left; destruct (Herr _ E) as (A & B & C); tauto|]. destruct (lookup h d base) as [x|] eqn:El.
      * left. destruct (fresh_view h t) as [h1 v] eqn:Ev. assert (h' = close_view h1 v) as -> by congruence. split; [eapply adds_fresh_close, Ev|]. split; [|intros _; right; split; [reflexivity|discriminate]].
        intros e c. assert (h1 = fst (fresh_view h t)) as -> by now rewrite Ev. reflexivity.
      * right. split; [|now left]. assert (h' = fst (enter_file (displace h d base (lookup h d base)) d base mode t)) as -> by (rewrite El; congruence). now apply put_file.
    + destruct (negb o); [left; destruct (Herr _ E) as (A & B & C); tauto|]. right. split; [|now right]. assert (h' = fst (enter_file (displace h d base (lookup h d base)) d base mode t)) as -> by congruence. now apply put_file.
  - set (ans := cb path false (option_map (existing_dir h) (lookup h d base))) in *. destruct ans as [dec|] eqn:Ea; [|left; destruct (Herr _ E) as (A & B & C); tauto].
    destruct dec; [left; destruct (Hok E) as (A & B); tauto| |].
    + destruct (negb o); [left; destruct (Herr _ E) as (A & B & C); tauto|]. destruct (lookup h d base) as [x|] eqn:El.
      * left. destruct (Hok E) as (A & B). split; [exact A|]. split; [exact B|]. intros _. right. split; [reflexivity|discriminate].
      * right. split; [|now left]. assert (h' = fst (enter_new (displace h d base (lookup h d base)) d base (NLink (new_meta base mode) t))) as -> by (rewrite El; congruence). now apply put_link.
    + destruct (negb o); [left; destruct (Herr _ E) as (A & B & C); tauto|]. right. split; [|now right]. assert (h' = fst (enter_new (displace h d base (lookup h d base)) d base (NLink (new_meta base mode) t))) as -> by congruence. now apply put_link.
Qed.

(* A directory of the source: what it finds or makes in place, before its children come. *)
Inductive made (cb : addfunc) (path : list (list byte)) (h : heap) (d : nat) (base : list byte) (h1 : heap) (x : nat) : Prop :=
| made_kept : h1 = h -> lookup h d base = Some x -> is_dir_at h x -> cb path true (Some true) = Some Keep -> made cb path h d base h1 x
| made_new : x = next h -> lookup h d base = None -> (forall e c, e <> d \/ c <> base -> lookup h1 e c = lookup h e c) -> made cb path h d base h1 x
| made_over : x = next h -> forall y, lookup h d base = Some y -> existing_dir h y = false -> cb path true (Some false) = Some Keep -> (forall e c, e <> d \/ c <> base -> lookup h1 e c = lookup h e c) -> made cb path h d base h1 x
| made_instead : x = next h -> forall y, lookup h d base = Some y -> cb path true (Some (existing_dir h y)) = Some Override -> made cb path h d base h1 x.
Record place (h : heap) (d : nat) (base : list byte) (h1 : heap) (x : nat) : Prop := {
  pl_adds : adds h h1;
  pl_keeps : keeps h h1;
  pl_acyclic : acyclic h1;
  pl_dir : is_dir_at h1 x;
  pl_at : lookup h1 d base = Some x;
  pl_cell : forall e c, ~ inside h d base e c -> lookup h1 e c = lookup h e c }.

Lemma place_enter h d base mode h1 : tree_inv h -> is_dir_at h d -> keeps h h1 -> adds h h1 -> acyclic h1 -> next h1 = next h -> (forall e c, ~ inside h d base e c -> lookup h1 e c = lookup h e c) ->
  place h d base (fst (enter_new h1 d base (new_dir base mode d))) (next h) /\ (forall e c, e <> d \/ c <> base -> lookup (fst (enter_new h1 d base (new_dir base mode d))) e c = lookup h1 e c).
Proof.
  intros H Hd [H1 Hk] Ha Hac En Hc. pose proof (Hk d Hd) as Hd1. pose proof (new_dir_leaf base mode d) as Hl. split.
  - constructor.
    + apply (adds_trans _ h1); [exact Ha|now apply adds_enter].
    + apply (keeps_trans _ h1); [split; assumption|now apply keeps_enter].
    + now apply acyclic_enter.
    + apply seen_dir. rewrite <- En, enter_seen by assumption. now exists mode.
    + rewrite lookup_enter by assumption. now rewrite Nat.eqb_refl, bytes_eqb_refl, En.
    + intros e c Hn. rewrite lookup_enter by assumption. rewrite (cell_if e d c base); [now apply Hc|]. destruct (cell_dec e d c base) as [[-> ->] | Hne]; [exfalso; apply Hn; now left|exact Hne].
  - intros e c Hn. rewrite lookup_enter by assumption. now rewrite (cell_if e d c base).
Qed.
Lemma remove_reach h d base x e : tree_inv h -> acyclic h -> lookup h d base = Some x -> reach (remove_entry h d base) x e -> reach h x e.
Proof. intros H Ha Hx. apply reach_sub. apply remove_sub. Qed.
Lemma walk_dir cb mode cs lists h d base path h' r : tree_inv h -> acyclic h -> is_dir_at h d -> add_walk cb (SDir mode cs lists) h d base path = Some (h', r) ->
  (h' = h /\ (r = Ok tt -> cb path true (option_map (existing_dir h) (lookup h d base)) = Some Skip)) \/
  exists h1 x, place h d base h1 x /\ made cb path h d base h1 x /\ ((lists = true /\ descend (add_walk cb) x path cs h1 = Some (h', r)) \/ (h' = h1 /\ r <> Ok tt)).
Proof.
  intros H Ha Hd E. cbn [add_walk] in E.
  assert (forall ov, cb path true (option_map (existing_dir h) (lookup h d base)) = Some (if ov : bool then Override else Keep) ->
    match materialize_dir h d base mode (lookup h d base) ov with None => None | Some (h1, d) => if lists then descend (add_walk cb) d path cs h1 else Some (h1, Err EOther) end = Some (h', r) ->
    exists h1 x, place h d base h1 x /\ made cb path h d base h1 x /\ ((lists = true /\ descend (add_walk cb) x path cs h1 = Some (h', r)) \/ (h' = h1 /\ r <> Ok tt))) as Hov.
  { intros ov Eans E'. destruct (materialize_dir h d base mode (lookup h d base) ov) as [[h1 x]|] eqn:Em; [|discriminate].
    assert (place h d base h1 x /\ made cb path h d base h1 x) as [Hp Hm].
    2:{ exists h1, x. split; [exact Hp|]. split; [exact Hm|]. destruct lists; [left; auto|right; split; congruence]. }
    clear E'. unfold materialize_dir in Em. destruct (lookup h d base) as [y|] eqn:El.
    - cbn [option_map] in Eans. destruct (existing_dir h y && negb ov) eqn:Ey.
      + assert (h1 = h /\ x = y) as [-> ->] by (split; congruence). apply andb_true_iff in Ey. destruct Ey as [Ey Eo]. destruct ov; [discriminate|]. rewrite Ey in Eans. apply existing_is in Ey. split; [|now apply made_kept].
        constructor; auto; [apply adds_refl|now apply keeps_refl].
      + cbn zeta in Em. pose proof (keeps_remove h d base H) as Hk. pose proof (acyclic_sub h (remove_entry h d base) (remove_sub h d base) Ha) as Ha1.
        assert (forall e c, ~ inside h d base e c -> lookup (remove_entry h d base) e c = lookup h e c) as Hrc.
        { intros e c Hn. rewrite lookup_remove. destruct (Nat.eqb e d && bytes_eqb c base) eqn:Ec; [|reflexivity]. exfalso. apply Hn. left. now apply cell_eq. }
        destruct ov.
        * destruct (remove_subtree _ (remove_entry h d base) y) as [h2|] eqn:Es; [|discriminate]. apply some_inj in Em.
          pose proof (remove_subtree_emptied _ _ _ _ Es) as Hem.
          destruct (place_enter h d base mode h2) as [Hp Hc]; auto.
          -- eapply keeps_trans; [exact Hk|]. apply keeps_emptied; [apply Hk|exact Hem].
          -- apply (adds_trans _ (remove_entry h d base)); [apply adds_remove|eapply adds_subtree, Es].
          -- now apply (acyclic_emptied (remove_entry h d base)).
          -- rewrite (em_next _ _ Hem). apply remove_next.
          -- intros e c Hn. rewrite <- (Hrc e c Hn). unfold lookup. rewrite (remove_subtree_below _ _ _ _ e (proj1 Hk) Es); [reflexivity|].
             intros Hr. apply Hn. right. exists y. split; [exact El|]. now apply (remove_reach h d base).
          -- assert (x = next h2) as -> by (rewrite enter_eq in Em; congruence). assert (next h2 = next h) as En by (rewrite (em_next _ _ Hem); apply remove_next).
             rewrite Em in Hp. cbn [fst] in Hp. rewrite En. split; [exact Hp|]. eapply made_instead; [reflexivity|exact El|exact Eans].
        * rewrite andb_true_r in Ey. apply some_inj in Em. destruct (place_enter h d base mode (remove_entry h d base)) as [Hp Hc]; auto; [apply adds_remove|apply remove_next|].
          assert (x = next h) as -> by (rewrite enter_eq in Em; cbn [fst snd] in Em; rewrite remove_next in Em; congruence). rewrite Em in Hp, Hc. cbn [fst] in Hp, Hc. split; [exact Hp|].
          rewrite Ey in Eans. eapply made_over; [reflexivity|exact El|exact Ey|exact Eans|]. intros e c Hn. rewrite Hc by exact Hn. rewrite lookup_remove. now rewrite (cell_if e d c base).
    - apply some_inj in Em. destruct (place_enter h d base mode h) as [Hp Hc]; auto; [now apply keeps_refl|apply adds_refl|].
      assert (x = next h) as -> by (rewrite enter_eq in Em; congruence). rewrite Em in Hp, Hc. cbn [fst] in Hp, Hc. split; [exact Hp|]. now apply made_new. }
  destruct (cb path true (option_map (existing_dir h) (lookup h d base))) as [[]|] eqn:Eans.
  - left. assert (h' = h) as -> by congruence. auto.
  - right. apply (Hov false); auto.
  - right. apply (Hov true); auto.
  - left. assert (h' = h /\ r = Err EOther) as [-> ->] by (split; congruence). split; [reflexivity|discriminate].
Qed.

(* Everything: nothing listed anew, and changes only at or below the place. *)
Definition within (h h' : heap) (d : nat) (base : list byte) : Prop := forall e c, e < next h -> ~ inside h d base e c -> lookup h' e c = lookup h e c.
Lemma descend_within cb x path cs :
  Forall (fun c => forall h d base path h' r, tree_inv h -> acyclic h -> is_dir_at h d -> add_walk cb (snd c) h d base path = Some (h', r) -> adds h h' /\ within h h' d base) cs ->
  forall h h' r, tree_inv h -> acyclic h -> is_dir_at h x -> descend (add_walk cb) x path cs h = Some (h', r) -> adds h h' /\ forall e c, e < next h -> ~ reach h x e -> lookup h' e c = lookup h e c.
Proof.
  induction 1 as [|[nm c0] cs Hc Hcs IH]; intros h h' r H Ha Hx E; [cbn in E; assert (h' = h) as -> by congruence; split; [apply adds_refl|auto]|].
  rewrite descend_cons in E. cbn [snd] in Hc.
  assert (forall h2 r2, add_walk cb c0 h x nm (path ++ [nm]) = Some (h2, r2) -> adds h h2 /\ forall e c, e < next h -> ~ reach h x e -> lookup h2 e c = lookup h e c) as Hone.
  { intros h2 r2 E2. destruct (Hc _ _ _ _ _ _ H Ha Hx E2) as [A B]. split; [exact A|]. intros e c Hlt Hn. apply B; [exact Hlt|]. intros [[-> _]|(y & Hy & Hr)]; [apply Hn, reach_self|].
    apply Hn. eapply reach_trans; [eapply reach_one, Hy|exact Hr]. }
  destruct (add_walk cb c0 h x nm (path ++ [nm])) as [[h2 r2]|] eqn:Ew; [|discriminate]. specialize (Hone h2 r2 eq_refl). destruct r2 as [u|e0]; [|assert (h' = h2) as -> by congruence; exact Hone].
  destruct (keeps_add_walk cb c0 _ _ _ _ _ _ H Hx Ew) as [H2 Hk]. destruct (add_walk_total cb c0 h x nm (path ++ [nm]) H Hx Ha) as (h2' & r2' & Ew' & Ha2). assert (h2' = h2) as -> by congruence.
  destruct (IH h2 h' r H2 Ha2 (Hk _ Hx) E) as [A2 B2]. destruct Hone as [A1 B1]. split; [now apply (adds_trans _ h2)|]. intros e c Hlt Hn. rewrite B2; [now apply B1|pose proof (ad_next _ _ A1); lia|].
  intros Hr. apply Hn. now apply (adds_reach h h2).
Qed.
Lemma walk_within cb s : forall h d base path h' r, tree_inv h -> acyclic h -> is_dir_at h d -> add_walk cb s h d base path = Some (h', r) -> adds h h' /\ within h h' d base.
Proof.
  assert (forall s h d base path h' r, source_dir s = false -> tree_inv h -> acyclic h -> is_dir_at h d -> add_walk cb s h d base path = Some (h', r) -> adds h h' /\ within h h' d base) as Hleaf.
  { intros s0 h d base path h' r Hs H Ha Hd E. apply walk_leaf in E; auto. destruct E as [(A & B & _)|[(A & B & C & D) _]].
    - split; [exact A|]. intros e c _ _. apply B.
    - split; [exact A|]. intros e c _ Hn. apply D. destruct (cell_dec e d c base) as [Hy|Hy]; [exfalso; apply Hn; now left|exact Hy]. }
  induction s as [mode cs lists IH|mode t opens|mode t reads|] using source_ind'; intros h d base path h' r H Ha Hd E; [|eapply Hleaf; eauto; reflexivity ..].
  apply walk_dir in E; auto. destruct E as [[-> _]|(h1 & x & Hp & Hm & [[-> E]|[-> _]])].
  - split; [apply adds_refl|]. intros e c _ _. reflexivity.
  - destruct (descend_within cb x path cs IH h1 h' r (proj1 (pl_keeps _ _ _ _ _ Hp)) (pl_acyclic _ _ _ _ _ Hp) (pl_dir _ _ _ _ _ Hp) E) as [A B]. pose proof (pl_adds _ _ _ _ _ Hp) as A1. split; [now apply (adds_trans _ h1)|].
    intros e c Hlt Hn. rewrite B; [exact (pl_cell _ _ _ _ _ Hp e c Hn)|pose proof (ad_next _ _ A1); lia|]. intros Hr. apply (adds_reach h h1) in Hr; auto. apply Hn. right. destruct Hm as [-> Hl _ _ | -> _ _ | -> y Hl _ _ _ | -> y Hl _].
    + now exists x.
    + apply reach_fresh in Hr; [|exact H]. lia.
    + apply reach_fresh in Hr; [|exact H]. lia.
    + apply reach_fresh in Hr; [|exact H]. lia.
  - split; [exact (pl_adds _ _ _ _ _ Hp)|]. intros e c _ Hn. exact (pl_cell _ _ _ _ _ Hp e c Hn).
Qed.

(* Names of a source's directory. *)
Lemma sassoc_in nm cs s : sassoc nm cs = Some s -> In (nm, s) cs.
Proof.
  induction cs as [|[k x] cs IH]; cbn; [discriminate|]. destruct (bytes_eqb nm k) eqn:E; [|auto]. intros Es. apply some_inj in Es. apply bytes_eqb_eq in E. subst. now left.
Qed.
Lemma in_sassoc nm cs s : NoDup (map fst cs) -> In (nm, s) cs -> sassoc nm cs = Some s.
Proof.
  induction cs as [|[k x] cs IH]; cbn; [contradiction|]. intros Hn. inversion Hn as [|? ? Hni Hnd]; subst. intros [E|Hin].
  - assert (k = nm /\ x = s) as [-> ->] by (split; congruence). now rewrite bytes_eqb_refl.
  - rewrite bytes_eqb_neq; [auto|]. intros ->. apply Hni. change k with (fst (k, s)). now apply in_map.
Qed.

(* What gentle AddFuncs let go: only leaves under incoming directories. *)
Lemma at_cell_back h h' x l e c n : tree_inv h -> adds h h' -> lookup h e c = Some n -> at_cell h' x l e c -> at_cell h x l e c.
Proof.
  intros H Ha Hl (l' & -> & El). exists l'. split; [reflexivity|]. apply (adds_at h h'); auto. apply dir_old; [exact H|]. eapply lookup_dir, Hl.
Qed.
Lemma new_unreached h h1 e : tree_inv h -> adds h h1 -> e < next h -> ~ reach h1 (next h) e.
Proof. intros H Ha Hlt Hr. apply (adds_reach h h1) in Hr; auto. apply reach_fresh in Hr; [|exact H]. lia. Qed.
Lemma descend_gentle cb x path cs : 
  Forall (fun c => forall h d base path h' r, tree_inv h -> acyclic h -> is_dir_at h d -> source_ok (snd c) -> add_walk cb (snd c) h d base path = Some (h', r) ->
    forall e c0 n, lookup h e c0 = Some n -> lookup h' e c0 = Some n \/ lost_to cb path (snd c) h d [base] e c0 n) cs ->
  Forall (fun c => source_ok (snd c)) cs ->
  forall h h' r, tree_inv h -> acyclic h -> is_dir_at h x -> descend (add_walk cb) x path cs h = Some (h', r) ->
  forall e c0 n, lookup h e c0 = Some n -> lookup h' e c0 = Some n \/ exists nm c, In (nm, c) cs /\ lost_to cb (path ++ [nm]) c h x [nm] e c0 n.
Proof.
  induction 1 as [|[nm c] cs Hc Hcs IH]; intros Hso h h' r H Ha Hx E e c0 n Hl; [cbn in E; assert (h' = h) as -> by congruence; now left|].
  inversion Hso as [|? ? Hso1 Hso2]; subst. cbn [snd] in *. rewrite descend_cons in E. destruct (add_walk cb c h x nm (path ++ [nm])) as [[h2 r2]|] eqn:Ew; [|discriminate].
  destruct (Hc _ _ _ _ _ _ H Ha Hx Hso1 Ew e c0 n Hl) as [Hk|Hk]; [|right; exists nm, c; split; [now left|exact Hk]].
  destruct r2 as [u|e0]; [|assert (h' = h2) as -> by congruence; now left].
  destruct (keeps_add_walk cb c _ _ _ _ _ _ H Hx Ew) as [H2 Hk2]. destruct (add_walk_total cb c h x nm (path ++ [nm]) H Hx Ha) as (h2' & r2' & Ew' & Ha2). assert (h2' = h2) as -> by congruence.
  destruct (walk_within cb c _ _ _ _ _ _ H Ha Hx Ew) as [A _].
  destruct (IH Hso2 h2 h' r H2 Ha2 (Hk2 _ Hx) E e c0 n Hk) as [Hr|(nm' & c' & Hin & Hd & q & m & cs' & ls & Hq & Hcell & Hcb)]; [now left|]. right. exists nm', c'. split; [now right|]. split.
  - rewrite <- Hd. symmetry. apply existing_same; [apply A|]. eapply listed_node; eassumption.
  - exists q, m, cs', ls. split; [exact Hq|]. split; [|exact Hcb]. eapply at_cell_back; eassumption.
Qed.
Lemma walk_gentle cb s : gentle cb -> forall h d base path h' r, tree_inv h -> acyclic h -> is_dir_at h d -> source_ok s -> add_walk cb s h d base path = Some (h', r) ->
  forall e c n, lookup h e c = Some n -> lookup h' e c = Some n \/ lost_to cb path s h d [base] e c n.
Proof.
  intros Hg. assert (forall s h d base path h' r, source_dir s = false -> tree_inv h -> is_dir_at h d -> add_walk cb s h d base path = Some (h', r) ->
    forall e c n, lookup h e c = Some n -> lookup h' e c = Some n) as Hleaf.
  { intros s0 h d base path h' r Hs H Hd E e c n Hl. apply walk_leaf in E; auto. destruct E as [(_ & B & _)|[(_ & _ & _ & D) Hor]]; [now rewrite B|]. destruct (cell_dec e d c base) as [[-> ->] | Hne]; [|now rewrite D].
    rewrite Hl in Hor. destruct Hor as [Hor|Hor]; [discriminate|]. cbn in Hor. now apply Hg in Hor. }
  induction s as [mode cs lists IH|mode t opens|mode t reads|] using source_ind'; intros h d base path h' r H Ha Hd Hso E e c n Hl; [|left; eapply Hleaf; eauto; reflexivity ..].
  inversion Hso as [? ? ? Hnd Hf| | |]; subst. apply walk_dir in E; auto. destruct E as [[-> _]|(h1 & x & Hp & Hm & Hor)]; [now left|].
  assert (Forall (fun c => source_ok (snd c)) cs) as Hf2 by (eapply Forall_impl; [|exact Hf]; cbn; tauto).
  assert (e < next h) as Hlt by (apply dir_old; [exact H|eapply lookup_dir, Hl]).
  pose proof (pl_adds _ _ _ _ _ Hp) as A1. pose proof (proj1 (pl_keeps _ _ _ _ _ Hp)) as H1. pose proof (pl_acyclic _ _ _ _ _ Hp) as Ha1. pose proof (pl_dir _ _ _ _ _ Hp) as Hx.
  assert (forall k, lookup h1 e c = Some k -> x = next h -> lookup h' e c = Some k) as Hfresh.
  { intros k Hk ->. destruct Hor as [[-> E]|[-> _]]; [|exact Hk]. destruct (descend_within cb (next h) path cs) with (h := h1) (h' := h') (r := r) as [_ B]; auto.
    - apply Forall_forall. intros p _. apply walk_within.
    - rewrite B; [exact Hk|pose proof (ad_next _ _ A1); lia|now apply new_unreached]. }
  destruct Hm as [-> Hlx Hdx Hcb | Ex Hln Hoth | Ex y Hly Hyd Hcb Hoth | Ex y Hly Hcb].
  - destruct Hor as [[-> E]|[-> _]]; [|now left]. destruct (descend_gentle cb x path cs) with (h := h) (h' := h') (r := r) (e := e) (c0 := c) (n := n) as [Hk|(nm & c' & Hin & Hnd' & q & m & cs' & ls & Hq & (l' & El & Hp') & Hcb')]; auto.
    + right. split; [exact Hnd'|]. exists (nm :: q), m, cs', ls. split; [cbn; now rewrite (in_sassoc nm cs c' Hnd Hin)|]. split.
      * exists (base :: l'). split; [cbn in El |- *; now rewrite El|]. cbn. now rewrite Hlx.
      * rewrite <- app_assoc in Hcb'. exact Hcb'.
  - left. apply Hfresh; [|exact Ex]. rewrite Hoth; [exact Hl|]. destruct (cell_dec e d c base) as [[-> ->] | Hne]; [congruence|exact Hne].
  - destruct (cell_dec e d c base) as [[-> ->] | Hne].
    + right. assert (n = y) as -> by congruence. split; [exact Hyd|]. exists [], mode, cs, lists. split; [reflexivity|]. split; [|now rewrite app_nil_r]. exists []. split; reflexivity.
    + left. apply Hfresh; [|exact Ex]. now rewrite Hoth.
  - now apply Hg in Hcb.
Qed.

(* A sibling coming in leaves the paths below a name alone. *)
Lemma sibling_paths h h' x nm nm2 q n : tree_inv h -> acyclic h -> is_dir_at h x -> within h h' x nm2 -> nm <> nm2 -> at_path h x (nm :: q) = Some n -> at_path h' x (nm :: q) = Some n.
Proof.
  intros H Ha Hx Hw Hne. revert n. induction q as [|c q IH] using rev_ind; intros n E.
  - cbn in *. rewrite Hw; [exact E|now apply dir_old|]. intros [[_ ->] | (y & Hy & Hr)]; [contradiction|]. apply (Ha x nm2 y); assumption.
  - change (nm :: q ++ [c]) with ((nm :: q) ++ [c]) in *. rewrite at_snoc in *. destruct (at_path h x (nm :: q)) as [e|] eqn:Ee; [|discriminate]. rewrite (IH e eq_refl).
    assert (is_dir_at h e) as Hde by (eapply lookup_dir, E). rewrite Hw; [exact E|now apply dir_old|].
    cbn in Ee. destruct (lookup h x nm) as [y0|] eqn:Ey0; [|discriminate]. apply at_reach in Ee. intros [[-> ->] | (y & Hy & Hr)].
    + now apply (Ha x nm y0).
    + apply Hne. now apply (siblings_apart h x nm y0 nm2 y e).
Qed.

(* In place: every AddFunc that never skips leaves something at every path of the source; one
   that lets everything in leaves the source's own. *)
Definition in_place (cb : addfunc) (s : source) (h' : heap) (d : nat) (base : list byte) : Prop :=
  forall q k, source_at s q = Some k -> exists n, at_path h' d (base :: q) = Some n /\ (placing cb -> shows h' n k).
Lemma descend_places cb x path cs : (forall p inc ex, cb p inc ex <> Some Skip) ->
  Forall (fun c => forall h d base path h', tree_inv h -> acyclic h -> is_dir_at h d -> source_ok (snd c) -> add_walk cb (snd c) h d base path = Some (h', Ok tt) -> in_place cb (snd c) h' d base) cs ->
  Forall (fun c => source_ok (snd c)) cs -> NoDup (map fst cs) ->
  forall h h', tree_inv h -> acyclic h -> is_dir_at h x -> descend (add_walk cb) x path cs h = Some (h', Ok tt) ->
  forall nm c, In (nm, c) cs -> in_place cb c h' x nm.
Proof.
  intros Hcb. induction 1 as [|[nm c] cs Hc Hcs IH]; intros Hso Hnd h h' H Ha Hx E nm0 c0 Hin; [contradiction|].
  inversion Hso as [|? ? Hso1 Hso2]; subst. inversion Hnd as [|? ? Hni Hnd2]; subst. cbn [snd fst] in *. rewrite descend_cons in E. destruct (add_walk cb c h x nm (path ++ [nm])) as [[h2 [[]|e0]]|] eqn:Ew; [|discriminate|discriminate].
  destruct (keeps_add_walk cb c _ _ _ _ _ _ H Hx Ew) as [H2 Hk2]. destruct (add_walk_total cb c h x nm (path ++ [nm]) H Hx Ha) as (h2' & r2' & Ew' & Ha2). assert (h2' = h2) as -> by congruence.
  destruct Hin as [Ein|Hin]; [|now apply (IH Hso2 Hnd2 h2 h' H2 Ha2 (Hk2 _ Hx) E)]. assert (nm0 = nm /\ c0 = c) as [-> ->] by (split; congruence).
  pose proof (Hc _ _ _ _ _ H Ha Hx Hso1 Ew) as Hp. clear IH Hc Ew Ew' H Ha. specialize (Hk2 _ Hx). clear Hx Hcb Hso Hso1 h r2' Hnd Ein.
  (* the rest leaves it alone *)
  assert (adds h2 h' /\ forall q n, at_path h2 x (nm :: q) = Some n -> at_path h' x (nm :: q) = Some n) as [A B].
  { clear Hp Hcs Hnd2 Hso2. revert h2 H2 Ha2 Hk2 E. induction cs as [|[k s] cs IH]; intros h2 H2 Ha2 Hx E.
    - cbn in E. assert (h' = h2) as -> by congruence. split; [apply adds_refl|auto].
    - rewrite descend_cons in E. destruct (add_walk cb s h2 x k (path ++ [k])) as [[h3 [[]|e0]]|] eqn:Ew; [|discriminate|discriminate].
      destruct (keeps_add_walk cb s _ _ _ _ _ _ H2 Hx Ew) as [H3 Hk3]. destruct (add_walk_total cb s h2 x k (path ++ [k]) H2 Hx Ha2) as (h3' & r3' & Ew' & Ha3). assert (h3' = h3) as -> by congruence.
      destruct (walk_within cb s _ _ _ _ _ _ H2 Ha2 Hx Ew) as [A3 B3]. destruct (IH ltac:(intros Hi; apply Hni; now right) h3 H3 Ha3 (Hk3 _ Hx) E) as [A4 B4].
      split; [now apply (adds_trans _ h3)|]. intros q n Hq. apply B4. apply (sibling_paths h2 h3 x nm k q n); auto. intros ->. apply Hni. now left. }
  intros q k Hq. destruct (Hp q k Hq) as (n & Hn & Hs). exists n. split; [now apply B|]. intros Hpl. apply (shows_adds h2); auto.
Qed.
Lemma walk_places cb s : (forall p inc ex, cb p inc ex <> Some Skip) -> forall h d base path h', tree_inv h -> acyclic h -> is_dir_at h d -> source_ok s -> add_walk cb s h d base path = Some (h', Ok tt) -> in_place cb s h' d base.
Proof.
  intros Hns. assert (forall s h d base path h', source_dir s = false -> tree_inv h -> is_dir_at h d -> add_walk cb s h d base path = Some (h', Ok tt) -> in_place cb s h' d base) as Hleaf.
  { intros s0 h d base path h' Hs H Hd E q k Hq. assert (q = [] /\ k = s0) as [-> ->].
    { destruct q as [|c q]; cbn in Hq; [split; congruence|]. destruct s0; discriminate. }
    apply walk_leaf in E; auto. cbn [at_path]. destruct E as [(_ & B & C)|[(_ & Sh & L & _) _]].
    - destruct (C eq_refl) as [Hk|[Hk Hex]]; [now apply Hns in Hk|]. rewrite B. destruct (lookup h d base) as [n|]; [|contradiction]. exists n. split; [reflexivity|]. intros Hpl. apply Hpl in Hk. cbn in Hk. destruct Hk as [Hk|[Hk _]]; discriminate.
    - rewrite L. eauto. }
  induction s as [mode cs lists IH|mode t opens|mode t reads|] using source_ind'; intros h d base path h' H Ha Hd Hso E; [|eapply Hleaf; eauto; reflexivity ..].
  inversion Hso as [? ? ? Hnd Hf| | |]; subst. apply walk_dir in E; auto. destruct E as [[_ Hsk]|(h1 & x & Hp & _ & [[-> E]|[_ Hne]])]; [now apply Hns in Hsk| |contradiction].
  assert (Forall (fun c => source_ok (snd c)) cs) as Hf2 by (eapply Forall_impl; [|exact Hf]; cbn; tauto).
  pose proof (proj1 (pl_keeps _ _ _ _ _ Hp)) as H1. pose proof (pl_acyclic _ _ _ _ _ Hp) as Ha1. pose proof (pl_dir _ _ _ _ _ Hp) as Hx.
  destruct (descend_within cb x path cs) with (h := h1) (h' := h') (r := Ok tt) as [A B]; auto; [apply Forall_forall; intros p _; apply walk_within|].
  assert (lookup h' d base = Some x) as Hat.
  { rewrite B; [apply Hp| |]; [apply dir_old; [exact H1|]; apply (proj2 (pl_keeps _ _ _ _ _ Hp)); exact Hd|]. apply (Ha1 d base). apply Hp. }
  intros [|nm q] k Hq.
  - cbn in Hq. assert (k = SDir mode cs true) as -> by congruence. exists x. cbn [at_path]. rewrite Hat. split; [reflexivity|]. intros _. apply (shows_adds h1); [exact A|exact Hx].
  - cbn in Hq. destruct (sassoc nm cs) as [c|] eqn:Ec; [|discriminate]. apply sassoc_in in Ec.
    destruct (descend_places cb x path cs Hns) with (h := h1) (h' := h') (nm := nm) (c := c) (q := q) (k := k) as (n & Hn & Hs); auto.
    exists n. split; [|exact Hs]. change (at_path h' d (base :: nm :: q)) with (match lookup h' d base with Some n => at_path h' n (nm :: q) | None => None end). now rewrite Hat.
Qed.

(* FailOnConflict succeeds only where nothing but directories met directories. *)
Definition no_conflict (s : source) (h : heap) (d : nat) (base : list byte) : Prop :=
  forall q k n, source_at s q = Some k -> at_path h d (base :: q) = Some n -> source_dir k = true /\ is_dir_at h n.
Lemma fail_gentle : gentle fail_on_conflict.
Proof. intros p inc e. unfold fail_on_conflict. destruct (inc && e); discriminate. Qed.
Lemma fail_lost path s h d pre e c n : ~ lost_to fail_on_conflict path s h d pre e c n.
Proof. intros (_ & q & m & cs & ls & _ & _ & E). discriminate. Qed.
Lemma fail_keeps s h d base path h' r : tree_inv h -> acyclic h -> is_dir_at h d -> source_ok s -> add_walk fail_on_conflict s h d base path = Some (h', r) ->
  forall e c n, lookup h e c = Some n -> lookup h' e c = Some n.
Proof. intros H Ha Hd Hso E e c n Hl. destruct (walk_gentle _ s fail_gentle _ _ _ _ _ _ H Ha Hd Hso E e c n Hl) as [Hk|Hk]; [exact Hk|now apply fail_lost in Hk]. Qed.
Lemma lookups_paths h h' : (forall e c n, lookup h e c = Some n -> lookup h' e c = Some n) -> forall l x n, at_path h x l = Some n -> at_path h' x l = Some n.
Proof. intros Hl. induction l as [|c l IH]; intros x n E; [exact E|]. cbn in *. destruct (lookup h x c) as [y|] eqn:Ey; [|discriminate]. rewrite (Hl _ _ _ Ey). auto. Qed.
Lemma descend_fails x path cs :
  Forall (fun c => forall h d base path h', tree_inv h -> acyclic h -> is_dir_at h d -> source_ok (snd c) -> add_walk fail_on_conflict (snd c) h d base path = Some (h', Ok tt) -> no_conflict (snd c) h d base) cs ->
  Forall (fun c => source_ok (snd c)) cs ->
  forall h h', tree_inv h -> acyclic h -> is_dir_at h x -> descend (add_walk fail_on_conflict) x path cs h = Some (h', Ok tt) -> forall nm c, In (nm, c) cs -> no_conflict c h x nm.
Proof.
  induction 1 as [|[nm c] cs Hc Hcs IH]; intros Hso h h' H Ha Hx E nm0 c0 Hin; [contradiction|].
  inversion Hso as [|? ? Hso1 Hso2]; subst. cbn [snd] in *. rewrite descend_cons in E. destruct (add_walk fail_on_conflict c h x nm (path ++ [nm])) as [[h2 [[]|e0]]|] eqn:Ew; [|discriminate|discriminate].
  destruct Hin as [Ein|Hin]; [assert (nm0 = nm /\ c0 = c) as [-> ->] by (split; congruence); eapply Hc; eassumption|].
  destruct (keeps_add_walk _ c _ _ _ _ _ _ H Hx Ew) as [H2 Hk2]. destruct (add_walk_total fail_on_conflict c h x nm (path ++ [nm]) H Hx Ha) as (h2' & r2' & Ew' & Ha2). assert (h2' = h2) as -> by congruence.
  pose proof (IH Hso2 h2 h' H2 Ha2 (Hk2 _ Hx) E nm0 c0 Hin) as Hnc. intros q k n Hq Hn.
  destruct (Hnc q k n Hq) as [Hk Hdn]; [apply (lookups_paths h); [eapply fail_keeps; eassumption|exact Hn]|]. split; [exact Hk|].
  destruct (walk_within _ c _ _ _ _ _ _ H Ha Hx Ew) as [A _]. apply existing_is. rewrite <- (existing_same h h2); [now apply existing_is|apply A|]. eapply at_exists; [exact H|exact Hx|exact Hn].
Qed.
Lemma walk_fails s : forall h d base path h', tree_inv h -> acyclic h -> is_dir_at h d -> source_ok s -> add_walk fail_on_conflict s h d base path = Some (h', Ok tt) -> no_conflict s h d base.
Proof.
  assert (forall s h d base path h', source_dir s = false -> tree_inv h -> is_dir_at h d -> add_walk fail_on_conflict s h d base path = Some (h', Ok tt) -> no_conflict s h d base) as Hleaf.
  { intros s0 h d base path h' Hs H Hd E q k n Hq Hn. assert (q = [] /\ k = s0) as [-> ->].
    { destruct q as [|c q]; cbn in Hq; [split; congruence|]. destruct s0; discriminate. }
    exfalso. cbn in Hn. apply walk_leaf in E; auto. destruct (lookup h d base) as [y|]; [|discriminate]. cbn in E. destruct E as [(_ & _ & C)|[_ [C|C]]]; [destruct (C eq_refl) as [C'|[C' _]]| |]; discriminate. }
  induction s as [mode cs lists IH|mode t opens|mode t reads|] using source_ind'; intros h d base path h' H Ha Hd Hso E; [|eapply Hleaf; eauto; reflexivity ..].
  inversion Hso as [? ? ? Hnd Hf| | |]; subst. apply walk_dir in E; auto. destruct E as [[_ Hsk]|(h1 & x & Hp & Hm & [[-> E]|[_ Hne]])]; [|intros q k n Hq Hn|contradiction].
  - exfalso. specialize (Hsk eq_refl). unfold fail_on_conflict in Hsk. destruct (lookup h d base) as [y|]; cbn in Hsk; [destruct (existing_dir h y)|]; discriminate.
  - destruct Hm as [-> Hlx Hdx _ | _ Hln _ | _ y Hly Hyd Hcb _ | _ y Hly Hcb].
    + destruct q as [|nm q].
      * cbn in Hq, Hn. rewrite Hlx in Hn. assert (n = x) as -> by congruence. assert (k = SDir mode cs true) as -> by congruence. split; [reflexivity|exact Hdx].
      * cbn in Hq. destruct (sassoc nm cs) as [c|] eqn:Ec; [|discriminate]. apply sassoc_in in Ec. change (at_path h d (base :: nm :: q)) with (match lookup h d base with Some n => at_path h n (nm :: q) | None => None end) in Hn. rewrite Hlx in Hn.
        eapply (descend_fails x path cs); [exact IH| |exact H|exact Ha|exact Hdx|exact E|exact Ec|exact Hq|exact Hn]. eapply Forall_impl; [|exact Hf]. cbn. tauto.
    + cbn in Hn. rewrite Hln in Hn. discriminate.
    + discriminate.
    + exfalso. unfold fail_on_conflict in Hcb. cbn in Hcb. destruct (existing_dir h y); discriminate.
Qed.

(* ensureParents. *)
Lemma resolve_missing_link h b p d base x : tree_inv h -> Forall proper p -> p <> [] -> resolve h b (join_sep p) true = Err ENotExist -> resolve_parent h b (join_sep p) = Ok (d, base) -> lookup h d base = Some x -> is_link h x.
Proof.
  intros H Hp Hne Er Ep Hx. destruct p as [|c l] using rev_ind; [contradiction|]. clear IHl. rewrite resolve_parent_join in Ep by exact Hp. rewrite resolve_join in Er by (auto; now destruct l).
  destruct (walk_comps h b true max_hops b l) as [f|] eqn:Ew; [|discriminate]. destruct (nodes h (f_node f)) as [[m q es| |]|] eqn:Hf; try discriminate. assert (d = f_node f /\ base = c) as [-> ->] by (split; congruence).
  destruct (walk_concat h b max_hops l b f Ew) as (k & _ & Hr); [now exists m, q, es|]. specialize (Hr [c]). apply Forall_app in Hp. destruct Hp as [_ Hp]. inversion Hp as [|? ? Hc _]; subst. destruct (proper_tests c Hc) as (E1 & E2 & E3).
  rewrite Er, walk_cons, E1, E2, E3, Hx in Hr. cbn zeta in Hr. pose proof (listed_node h _ _ _ H Hx) as Hn. unfold is_link. destruct (nodes h x) as [[| |m' t']|]; [| |eauto|contradiction]; cbn in Hr; discriminate.
Qed.
Lemma ensure_loop_spec b mode : forall l pre h par h1 r, tree_inv h -> is_dir_at h par -> Forall proper (pre ++ l) -> ensure_loop h b (heads pre l) mode par = (h1, r) ->
  adds h h1 /\ (forall e c n, lookup h e c = Some n -> lookup h1 e c = Some n \/ (In c l /\ is_link h n)) /\
  (forall d, r = Ok d -> same_entries h h1 -> (exists f, walk_comps h b true max_hops b pre = Ok f /\ f_node f = par) -> exists f, walk_comps h1 b true max_hops b (pre ++ l) = Ok f /\ f_node f = d).
Proof.
  induction l as [|c l IH]; intros pre h par h1 r H Hd Hp E; cbn [heads ensure_loop] in E.
  - assert (h1 = h /\ r = Ok par) as [-> ->] by (split; congruence). split; [apply adds_refl|]. split; [auto|]. intros d Ed _ Hf. rewrite app_nil_r. assert (d = par) as -> by congruence. exact Hf.
  - assert (Forall proper ((pre ++ [c]) ++ l)) as Hp2 by now rewrite <- app_assoc. assert (Forall proper (pre ++ [c])) as Hp3 by (apply Forall_app in Hp2; apply Hp2).
    assert (forall e, (h, @Err nat e) = (h1, r) -> adds h h1 /\ (forall e c n, lookup h e c = Some n -> lookup h1 e c = Some n \/ (In c (c :: l) /\ is_link h n)) /\ (forall d, r = Ok d -> False)) as Herr.
    { intros e He. assert (h1 = h /\ r = Err e) as [-> ->] by (split; congruence). split; [apply adds_refl|]. split; [auto|discriminate]. }
    assert (forall e, (h, @Err nat e) = (h1, r) -> adds h h1 /\ (forall e c1 n, lookup h e c1 = Some n -> lookup h1 e c1 = Some n \/ (In c1 (c :: l) /\ is_link h n)) /\
      (forall d, r = Ok d -> same_entries h h1 -> (exists f, walk_comps h b true max_hops b pre = Ok f /\ f_node f = par) -> exists f, walk_comps h1 b true max_hops b (pre ++ c :: l) = Ok f /\ f_node f = d)) as Herr'.
    { intros e He. assert (h1 = h /\ r = Err e) as [-> ->] by (split; congruence). split; [apply adds_refl|]. split; [auto|discriminate]. }
    clear Herr. destruct (resolve h b (join_sep (pre ++ [c])) true) as [f|e] eqn:Er.
    + destruct (nodes h (f_node f)) as [[m q es| |]|] eqn:Hf; try (eapply Herr', E). rewrite resolve_join in Er; [|now destruct pre|exact Hp3].
      destruct (IH (pre ++ [c]) h (f_node f) h1 r H) as (A & B & C); auto; [now exists m, q, es|]. split; [exact A|]. split.
      * intros e c1 n Hl. destruct (B e c1 n Hl) as [Hk|[Hk1 Hk2]]; [now left|right; split; [now right|exact Hk2]].
      * intros d Ed Hs _. rewrite <- app_assoc in C. apply (C d Ed Hs). exists f. split; [exact Er|reflexivity].
    + destruct e; try (eapply Herr', E). destruct (resolve_parent h b (join_sep (pre ++ [c]))) as [[d base]|e] eqn:Ep; [|eapply Herr', E]. clear Herr'.
      pose proof (fun x => resolve_missing_link h b _ d base x H Hp3 ltac:(now destruct pre) Er Ep) as Hlink.
      rewrite resolve_parent_join in Ep by exact Hp3. destruct (walk_comps h b true max_hops b pre) as [f|] eqn:Ew; [|discriminate]. destruct (nodes h (f_node f)) as [[m q es| |]|] eqn:Hf; try discriminate. assert (d = f_node f /\ base = c) as [-> ->] by (split; congruence). clear Ep.
      assert (is_dir_at h (f_node f)) as Hdf by (now exists m, q, es). pose proof (new_dir_leaf c mode (f_node f)) as Hleaf.
      pose proof (inv_enter h (f_node f) c _ H Hdf Hleaf) as Hi. pose proof (adds_enter h (f_node f) c _ H Hdf Hleaf) as Ha. pose proof (enter_seen h (f_node f) c (new_dir c mode (f_node f)) H Hdf) as Hsn.
      pose proof (fun e c1 => lookup_enter h (f_node f) c (new_dir c mode (f_node f)) e c1 H Hdf Hleaf) as Hle. pose proof (extends_enter h (f_node f) c _ H Hdf Hleaf) as Hx.
      pose proof (proj2 (keeps_enter h (f_node f) c _ H Hdf Hleaf) _ Hdf) as Hdf2.
      destruct (enter_new h (f_node f) c (new_dir c mode (f_node f))) as [h2 n2] eqn:E2. assert (n2 = next h) as -> by (rewrite enter_eq in E2; congruence). cbn [fst] in *.
      assert (is_dir_at h2 (next h)) as Hdn by (apply seen_dir; exists mode; exact Hsn).
      destruct (IH (pre ++ [c]) h2 (next h) h1 r Hi Hdn Hp2 E) as (A & B & C). split; [now apply (adds_trans _ h2)|]. split.
      * intros e c1 n Hl. destruct (cell_dec e (f_node f) c1 c) as [[-> ->] | Hne]; [right; split; [now left|now apply Hlink]|].
        assert (lookup h2 e c1 = Some n) as Hl2 by (rewrite Hle, (cell_if _ _ _ _ Hne); exact Hl). destruct (B e c1 n Hl2) as [Hk|[Hk1 (m' & t' & Hk2)]]; [now left|]. right. split; [now right|].
        assert (nodes h n <> None) as Hn by (eapply listed_node; eassumption). pose proof (ad_seen _ _ Ha n Hn) as Hs. unfold seen in Hs. rewrite Hk2 in Hs. unfold is_link. destruct (nodes h n) as [[| |m0 t0]|]; cbn in Hs; try discriminate. eauto.
      * intros d Ed Hs _. assert (lookup h (f_node f) c = None) as Hnone.
        { destruct (lookup h (f_node f) c) as [x|] eqn:Elx; [|reflexivity]. exfalso. pose proof (Hs _ _ _ Elx) as Hs1. assert (x < next h) as Hlt by (apply node_old; [exact H|]; eapply listed_node; eassumption).
          apply (ad_old _ _ A) in Hs1; [|pose proof (ad_next _ _ Ha); lia]. rewrite Hle, Nat.eqb_refl, bytes_eqb_refl in Hs1. cbn in Hs1. apply some_inj in Hs1. lia. }
        specialize (Hx Hnone). rewrite <- app_assoc in C. apply (C d Ed).
        -- intros e c1 n Hl2. destruct (B e c1 n Hl2) as [Hk|[_ (m' & t' & Hk2)]]; [exact Hk|]. rewrite Hle in Hl2. destruct (Nat.eqb e (f_node f) && bytes_eqb c1 c); [|now apply Hs].
           apply some_inj in Hl2. subst n. unfold seen in Hsn. rewrite Hk2 in Hsn. discriminate.
        -- destruct (walk_child h2 b max_hops b pre f c (next h)) as (f' & Hf' & Hnn); [| | | | |exists f'; split; assumption].
           ++ apply (extends_walk h h2 b true Hx); [exact Ew|congruence].
           ++ exact Hdf2.
           ++ apply Forall_app in Hp3. destruct Hp3 as [_ Hp3]. now inversion Hp3.
           ++ rewrite Hle. now rewrite Nat.eqb_refl, bytes_eqb_refl.
           ++ exact Hdn.
Qed.
Lemma in_removelast {A} (x : A) l : In x (removelast l) -> In x l.
Proof. induction l as [|a [|b l] IH]; cbn; auto. cbn in IH. tauto. Qed.
Lemma ensure_spec h b name mode h1 r : tree_inv h -> is_dir_at h b -> ensure_parents h b name mode = (h1, r) ->
  adds h h1 /\ (forall e c n, lookup h e c = Some n -> lookup h1 e c = Some n \/ (is_link h n /\ exists comps, normalize name = Ok comps /\ In c (removelast comps))) /\
  (forall d base, r = Ok (d, base) -> same_entries h h1 -> resolve_parent h1 b name = Ok (d, base)).
Proof.
  intros H Hb E. pose proof (keeps_ensure h b name mode h1 r H Hb E) as [Hk Hkd]. unfold ensure_parents in E. unfold resolve_parent. destruct (normalize name) as [comps|e0] eqn:En.
  2:{ assert (h1 = h /\ r = Err e0) as [-> ->] by (split; congruence). split; [apply adds_refl|]. split; [auto|discriminate]. }
  apply normalize_proper in En as Hp. destruct comps as [|c l].
  { assert (h1 = h /\ r = Err EInval) as [-> ->] by (split; congruence). split; [apply adds_refl|]. split; [auto|discriminate]. }
  set (comps := c :: l) in *. destruct (ensure_loop h b (heads [] (removelast comps)) mode b) as [h1' r'] eqn:El.
  apply ensure_loop_spec in El; auto; [|cbn [app]; now apply Forall_removelast]. assert (h1' = h1) as -> by (destruct r'; congruence). destruct El as (A & B & C).
  split; [exact A|]. split.
  - intros e c0 n Hl. destruct (B e c0 n Hl) as [Hx|[Hx1 Hx2]]; [now left|]. right. split; [exact Hx2|]. exists comps. auto.
  - intros d base Ed Hs. destruct r' as [d'|]; [|congruence]. assert (d' = d /\ base = last comps []) as [-> ->] by (split; congruence).
    destruct (C d eq_refl Hs) as (f & Hf & Hn); [eexists; split; [apply walk_nil|reflexivity]|]. cbn [app] in Hf. rewrite Hf. rewrite Hn. destruct (Hkd _ _ Ed) as (m & p & es & Hd). now rewrite Hd.
Qed.
Lemma mount_spec h b name mode h1 r : tree_inv h -> acyclic h -> is_dir_at h b -> mount h b name mode = (h1, r) ->
  adds h h1 /\ tree_inv h1 /\ acyclic h1 /\
  (forall e c n, lookup h e c = Some n -> lookup h1 e c = Some n \/ (is_link h n /\ exists comps, normalize name = Ok comps /\ In c (removelast comps))) /\
  (forall d pre, r = Ok (d, pre) -> is_dir_at h1 d /\ match pre with [] => d = b /\ normalize name = Ok [] | [base] => same_entries h h1 -> resolve_parent h1 b name = Ok (d, base) | _ => False end).
Proof.
  intros H Ha Hb E. unfold mount in E. destruct (normalize name) as [[|c l]|e0] eqn:En.
  - assert (h1 = h /\ r = Ok (b, [])) as [-> ->] by (split; congruence). split; [apply adds_refl|]. split; [exact H|]. split; [exact Ha|]. split; [auto|]. intros d pre Ed. assert (d = b /\ pre = []) as [-> ->] by (split; congruence). auto.
  - destruct (ensure_parents h b name mode) as [h1' r'] eqn:Ee. pose proof (acyclic_ensure _ _ _ _ _ _ H Ha Ee) as Ha1. pose proof (keeps_ensure _ _ _ _ _ _ H Hb Ee) as [[H1 _] Hd]. pose proof (ensure_spec _ _ _ _ _ _ H Hb Ee) as (A & B & C).
    assert (h1' = h1) as -> by (destruct r' as [[]|]; congruence). split; [exact A|]. split; [exact H1|]. split; [exact Ha1|]. split; [rewrite En in B; exact B|].
    intros d pre Ed. destruct r' as [[d' base]|]; [|congruence]. assert (d' = d /\ pre = [base]) as [-> ->] by (split; congruence). split; [eapply Hd; reflexivity|]. intros Hs. now apply C.
  - assert (h1 = h /\ r = Err e0) as [-> ->] by (split; congruence). split; [apply adds_refl|]. split; [exact H|]. split; [exact Ha|]. split; [auto|]. discriminate.
Qed.

(* Whole calls. *)
Lemma add_fs_mount h b name s sc cb : add_fs h b name s sc cb =
  match mount h b name sc with
  | (h1, Err e) => Some (h1, Err e)
  | (h1, Ok (d, pre)) =>
      match pre with
      | [] => match s with SDir _ children true => descend (add_walk cb) b [] children h | _ => Some (h, Err EOther) end
      | base :: _ => match normalize name with Ok comps => add_walk cb s h1 d base comps | Err e => Some (h1, Err e) end
      end
  end.
Proof.
  unfold add_fs, mount. destruct (normalize name) as [[|c l]|e]; auto. destruct (ensure_parents h b name sc) as [h1 [[d base]|e]]; reflexivity.
Qed.
Lemma root_of busy mode os st i b : sane busy (new_state mode) os -> run busy (new_state mode) os = Some st -> nth_error (st_roots st) i = Some b -> tree_inv (st_heap st) /\ acyclic (st_heap st) /\ is_dir_at (st_heap st) b.
Proof.
  intros Hs Hr Hi. pose proof (run_ok busy os _ _ (new_ok mode) Hr) as [H Hf]. split; [exact H|]. split; [eapply run_acyclic; eassumption|]. eapply Forall_forall; [exact Hf|]. eapply nth_error_In, Hi.
Qed.
Lemma mount_root h b name sc h1 d : mount h b name sc = (h1, Ok (d, [])) -> h1 = h /\ d = b /\ normalize name = Ok [].
Proof.
  unfold mount. destruct (normalize name) as [[|c l]|e]; [intros E; repeat split; congruence| |discriminate]. destruct (ensure_parents h b name sc) as [h2 [[d' base]|e]]; discriminate.
Qed.
Lemma mount_one h b name sc h1 d base rest : mount h b name sc = (h1, Ok (d, base :: rest)) -> rest = [] /\ exists comps, normalize name = Ok comps.
Proof.
  unfold mount. destruct (normalize name) as [[|c l]|e]; [discriminate| |discriminate]. destruct (ensure_parents h b name sc) as [h2 [[d' base']|e]]; [|discriminate]. intros E. split; [congruence|eauto].
Qed.
Lemma root_children mode cs ls cb path h d h' r : source_ok (SDir mode cs ls) -> Forall (fun c => source_ok (snd c)) cs /\ NoDup (map fst cs) /\ (descend (add_walk cb) d path cs h = Some (h', r) -> True).
Proof. intros Hso. inversion Hso as [? ? ? Hnd Hf| | |]; subst. split; [eapply Forall_impl; [|exact Hf]; cbn; tauto|]. auto. Qed.

Section whole.
Variables (busy : bool) (mode : N) (os : list sop) (st : sstate) (i b : nat) (name : list byte) (s : source) (sc : N) (cb : addfunc) (h' : heap) (r : sres unit).
Hypotheses (Hsane : sane busy (new_state mode) os) (Hrun : run busy (new_state mode) os = Some st) (Hroot : nth_error (st_roots st) i = Some b)
  (Hso : source_ok s) (Hadd : add_fs (st_heap st) b name s sc cb = Some (h', r)).
Let h := st_heap st.

Lemma whole_within h1 r1 : mount h b name sc = (h1, r1) ->
  adds h h1 /\ adds h1 h' /\ (forall e, r1 = Err e -> h' = h1) /\ (forall e c, e < next h1 -> (forall d pre, r1 = Ok (d, pre) -> ~ below h1 d pre e c) -> lookup h' e c = lookup h1 e c).
Proof.
  clear Hso. intros Em. destruct (root_of _ _ _ _ _ _ Hsane Hrun Hroot) as (H & Ha & Hb). fold h in H, Ha, Hb. pose proof (mount_spec h b name sc h1 r1 H Ha Hb Em) as (A & H1 & Ha1 & _ & Hd). split; [exact A|].
  rewrite add_fs_mount in Hadd. fold h in Hadd. rewrite Em in Hadd. destruct r1 as [[d pre]|e].
  2:{ assert (h' = h1) as -> by congruence. split; [apply adds_refl|]. split; auto. }
  destruct (Hd d pre eq_refl) as [Hdd _]. split; [|split; [discriminate|]]; destruct pre as [|base rest].
  - apply mount_root in Em. destruct Em as (-> & -> & _). destruct s as [m cs [] | | |]; try (assert (h' = h) as -> by congruence; apply adds_refl).
    eapply descend_within; [|exact H|exact Ha|exact Hb|exact Hadd]. apply Forall_forall. intros p _. apply walk_within.
  - destruct (mount_one _ _ _ _ _ _ _ _ Em) as (-> & comps & En). rewrite En in Hadd. eapply walk_within; [exact H1|exact Ha1|exact Hdd|exact Hadd].
  - apply mount_root in Em. destruct Em as (-> & -> & _). intros e c Hlt Hn. specialize (Hn b [] eq_refl). cbn in Hn. destruct s as [m cs [] | | |]; try (assert (h' = h) as -> by congruence; reflexivity).
    destruct (descend_within cb b [] cs) with (h := h) (h' := h') (r := r) as [_ B]; auto. apply Forall_forall. intros p _. apply walk_within.
  - destruct (mount_one _ _ _ _ _ _ _ _ Em) as (-> & comps & En). rewrite En in Hadd. intros e c Hlt Hn. apply (walk_within cb s _ _ _ _ _ _ H1 Ha1 Hdd Hadd); [exact Hlt|]. apply (Hn d [base] eq_refl).
Qed.

Lemma whole_gentle h1 r1 : gentle cb -> mount h b name sc = (h1, r1) ->
  forall e c n, lookup h1 e c = Some n -> lookup h' e c = Some n \/ exists d pre comps, r1 = Ok (d, pre) /\ normalize name = Ok comps /\ lost_to cb comps s h1 d pre e c n.
Proof.
  intros Hg Em. destruct (root_of _ _ _ _ _ _ Hsane Hrun Hroot) as (H & Ha & Hb). fold h in H, Ha, Hb. pose proof (mount_spec h b name sc h1 r1 H Ha Hb Em) as (A & H1 & Ha1 & _ & Hd).
  rewrite add_fs_mount in Hadd. fold h in Hadd. rewrite Em in Hadd. destruct r1 as [[d pre]|e0]; [|assert (h' = h1) as -> by congruence; auto].
  destruct (Hd d pre eq_refl) as [Hdd _]. intros e c n Hl. destruct pre as [|base rest].
  - apply mount_root in Em. destruct Em as (-> & -> & En). destruct s as [m cs [] | | |]; try (assert (h' = h) as -> by congruence; now left).
    destruct (root_children m cs true cb [] h b h' r Hso) as (Hf & Hnd & _).
    destruct (descend_gentle cb b [] cs) with (h := h) (h' := h') (r := r) (e := e) (c0 := c) (n := n) as [Hk|(nm & c' & Hin & Hdn & q & m' & cs' & ls & Hq & Hcell & Hcb)]; auto.
    + apply Forall_forall. intros p _. now apply walk_gentle.
    + right. exists b, [], []. split; [reflexivity|]. split; [exact En|]. split; [exact Hdn|]. exists (nm :: q), m', cs', ls. split; [cbn; now rewrite (in_sassoc nm cs c' Hnd Hin)|]. split; [exact Hcell|exact Hcb].
  - destruct (mount_one _ _ _ _ _ _ _ _ Em) as (-> & comps & En). rewrite En in Hadd. destruct (walk_gentle cb s Hg _ _ _ _ _ _ H1 Ha1 Hdd Hso Hadd e c n Hl) as [Hk|Hk]; [now left|]. right. exists d, [base], comps. auto.
Qed.

Lemma whole_places : (forall p inc ex, cb p inc ex <> Some Skip) -> r = Ok tt ->
  exists h1 d pre, mount h b name sc = (h1, Ok (d, pre)) /\ forall q k, source_at s q = Some k -> exists n, at_path h' d (pre ++ q) = Some n /\ (placing cb -> shows h' n k).
Proof.
  intros Hns Hr. destruct (root_of _ _ _ _ _ _ Hsane Hrun Hroot) as (H & Ha & Hb). fold h in H, Ha, Hb. destruct (mount h b name sc) as [h1 r1] eqn:Em. pose proof (mount_spec h b name sc h1 r1 H Ha Hb Em) as (A & H1 & Ha1 & _ & Hd).
  rewrite add_fs_mount in Hadd. fold h in Hadd. rewrite Em in Hadd. destruct r1 as [[d pre]|e0]; [|congruence]. destruct (Hd d pre eq_refl) as [Hdd _]. exists h1, d, pre. split; [reflexivity|]. rewrite Hr in Hadd. destruct pre as [|base rest].
  - apply mount_root in Em. destruct Em as (-> & -> & En). destruct s as [m cs [] | | |]; try congruence. destruct (root_children m cs true cb [] h b h' r Hso) as (Hf & Hnd & _). intros [|nm q] k Hq.
    + cbn in Hq. assert (k = SDir m cs true) as -> by congruence. exists b. split; [reflexivity|]. intros _. eapply keeps_descend; [|exact H|exact Hb|exact Hadd|exact Hb]. apply Forall_forall. intros p _. apply keeps_add_walk.
    + cbn in Hq. destruct (sassoc nm cs) as [c|] eqn:Ec; [|discriminate]. apply sassoc_in in Ec.
      destruct (descend_places cb b [] cs Hns) with (h := h) (h' := h') (nm := nm) (c := c) (q := q) (k := k) as (n & Hn & Hs); auto; [|exists n; auto]. apply Forall_forall. intros p _. now apply walk_places.
  - destruct (mount_one _ _ _ _ _ _ _ _ Em) as (-> & comps & En). rewrite En in Hadd. apply (walk_places cb s Hns h1 d base comps h'); auto.
Qed.

Lemma whole_fails h1 d pre : cb = fail_on_conflict -> r = Ok tt -> mount h b name sc = (h1, Ok (d, pre)) ->
  forall q k n, source_at s q = Some k -> at_path h1 d (pre ++ q) = Some n -> source_dir k = true /\ is_dir_at h1 n.
Proof.
  intros -> Hr Em. destruct (root_of _ _ _ _ _ _ Hsane Hrun Hroot) as (H & Ha & Hb). fold h in H, Ha, Hb. pose proof (mount_spec h b name sc h1 _ H Ha Hb Em) as (A & H1 & Ha1 & _ & Hd). destruct (Hd d pre eq_refl) as [Hdd _].
  rewrite add_fs_mount in Hadd. fold h in Hadd. rewrite Em, Hr in Hadd. destruct pre as [|base rest].
  - apply mount_root in Em. destruct Em as (-> & -> & En). destruct s as [m cs [] | | |]; try congruence. destruct (root_children m cs true fail_on_conflict [] h b h' r Hso) as (Hf & Hnd & _). intros [|nm q] k n Hq Hn.
    + cbn in Hq, Hn. assert (k = SDir m cs true) as -> by congruence. assert (n = b) as -> by congruence. auto.
    + cbn in Hq. destruct (sassoc nm cs) as [c|] eqn:Ec; [|discriminate]. apply sassoc_in in Ec. eapply (descend_fails b [] cs); [|exact Hf|exact H|exact Ha|exact Hb|exact Hadd|exact Ec|exact Hq|exact Hn]. apply Forall_forall. intros p _. apply walk_fails.
  - destruct (mount_one _ _ _ _ _ _ _ _ Em) as (-> & comps & En). rewrite En in Hadd. apply (walk_fails s h1 d base comps h'); auto.
Qed.
End whole.

Lemma whole_file busy mode os st i b name t fm sc stats cb h' r : sane busy (new_state mode) os -> run busy (new_state mode) os = Some st -> nth_error (st_roots st) i = Some b ->
  add_file (st_heap st) b name t fm sc stats cb = (h', r) ->
  match r with
  | Err _ => h' = st_heap st \/ h' = fst (ensure_parents (st_heap st) b name sc)
  | Ok _ => exists h1 d base comps, ensure_parents (st_heap st) b name sc = (h1, Ok (d, base)) /\ normalize name = Ok comps /\
      match cb comps false (option_map (existing_dir h1) (lookup h1 d base)) with
      | Some Override => (exists n, nodes h1 n = None /\ lookup h' d base = Some n /\ shows h' n (SFile fm t true)) /\ (forall e c, e <> d \/ c <> base -> lookup h' e c = lookup h1 e c) /\ same_seen h1 h'
      | Some _ => h' = h1
      | None => False
      end
  end.
Proof.
  intros Hs Hr Hi. destruct (root_of _ _ _ _ _ _ Hs Hr Hi) as (H & Ha & Hb). unfold add_file. destruct (negb stats); [intros E; assert (h' = st_heap st /\ r = Err EOther) as [-> ->] by (split; congruence); now left|].
  destruct (ensure_parents (st_heap st) b name sc) as [h1 r1] eqn:Ee. pose proof (keeps_ensure _ _ _ _ _ _ H Hb Ee) as [[H1 _] Hd]. destruct r1 as [[d base]|e].
  2:{ intros E. assert (h' = h1 /\ r = Err e) as [-> ->] by (split; congruence). now right. }
  specialize (Hd d base eq_refl). destruct (normalize name) as [comps|e] eqn:En; [|intros E; assert (h' = h1 /\ r = Err e) as [-> ->] by (split; congruence); now right]. cbn zeta.
  destruct (cb comps false _) as [dec|] eqn:Ec; [|intros E; assert (h' = h1 /\ r = Err EOther) as [-> ->] by (split; congruence); now right].
  intros E. assert (r = Ok tt) as -> by (destruct dec; congruence). exists h1, d, base, comps. split; [reflexivity|]. split; [reflexivity|]. rewrite Ec. destruct dec; try congruence.
  assert (h' = fst (enter_file (displace h1 d base (lookup h1 d base)) d base fm t)) as -> by congruence. destruct (put_file h1 d base fm t true H1 Hd) as (A & B & C & D). split; [|split; [exact D|apply A]].
  exists (next h1). split; [apply (t_fresh h1 H1); lia|]. auto.
Qed.

Lemma run_mount busy mode os st i b name sc h1 r1 : sane busy (new_state mode) os -> run busy (new_state mode) os = Some st -> nth_error (st_roots st) i = Some b ->
  mount (st_heap st) b name sc = (h1, r1) ->
  same_seen (st_heap st) h1 /\
  (forall e c n, lookup (st_heap st) e c = Some n -> lookup h1 e c = Some n \/ (is_link (st_heap st) n /\ exists comps, normalize name = Ok comps /\ In c (removelast comps))) /\
  (forall d pre, r1 = Ok (d, pre) -> is_dir_at h1 d /\ match pre with [] => d = b /\ normalize name = Ok [] | [base] => same_entries (st_heap st) h1 -> resolve_parent h1 b name = Ok (d, base) | _ => False end).
Proof.
  intros Hs Hr Hi Em. destruct (root_of _ _ _ _ _ _ Hs Hr Hi) as (H & Ha & Hb). destruct (mount_spec _ _ _ _ _ _ H Ha Hb Em) as (A & _ & _ & B & C). split; [apply A|]. split; [exact B|exact C].
Qed.
Lemma run_add_within busy mode os st i b name s sc cb h' r h1 r1 : sane busy (new_state mode) os -> run busy (new_state mode) os = Some st -> nth_error (st_roots st) i = Some b ->
  add_fs (st_heap st) b name s sc cb = Some (h', r) -> mount (st_heap st) b name sc = (h1, r1) ->
  same_seen (st_heap st) h' /\ (forall e c, nodes h1 e <> None -> (forall d pre, r1 = Ok (d, pre) -> ~ below h1 d pre e c) -> lookup h' e c = lookup h1 e c).
Proof.
  intros Hs Hr Hi Hadd Em. destruct (whole_within _ _ _ _ _ _ _ _ _ _ _ _ Hs Hr Hi Hadd _ _ Em) as (A & B & _ & C). split; [apply (seen_trans _ h1); [apply A|apply B]|].
  destruct (root_of _ _ _ _ _ _ Hs Hr Hi) as (H & Ha & Hb). destruct (mount_spec _ _ _ _ _ _ H Ha Hb Em) as (_ & H1 & _). intros e c He. apply C. now apply node_old.
Qed.
Lemma run_add_fail busy mode os st i b name s sc h' r h1 r1 : sane busy (new_state mode) os -> run busy (new_state mode) os = Some st -> nth_error (st_roots st) i = Some b ->
  source_ok s -> add_fs (st_heap st) b name s sc fail_on_conflict = Some (h', r) -> mount (st_heap st) b name sc = (h1, r1) ->
  same_entries h1 h' /\ (r = Ok tt -> exists d pre, r1 = Ok (d, pre) /\ forall q k n, source_at s q = Some k -> at_path h1 d (pre ++ q) = Some n -> source_dir k = true /\ is_dir_at h1 n).
Proof.
  intros Hs Hr Hi Hso Hadd Em. split.
  - intros e c n Hl. destruct (whole_gentle _ _ _ _ _ _ _ _ _ _ _ _ Hs Hr Hi Hso Hadd _ _ fail_gentle Em e c n Hl) as [Hk|(d & pre & comps & _ & _ & Hk)]; [exact Hk|now apply fail_lost in Hk].
  - intros Hok. destruct r1 as [[d pre]|e].
    + exists d, pre. split; [reflexivity|]. exact (whole_fails _ _ _ _ _ _ _ _ _ _ _ _ Hs Hr Hi Hso Hadd _ _ _ eq_refl Hok Em).
    + exfalso. rewrite add_fs_mount, Em in Hadd. congruence.
Qed.
Lemma placing_no_skip cb : placing cb -> forall p inc ex, cb p inc ex <> Some Skip.
Proof. intros H p inc ex. apply H. Qed.
Lemma run_add_places busy mode os st i b name s sc cb h' : sane busy (new_state mode) os -> run busy (new_state mode) os = Some st -> nth_error (st_roots st) i = Some b ->
  source_ok s -> placing cb -> add_fs (st_heap st) b name s sc cb = Some (h', Ok tt) ->
  exists h1 d pre, mount (st_heap st) b name sc = (h1, Ok (d, pre)) /\ forall q k, source_at s q = Some k -> exists n, at_path h' d (pre ++ q) = Some n /\ shows h' n k.
Proof.
  intros Hs Hr Hi Hso Hpl Hadd. destruct (whole_places _ _ _ _ _ _ _ _ _ _ _ _ Hs Hr Hi Hso Hadd (placing_no_skip cb Hpl) eq_refl) as (h1 & d & pre & Em & Hq). exists h1, d, pre. split; [exact Em|].
  intros q k Hk. destruct (Hq q k Hk) as (n & Hn & Hsh). eauto.
Qed.
Lemma run_add_something busy mode os st i b name s sc cb h' : sane busy (new_state mode) os -> run busy (new_state mode) os = Some st -> nth_error (st_roots st) i = Some b ->
  source_ok s -> (forall p inc ex, cb p inc ex <> Some Skip) -> add_fs (st_heap st) b name s sc cb = Some (h', Ok tt) ->
  exists h1 d pre, mount (st_heap st) b name sc = (h1, Ok (d, pre)) /\ forall q, source_at s q <> None -> at_path h' d (pre ++ q) <> None.
Proof.
  intros Hs Hr Hi Hso Hns Hadd. destruct (whole_places _ _ _ _ _ _ _ _ _ _ _ _ Hs Hr Hi Hso Hadd Hns eq_refl) as (h1 & d & pre & Em & Hq). exists h1, d, pre. split; [exact Em|].
  intros q Hk. destruct (source_at s q) as [k|] eqn:Ek; [|contradiction]. destruct (Hq q k Ek) as (n & Hn & _). congruence.
Qed.
Lemma keep_gentle : gentle merge_keep.
Proof. intros p inc e. discriminate. Qed.
Lemma overwrite_placing : placing merge_overwrite /\ placing fail_on_conflict.
Proof. split; intros p [] [[]|]; cbn; split; try discriminate; auto. Qed.

Definition refute_create (t : N) : oreq := {| o_create := true; o_excl := false; o_write := true; o_mode := 420; o_tag := t; o_opens := true; o_allocs := true |}.
Lemma keep_removes : exists os st h' s, run false (new_state 493) os = Some st /\ add_fs (st_heap st) 0 [102%N] s 493 merge_keep = Some (h', Ok tt) /\
  seen_at (st_heap st) 0 [[102%N]] = Some (LookFile 420 0) /\ seen_at h' 0 [[102%N]] = Some (LookDir 448).
Proof. exists [OOpen 0 [102%N] (refute_create 7)]. eexists. eexists. exists (SDir 448 [] true). vm_compute. repeat split; reflexivity. Qed.
Lemma keep_adds : exists st h', run false (new_state 493) [] = Some st /\ add_fs (st_heap st) 0 [102%N] (SFile 384 8 true) 493 (fun _ _ _ => Some Keep) = Some (h', Ok tt) /\
  seen_at (st_heap st) 0 [[102%N]] = None /\ seen_at h' 0 [[102%N]] = Some (LookFile 384 0).
Proof. eexists. eexists. vm_compute. repeat split; reflexivity. Qed.
Lemma dangling_replaced : exists os st h', run false (new_state 493) os = Some st /\ add_fs (st_heap st) 0 (join_sep [[97%N]; [102%N]]) (SFile 384 8 true) 493 merge_keep = Some (h', Ok tt) /\
  seen_at (st_heap st) 0 [[97%N]] = Some (LookLink 511 [120%N]) /\ seen_at h' 0 [[97%N]] = Some (LookDir 493).
Proof. exists [OSymlink 0 [120%N] [97%N] 511]. eexists. eexists. vm_compute. repeat split; reflexivity. Qed.
