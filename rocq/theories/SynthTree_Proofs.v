(* synthfs: no directory contains itself, removal ends, names stay proper. *)
From Verif Require Import Common CommonLemmas ContentRange_Model ContentRange_Proofs PathLex_Model PathLex_Proofs Synth_Model Synth_Spec Synth_Proofs.
Open Scope nat_scope.

(* Names. *)
Lemma normalize_proper name comps : normalize name = Ok comps -> Forall proper comps.
Proof.
  unfold normalize. destruct (is_dot (clean name)) eqn:Ed; [intros E; assert (comps = []) as -> by congruence; constructor|].
  destruct (is_local (clean name)) eqn:El; [|discriminate]. intros E. assert (comps = split_sep (clean name)) as -> by congruence. clear E.
  apply is_local_comps in El. destruct El as (_ & Hr & Hp). rewrite rooted_clean in Hr. pose proof (clean_normal name) as Hn. rewrite Hr in Hn.
  assert (clean name = render false (clean_comps false (split_sep name))) as Ec by (unfold clean; now rewrite Hr). rewrite Ec in Hp, Ed |- *. rewrite comps_render in Hp by exact Hn.
  rewrite split_render by exact Hn. destruct (clean_comps false (split_sep name)) as [|c l]; [discriminate|exact Hp].
Qed.
Lemma normal_false_proper l : Forall proper l -> normal false l.
Proof. intros H. exists 0, l. cbn. auto. Qed.
Lemma normalize_join l : l <> [] -> Forall proper l -> normalize (join_sep l) = Ok l.
Proof.
  intros Hne Hp. pose proof (normal_false_proper l Hp) as Hn. assert (join_sep l = render false l) as -> by (destruct l; [contradiction|reflexivity]).
  unfold normalize. rewrite clean_render by exact Hn.
  assert (split_sep (render false l) = l) as Hs by (rewrite split_render by exact Hn; destruct l; [contradiction|reflexivity]).
  destruct (is_dot (render false l)) eqn:Ed.
  - apply is_dot_true in Ed. rewrite Ed in Hs. cbn in Hs. subst l. inversion Hp as [|? ? Hd _]; subst. destruct Hd as (_ & Hd & _). contradiction.
  - assert (is_local (render false l) = true) as ->; [|now rewrite Hs].
    apply is_local_comps. rewrite rooted_render, comps_render by exact Hn. repeat split; [|exact Hp].
    intros E. rewrite E in Hs. cbn in Hs. subst l. inversion Hp as [|? ? Hd _]; subst. destruct Hd as (Hd & _). contradiction.
Qed.
Lemma last_proper l : l <> [] -> Forall proper l -> proper (last l []).
Proof. intros Hne H. eapply Forall_forall; [exact H|]. now apply last_in. Qed.
Lemma Forall_removelast {A} (P : A -> Prop) l : Forall P l -> Forall P (removelast l).
Proof. induction 1 as [|x l Hx Hl IH]; cbn; [constructor|]. destruct l; constructor; auto. Qed.
Lemma resolve_parent_base h b name d base : resolve_parent h b name = Ok (d, base) -> proper base.
Proof.
  unfold resolve_parent. destruct (normalize name) as [[|c l]|] eqn:E; [discriminate| |discriminate]. apply normalize_proper in E.
  destruct (walk_comps _ _ _ _ _ _) as [f|]; [|discriminate]. destruct (nodes h (f_node f)) as [[m p es| |]|]; try discriminate. intros H.
  assert (base = last (c :: l) []) as -> by congruence. apply last_proper; [discriminate|exact E].
Qed.

(* At most one edge more. *)
Definition grows (h h' : heap) (d : nat) (nm : list byte) (n : nat) : Prop :=
  forall d' nm' k, lookup h' d' nm' = Some k -> lookup h d' nm' = Some k \/ (d' = d /\ nm' = nm /\ k = n).

Lemma reach_sub h h' a c : sub_edges h' h -> reach h' a c -> reach h a c.
Proof. intros Hs H. induction H; [apply reach_self|]. eapply reach_step; [eassumption|]. apply Hs. eassumption. Qed.
Lemma acyclic_sub h h' : sub_edges h' h -> acyclic h -> acyclic h'.
Proof. intros Hs Ha d nm e Hl Hr. apply (Ha d nm e); [now apply Hs|]. eapply reach_sub; eassumption. Qed.
Lemma reach_grow h h' d nm n a c : grows h h' d nm n -> reach h' a c -> reach h a c \/ (reach h a d /\ reach h n c).
Proof.
  intros Hg H. induction H as [|e nm0 k Hr IH Hl]; [left; apply reach_self|]. destruct (Hg _ _ _ Hl) as [Hold|(-> & -> & ->)].
  - destruct IH as [IH|[IH1 IH2]]; [left; eapply reach_step; eassumption|right; split; [exact IH1|eapply reach_step; eassumption]].
  - right. split; [|apply reach_self]. destruct IH as [IH|[IH _]]; exact IH.
Qed.
Lemma acyclic_grow h h' d nm n : grows h h' d nm n -> acyclic h -> ~ reach h n d -> acyclic h'.
Proof.
  intros Hg Ha Hn d0 nm0 e0 Hl Hr. apply (reach_grow h h' d nm n) in Hr; [|exact Hg]. destruct (Hg _ _ _ Hl) as [Hold|(-> & -> & ->)].
  - destruct Hr as [Hr|[Hr1 Hr2]]; [now apply (Ha d0 nm0 e0)|]. apply Hn. eapply reach_trans; [exact Hr2|]. eapply reach_trans; [apply (reach_one h d0 nm0 e0 Hold)|exact Hr1].
  - destruct Hr as [Hr|[Hr _]]; contradiction.
Qed.
Lemma grows_enter h d nm x : tree_inv h -> is_dir_at h d -> leaf_node x d nm -> grows h (fst (enter_new h d nm x)) d nm (next h).
Proof.
  intros H Hd Hx d' nm' k. rewrite lookup_enter by assumption. destruct (Nat.eqb d' d && bytes_eqb nm' nm) eqn:E; [|auto].
  apply andb_true_iff in E. destruct E as [E1 E2]. apply Nat.eqb_eq in E1. apply bytes_eqb_eq in E2. intros Ek. apply some_inj in Ek. auto.
Qed.
Lemma reach_fresh h c : tree_inv h -> reach h (next h) c -> c = next h.
Proof.
  intros H Hr. induction Hr as [|e nm n Hr IH Hl]; [reflexivity|]. subst e. apply lookup_dir in Hl. apply dir_old in Hl; [lia|exact H].
Qed.
Lemma acyclic_enter h d nm x : tree_inv h -> is_dir_at h d -> leaf_node x d nm -> acyclic h -> acyclic (fst (enter_new h d nm x)).
Proof.
  intros H Hd Hx Ha. eapply acyclic_grow; [now apply grows_enter|exact Ha|]. intros Hr. apply reach_fresh in Hr; [|exact H]. apply dir_old in Hd; [lia|exact H].
Qed.
Lemma acyclic_same h h' : (forall d nm, lookup h' d nm = lookup h d nm) -> acyclic h -> acyclic h'.
Proof. intros Hs. apply acyclic_sub. intros d nm n. now rewrite Hs. Qed.
Lemma fresh_lookup h t d nm : lookup (fst (fresh_view h t)) d nm = lookup h d nm.
Proof. reflexivity. Qed.
Lemma enter_file_eq h d nm mode t : enter_file h d nm mode t = enter_new (fst (fresh_view h t)) d nm (NFile (new_meta nm mode) (next_view h)).
Proof. reflexivity. Qed.
Lemma acyclic_file h d nm mode t : tree_inv h -> is_dir_at h d -> acyclic h -> acyclic (fst (enter_file h d nm mode t)).
Proof. intros H Hd Ha. rewrite enter_file_eq. apply acyclic_enter; [now apply inv_fresh|exact Hd|now split|]. now apply (acyclic_same h). Qed.
Lemma acyclic_displace h d base ex : acyclic h -> acyclic (displace h d base ex).
Proof. apply acyclic_sub, displace_sub. Qed.
Lemma grows_move h od ob n nd nb : is_dir_at h nd -> grows h (move h od ob n nd nb) nd nb n.
Proof.
  intros Hnd d' nm' k. unfold move. rewrite lookup_add by (apply retitle_dir, (same_core_dir _ _ _ (remove_core h od ob)), Hnd). rewrite retitle_lookup.
  destruct (Nat.eqb d' nd && bytes_eqb nm' nb) eqn:E.
  - apply andb_true_iff in E. destruct E as [E1 E2]. apply Nat.eqb_eq in E1. apply bytes_eqb_eq in E2. intros Ek. apply some_inj in Ek. auto.
  - intros Hl. left. now apply remove_sub in Hl.
Qed.

(* Depth. *)
Fixpoint chain (h : heap) (n : nat) (l : list nat) : Prop :=
  match l with [] => True | e :: l => (exists nm, lookup h n nm = Some e) /\ chain h e l end.
Lemma chain_reach h l : forall n e, chain h n l -> In e l -> exists nm k, lookup h n nm = Some k /\ reach h k e.
Proof.
  induction l as [|k l IH]; intros n e Hc Hin; [destruct Hin|]. destruct Hc as [[nm Hl] Hc]. exists nm, k. split; [exact Hl|]. destruct Hin as [-> | Hin]; [apply reach_self|].
  destruct (IH k e Hc Hin) as (nm2 & k2 & Hl2 & Hr). eapply reach_trans; [apply (reach_one h k nm2 k2 Hl2)|exact Hr].
Qed.
Lemma chain_nodup h l : acyclic h -> forall n, chain h n l -> NoDup l.
Proof.
  intros Ha. induction l as [|k l IH]; intros n Hc; [constructor|]. destruct Hc as [_ Hc]. constructor; [|eapply IH, Hc].
  intros Hin. destruct (chain_reach h l k k Hc Hin) as (nm & e & Hl & Hr). now apply (Ha k nm e).
Qed.
Lemma chain_old h l : tree_inv h -> forall n, chain h n l -> incl l (seq 0 (next h)).
Proof.
  intros H. induction l as [|k l IH]; intros n Hc e Hin; [destruct Hin|]. destruct Hc as [[nm Hl] Hc]. destruct Hin as [-> | Hin]; [|eapply IH; eassumption].
  apply in_seq. destruct (t_ent h H _ _ _ Hl) as (x & Hx & _). destruct (Nat.lt_ge_cases e (next h)) as [Hlt|Hge]; [lia|]. rewrite (t_fresh h H e Hge) in Hx. discriminate.
Qed.
Lemma chain_bound h n l : tree_inv h -> acyclic h -> chain h n l -> length l < S (next h).
Proof.
  intros H Ha Hc. pose proof (NoDup_incl_length (chain_nodup h l Ha n Hc) (chain_old h l H n Hc)) as Hl. rewrite seq_length in Hl. lia.
Qed.
Lemma chain_sub h h' l : sub_edges h' h -> forall n, chain h' n l -> chain h n l.
Proof. intros Hs. induction l as [|e l IH]; intros n Hc; [exact I|]. destruct Hc as [[nm Hl] Hc]. split; [exists nm; now apply Hs|now apply IH]. Qed.

Lemma remove_subtree_ends f : forall h n, keys_ok h -> (forall l, chain h n l -> length l < f) -> exists h', remove_subtree f h n = Some h'.
Proof.
  induction f as [|f IH]; intros h n Hk Hb; [specialize (Hb [] I); cbn in Hb; lia|]. cbn [remove_subtree]. destruct (nodes h n) as [[m p es|m v|m t]|] eqn:Hn; eauto.
  assert (forall es' h1, incl es' es -> emptied h h1 -> exists h2, fold_left (fun oh (e : list byte * nat) => match oh with None => None | Some h1 => remove_subtree f h1 (snd e) end) es' (Some h1) = Some h2) as Hfold.
  { induction es' as [|[nm e] es' IHe]; intros h1 Hin Hem; cbn [fold_left]; [eauto|].
    destruct (IH h1 e) as (h2 & E2).
    - intros d m' p' es2 Hd. destruct (em_nodes _ _ Hem d) as [Ed|(m1 & p1 & es1 & E1 & E1')]; [rewrite Ed in Hd; eapply Hk, Hd|]. assert (es2 = []) as -> by congruence. constructor.
    - intros l Hc. apply (chain_sub h) in Hc; [|now apply emptied_sub]. assert (chain h n (e :: l)) as Hc2.
      { split; [|exact Hc]. exists nm. unfold lookup. rewrite Hn. apply in_assoc; [eapply Hk, Hn|]. apply Hin. now left. }
      apply Hb in Hc2. cbn in Hc2. lia.
    - cbn [snd]. rewrite E2. apply IHe; [intros x Hx; apply Hin; now right|]. eapply emptied_trans; [exact Hem|]. eapply remove_subtree_emptied, E2. }
  destruct (Hfold es h (incl_refl es) (emptied_refl h)) as (h2 & ->). eauto.
Qed.
Lemma remove_subtree_total h n : tree_inv h -> acyclic h -> exists h', remove_subtree (S (next h)) h n = Some h'.
Proof. intros H Ha. apply remove_subtree_ends; [exact (t_keys h H)|]. intros l. now apply chain_bound. Qed.
Lemma acyclic_emptied h h' : emptied h h' -> acyclic h -> acyclic h'.
Proof. intros He. apply acyclic_sub. now apply emptied_sub. Qed.

(* Every call keeps the tree free of cycles, a rename when it does not move below itself. *)
Lemma acyclic_mkdir h b name mode : tree_inv h -> acyclic h -> acyclic (fst (mkdir h b name mode)).
Proof.
  intros H Ha. unfold mkdir. destruct (resolve_parent h b name) as [[d base]|e] eqn:E; [|exact Ha].
  apply resolve_parent_inside in E; [|exact H]. destruct (_ || _); [exact Ha|]. destruct (lookup h d base); [exact Ha|]. apply acyclic_enter; auto; [apply E|apply new_dir_leaf].
Qed.
Lemma acyclic_mkdir_loop b mode ps : forall h, tree_inv h -> acyclic h -> acyclic (fst (mkdir_all_loop h b ps mode)).
Proof.
  induction ps as [|p ps IH]; intros h H Ha; cbn [mkdir_all_loop]; [exact Ha|].
  pose proof (keeps_mkdir h b (join_sep p) mode H) as Hk. pose proof (acyclic_mkdir h b (join_sep p) mode H Ha) as Ha2. destruct (mkdir h b (join_sep p) mode) as [h1 [u|e]]; cbn [fst] in Hk, Ha2.
  - apply IH; [apply Hk|exact Ha2].
  - destruct e; try exact Ha2. destruct (resolve h1 b (join_sep p) true) as [f|e]; [|exact Ha2]. destruct (nodes h1 (f_node f)) as [[m q es| |]|]; try exact Ha2. apply IH; [apply Hk|exact Ha2].
Qed.
Lemma acyclic_symlink h b t name mode : tree_inv h -> acyclic h -> acyclic (fst (symlink h b t name mode)).
Proof.
  intros H Ha. unfold symlink. destruct (resolve_parent h b name) as [[d base]|e] eqn:E; [|exact Ha].
  apply resolve_parent_inside in E; [|exact H]. destruct (lookup h d base); [exact Ha|]. apply acyclic_enter; auto; [apply E|now split].
Qed.
Lemma acyclic_link h b old new : tree_inv h -> acyclic h -> acyclic (fst (link h b old new)).
Proof.
  intros H Ha. unfold link. destruct (resolve h b old true) as [f|e]; [|exact Ha]. destruct (nodes h (f_node f)) as [[m q es|m v|m t]|]; try exact Ha.
  destruct (resolve_parent h b new) as [[d base]|e] eqn:E; [|exact Ha].
  apply resolve_parent_inside in E; [|exact H]. destruct (lookup h d base); [exact Ha|]. apply acyclic_enter; auto; [apply E|now split].
Qed.
Lemma acyclic_removal busy h b name : acyclic h -> acyclic (fst (remove busy h b name)).
Proof.
  intros Ha. unfold remove. destruct (resolve_parent h b name) as [[d base]|e]; [|exact Ha]. destruct (lookup h d base) as [n|]; [|exact Ha].
  destruct (holds_something h n); [exact Ha|]. destruct (busy && _); [exact Ha|]. cbn [fst]. now apply (acyclic_displace h d base (Some n)).
Qed.
Lemma remove_all_total h b name : tree_inv h -> acyclic h -> exists h' r, remove_all (S (next h)) h b name = Some (h', r) /\ acyclic h'.
Proof.
  intros H Ha. unfold remove_all. destruct (ends_with_dot name); [eauto|]. destruct (normalize name) as [[|c l]|e]; eauto.
  destruct (resolve_parent h b name) as [[d base]|e]; eauto. destruct (lookup h d base) as [n|]; eauto. destruct (remove_subtree_total h n H Ha) as (h1 & E). rewrite E. do 2 eexists. split; [reflexivity|].
  eapply acyclic_sub; [apply remove_sub|]. eapply acyclic_emptied; [eapply remove_subtree_emptied, E|exact Ha].
Qed.
Lemma acyclic_rename h b old new : tree_inv h -> acyclic h -> ~ moves_below h b old new -> acyclic (fst (rename h b old new)).
Proof.
  intros H Ha Hm. rewrite rename_eq. destruct (resolve_parent h b old) as [[od ob]|] eqn:Eo; [|exact Ha]. destruct (lookup h od ob) as [n|] eqn:El; [|exact Ha].
  destruct (resolve_parent h b new) as [[nd nb]|] eqn:En; [|exact Ha]. destruct (match lookup h nd nb with Some x => _ | None => _ end); [exact Ha|]. cbn [fst].
  assert (~ reach h n nd) as Hr by (intros Hr; apply Hm; exists od, ob, n, nd, nb; repeat split; auto).
  apply resolve_parent_inside in En; [|exact H]. eapply acyclic_grow; [apply grows_move|now apply acyclic_displace|].
  - apply (same_core_dir _ _ _ (displace_core h nd nb (lookup h nd nb))), En.
  - intros Hr2. apply Hr. eapply reach_sub; [apply displace_sub|exact Hr2].
Qed.
Lemma bump_lookup h n d nm : lookup (bump h n) d nm = lookup h d nm.
Proof. unfold bump. destruct (nodes h n) as [x|] eqn:Hx; [now apply meta_lookup|reflexivity]. Qed.
Lemma drop_lookup h n d nm : lookup (drop_ref h n) d nm = lookup h d nm.
Proof. unfold drop_ref. destruct (nodes h n) as [x|] eqn:Hx; [now apply meta_lookup|reflexivity]. Qed.
Lemma open_existing_lookup h b name q d nm : lookup (fst (open_existing h b name q)) d nm = lookup h d nm.
Proof.
  unfold open_existing, open_node. destruct (resolve h b name true) as [f|]; [|reflexivity]. destruct (nodes h (f_node f)) as [[m p es|m v|m t]|]; try reflexivity.
  - destruct (o_write q); [reflexivity|apply bump_lookup].
  - destruct (o_opens q); [apply bump_lookup|reflexivity].
Qed.
Lemma acyclic_open h b name q : tree_inv h -> acyclic h -> acyclic (fst (open_file h b name q)).
Proof.
  intros H Ha. assert (acyclic (fst (open_existing h b name q))) as Hoe by (apply (acyclic_same h); [apply open_existing_lookup|exact Ha]).
  unfold open_file. destruct (o_create q); [|exact Hoe]. destruct (resolve_parent h b name) as [[d base]|] eqn:E; [|exact Ha].
  apply resolve_parent_inside in E; [|exact H]. destruct (lookup h d base).
  - destruct (o_excl q); [exact Ha|exact Hoe].
  - destruct (negb (o_allocs q)); [exact Ha|]. pose proof (acyclic_file h d base (o_mode q) (o_tag q) H (proj2 E) Ha) as Hk. destruct (enter_file _ _ _ _ _) as [h1 n]. cbn [fst] in Hk.
    unfold open_node. destruct (o_opens q); [|exact Hk]. apply (acyclic_same h1); [|exact Hk]. intros. apply bump_lookup.
Qed.
Lemma chmod_lookup h b name fo mode d nm : lookup (fst (chmod h b name fo mode)) d nm = lookup h d nm.
Proof. unfold chmod. destruct (resolve h b name fo) as [f|]; [|reflexivity]. destruct (nodes h (f_node f)) as [x|] eqn:Hx; [|reflexivity]. now apply meta_lookup. Qed.
Lemma acyclic_ensure_loop b mode ps : forall h par h' r, tree_inv h -> acyclic h -> ensure_loop h b ps mode par = (h', r) -> acyclic h'.
Proof.
  induction ps as [|p ps IH]; intros h par h' r H Ha E; cbn [ensure_loop] in E; [assert (h' = h) as -> by congruence; exact Ha|].
  assert (forall e, (h, @Err nat e) = (h', r) -> acyclic h') as Herr by (intros e He; assert (h' = h) as -> by congruence; exact Ha).
  destruct (resolve h b (join_sep p) true) as [f|e].
  - destruct (nodes h (f_node f)) as [[m q es| |]|] eqn:Hf; try (eapply Herr, E). eapply IH; [exact H|exact Ha|exact E].
  - destruct e; try (eapply Herr, E). destruct (resolve_parent h b (join_sep p)) as [[d base]|e] eqn:Ep; [|eapply Herr, E].
    apply resolve_parent_inside in Ep; [|exact H]. pose proof (inv_enter h d base (new_dir base mode d) H (proj2 Ep) (new_dir_leaf _ _ _)) as Hk. pose proof (acyclic_enter h d base (new_dir base mode d) H (proj2 Ep) (new_dir_leaf _ _ _) Ha) as Ha2.
    rewrite enter_eq in E, Hk, Ha2. cbn [fst] in Hk, Ha2. eapply IH; [exact Hk|exact Ha2|exact E].
Qed.
Lemma acyclic_ensure h b name mode h' r : tree_inv h -> acyclic h -> ensure_parents h b name mode = (h', r) -> acyclic h'.
Proof.
  intros H Ha. unfold ensure_parents. destruct (normalize name) as [[|c l]|e]; try (intros E; assert (h' = h) as -> by congruence; exact Ha).
  destruct (ensure_loop h b (heads [] (removelast (c :: l))) mode b) as [h1 [d|e]] eqn:E; apply acyclic_ensure_loop in E; auto; intros E2; assert (h' = h1) as -> by congruence; exact E.
Qed.
Lemma acyclic_add_file h b name t mode sc stats cb : tree_inv h -> is_dir_at h b -> acyclic h -> acyclic (fst (add_file h b name t mode sc stats cb)).
Proof.
  intros H Hb Ha. unfold add_file. destruct (negb stats); [exact Ha|]. destruct (ensure_parents h b name sc) as [h1 r1] eqn:E. pose proof (acyclic_ensure _ _ _ _ _ _ H Ha E) as Ha1. apply keeps_ensure in E; auto. destruct E as [Hk Hd].
  destruct r1 as [[d base]|e]; [|exact Ha1]. destruct (normalize name) as [comps|e]; [|exact Ha1]. destruct (cb comps false _) as [[]|]; try exact Ha1. cbn [fst].
  pose proof (keeps_displace h1 d base (lookup h1 d base) (proj1 Hk)) as Hk2. apply acyclic_file; [apply Hk2|apply Hk2; eapply Hd; reflexivity|now apply acyclic_displace].
Qed.
Lemma materialize_total h dst base mode ex ov : tree_inv h -> is_dir_at h dst -> acyclic h -> exists h' d, materialize_dir h dst base mode ex ov = Some (h', d) /\ acyclic h'.
Proof.
  intros H Hd Ha. unfold materialize_dir.
  assert (forall h1, keeps h h1 -> acyclic h1 -> exists h' d, Some (enter_new h1 dst base (new_dir base mode dst)) = Some (h', d) /\ acyclic h') as Henter.
  { intros h1 Hk Ha1. pose proof (acyclic_enter h1 dst base (new_dir base mode dst) (proj1 Hk) (proj2 Hk _ Hd) (new_dir_leaf _ _ _) Ha1) as Ha2. rewrite enter_eq in *. eauto. }
  destruct ex as [x|]; [|apply Henter; [now apply keeps_refl|exact Ha]]. destruct (existing_dir h x && negb ov); [eauto|]. cbn zeta.
  pose proof (keeps_remove h dst base H) as Hk. pose proof (acyclic_sub h (remove_entry h dst base) (remove_sub h dst base) Ha) as Ha1. destruct ov; [|now apply Henter].
  destruct (remove_subtree_total (remove_entry h dst base) x (proj1 Hk) Ha1) as (h2 & E). rewrite E. apply remove_subtree_emptied in E. apply Henter.
  - eapply keeps_trans; [exact Hk|]. apply keeps_emptied; [apply Hk|exact E].
  - now apply (acyclic_emptied (remove_entry h dst base)).
Qed.
Lemma descend_total cb d path cs :
  Forall (fun c => forall h dst base path, tree_inv h -> is_dir_at h dst -> acyclic h -> exists h' r, add_walk cb (snd c) h dst base path = Some (h', r) /\ acyclic h') cs ->
  forall h, tree_inv h -> is_dir_at h d -> acyclic h -> exists h' r, descend (add_walk cb) d path cs h = Some (h', r) /\ acyclic h'.
Proof.
  induction 1 as [|[nm c] cs Hc Hcs IH]; intros h H Hd Ha; [cbn; eauto|]. rewrite descend_cons. cbn [snd] in Hc. destruct (Hc h d nm (path ++ [nm]) H Hd Ha) as (h2 & r & E & Ha2). rewrite E. destruct r as [u|e]; [|eauto].
  pose proof (keeps_add_walk cb c _ _ _ _ _ _ H Hd E) as Hk. apply IH; [apply Hk|now apply Hk|exact Ha2].
Qed.
Lemma add_walk_total cb s : forall h dst base path, tree_inv h -> is_dir_at h dst -> acyclic h -> exists h' r, add_walk cb s h dst base path = Some (h', r) /\ acyclic h'.
Proof.
  induction s as [mode cs lists IH|mode t opens|mode t reads|] using source_ind'; intros h dst base path H Hd Ha; cbn [add_walk]; [| | |eauto].
  - set (ex := lookup h dst base) in *.
    assert (forall ov, exists h' r, match materialize_dir h dst base mode ex ov with None => None | Some (h1, d) => if lists then descend (add_walk cb) d path cs h1 else Some (h1, Err EOther) end = Some (h', r) /\ acyclic h') as Hov.
    { intros ov. destruct (materialize_total h dst base mode ex ov H Hd Ha) as (h1 & d & E & Ha1). rewrite E. destruct lists; [|eauto]. apply keeps_materialize in E; auto. destruct E as [Hk Hdd]. apply descend_total; [exact IH|apply Hk|exact Hdd|exact Ha1]. }
    destruct (cb path true _) as [[]|]; eauto.
  - set (ex := lookup h dst base) in *. destruct (cb path false _) as [dec|]; [|eauto].
    assert (acyclic (fst (enter_file (displace h dst base ex) dst base mode t))) as Hke.
    { pose proof (keeps_displace h dst base ex H) as Hk. apply acyclic_file; [apply Hk|now apply Hk|now apply acyclic_displace]. }
    destruct dec; [eauto| |]; (destruct (negb opens); [eauto|]); destruct ex as [x|]; try (do 2 eexists; split; [reflexivity|exact Hke]).
    do 2 eexists. split; [reflexivity|]. now apply (acyclic_same h).
  - set (ex := lookup h dst base) in *. destruct (cb path false _) as [dec|]; [|eauto].
    assert (acyclic (fst (enter_new (displace h dst base ex) dst base (NLink (new_meta base mode) t)))) as Hke.
    { pose proof (keeps_displace h dst base ex H) as Hk. apply acyclic_enter; [apply Hk|now apply Hk|now split|now apply acyclic_displace]. }
    destruct dec; [eauto| |]; (destruct (negb reads); [eauto|]); destruct ex as [x|]; eauto.
Qed.
Lemma add_fs_total h b name s sc cb : tree_inv h -> is_dir_at h b -> acyclic h -> exists h' r, add_fs h b name s sc cb = Some (h', r) /\ acyclic h'.
Proof.
  intros H Hb Ha. unfold add_fs. destruct (normalize name) as [[|c l]|e]; [| |eauto].
  - destruct s as [mode cs [] | | |]; eauto. apply descend_total; auto. apply Forall_forall. intros c _. apply add_walk_total.
  - destruct (ensure_parents h b name sc) as [h1 r1] eqn:E. pose proof (acyclic_ensure _ _ _ _ _ _ H Ha E) as Ha1. apply keeps_ensure in E; auto. destruct E as [Hk Hd].
    destruct r1 as [[d base]|e]; [|eauto]. apply add_walk_total; [apply Hk|eapply Hd; reflexivity|exact Ha1].
Qed.

Lemma step_total busy st o : state_ok st -> acyclic (st_heap st) -> sane_op st o -> exists st' r, step busy st o = Some (st', r) /\ acyclic (st_heap st').
Proof.
  intros [H Hr] Ha Hs.
  assert (forall i (f : nat -> option (heap * sres unit)), (forall b, nth_error (st_roots st) i = Some b -> is_dir_at (st_heap st) b -> exists h' r, f b = Some (h', r) /\ acyclic h') ->
    exists st' r, match nth_error (st_roots st) i with Some b => lift st (f b) | None => Some (st, Err EInval) end = Some (st', r) /\ acyclic (st_heap st')) as Hat.
  { intros i f Hf. destruct (nth_error (st_roots st) i) as [b|] eqn:Eb; [|eauto]. destruct (Hf b eq_refl) as (h' & r & -> & Ha').
    - eapply Forall_forall; [exact Hr|]. eapply nth_error_In, Eb.
    - cbn. do 2 eexists. split; [reflexivity|]. exact Ha'. }
  assert (forall x : heap * sres unit, acyclic (fst x) -> exists h' r, Some x = Some (h', r) /\ acyclic h') as Hp by (intros [h1 r1] Hx; eauto).
  destruct o; cbn [step]; try (apply Hat; cbn beta; intros b Eb Hb; try apply Hp).
  - now apply acyclic_mkdir.
  - unfold mkdir_all. destruct (normalize name); [now apply acyclic_mkdir_loop|exact Ha].
  - now apply acyclic_symlink.
  - now apply acyclic_link.
  - now apply acyclic_removal.
  - now apply remove_all_total.
  - apply acyclic_rename; auto.
  - now apply acyclic_open.
  - do 2 eexists. split; [reflexivity|]. cbn. apply (acyclic_same (st_heap st)); [|exact Ha]. intros. apply drop_lookup.
  - apply (acyclic_same (st_heap st)); [|exact Ha]. intros. apply chmod_lookup.
  - destruct (nth_error (st_roots st) i) as [b|]; [|eauto]. destruct (open_root (st_heap st) b name); eauto.
  - now apply acyclic_add_file.
  - now apply add_fs_total.
Qed.
Lemma run_total busy os : forall st, state_ok st -> acyclic (st_heap st) -> sane busy st os -> exists st', run busy st os = Some st' /\ acyclic (st_heap st').
Proof.
  induction os as [|o os IH]; intros st H Ha Hs; [cbn; eauto|]. destruct Hs as [Hs1 Hs2]. destruct (step_total busy st o H Ha Hs1) as (st1 & r & E & Ha1). cbn. rewrite E in *. apply IH; [eapply step_ok; eassumption|exact Ha1|exact Hs2].
Qed.
Lemma new_acyclic mode : acyclic (st_heap (new_state mode)).
Proof. intros d nm e. unfold lookup. cbn. destruct (Nat.eqb d 0); discriminate. Qed.

(* Names stay proper. *)
Definition named (h h' : heap) : Prop := forall d nm k, lookup h' d nm = Some k -> lookup h d nm <> None \/ proper nm.
Lemma named_sub h h' : sub_edges h' h -> named h h'.
Proof. intros H d nm k Hl. left. apply H in Hl. congruence. Qed.
Lemma named_same h h' : (forall d nm, lookup h' d nm = lookup h d nm) -> named h h'.
Proof. intros H. apply named_sub. intros d nm k. now rewrite H. Qed.
Lemma named_refl h : named h h.
Proof. now apply named_same. Qed.
Lemma named_trans a b c : named a b -> named b c -> named a c.
Proof. intros H1 H2 d nm k Hl. destruct (H2 _ _ _ Hl) as [Hb|Hp]; [|now right]. destruct (lookup b d nm) as [x|] eqn:E; [|contradiction]. eapply H1, E. Qed.
Lemma named_grow h h' d nm n : grows h h' d nm n -> proper nm -> named h h'.
Proof. intros Hg Hp d' nm' k Hl. destruct (Hg _ _ _ Hl) as [Ho|(-> & -> & ->)]; [left; congruence|now right]. Qed.
Lemma named_enter h d nm x : tree_inv h -> is_dir_at h d -> leaf_node x d nm -> proper nm -> named h (fst (enter_new h d nm x)).
Proof. intros H Hd Hx Hp. eapply named_grow; [now apply grows_enter|exact Hp]. Qed.
Lemma named_file h d nm mode t : tree_inv h -> is_dir_at h d -> proper nm -> named h (fst (enter_file h d nm mode t)).
Proof. intros H Hd Hp. rewrite enter_file_eq. apply (named_enter (fst (fresh_view h t))); [now apply inv_fresh|exact Hd|now split|exact Hp]. Qed.
Lemma named_displace h d base ex : named h (displace h d base ex).
Proof. apply named_sub, displace_sub. Qed.

Lemma named_mkdir h b name mode : tree_inv h -> named h (fst (mkdir h b name mode)).
Proof.
  intros H. unfold mkdir. destruct (resolve_parent h b name) as [[d base]|e] eqn:E; [|apply named_refl]. pose proof (resolve_parent_base _ _ _ _ _ E) as Hp.
  apply resolve_parent_inside in E; [|exact H]. destruct (_ || _); [apply named_refl|]. destruct (lookup h d base); [apply named_refl|]. apply named_enter; auto; [apply E|apply new_dir_leaf].
Qed.
Lemma named_mkdir_loop b mode ps : forall h, tree_inv h -> named h (fst (mkdir_all_loop h b ps mode)).
Proof.
  induction ps as [|p ps IH]; intros h H; cbn [mkdir_all_loop]; [apply named_refl|].
  pose proof (keeps_mkdir h b (join_sep p) mode H) as Hk. pose proof (named_mkdir h b (join_sep p) mode H) as Ha2. destruct (mkdir h b (join_sep p) mode) as [h1 [u|e]]; cbn [fst] in Hk, Ha2.
  - eapply named_trans; [exact Ha2|apply IH, Hk].
  - destruct e; try exact Ha2. destruct (resolve h1 b (join_sep p) true) as [f|e]; [|exact Ha2]. destruct (nodes h1 (f_node f)) as [[m q es| |]|]; try exact Ha2. eapply named_trans; [exact Ha2|apply IH, Hk].
Qed.
Lemma named_symlink h b t name mode : tree_inv h -> named h (fst (symlink h b t name mode)).
Proof.
  intros H. unfold symlink. destruct (resolve_parent h b name) as [[d base]|e] eqn:E; [|apply named_refl]. pose proof (resolve_parent_base _ _ _ _ _ E) as Hp.
  apply resolve_parent_inside in E; [|exact H]. destruct (lookup h d base); [apply named_refl|]. apply named_enter; auto; [apply E|now split].
Qed.
Lemma named_link h b old new : tree_inv h -> named h (fst (link h b old new)).
Proof.
  intros H. unfold link. destruct (resolve h b old true) as [f|e]; [|apply named_refl]. destruct (nodes h (f_node f)) as [[m q es|m v|m t]|]; try apply named_refl.
  destruct (resolve_parent h b new) as [[d base]|e] eqn:E; [|apply named_refl]. pose proof (resolve_parent_base _ _ _ _ _ E) as Hp.
  apply resolve_parent_inside in E; [|exact H]. destruct (lookup h d base); [apply named_refl|]. apply named_enter; auto; [apply E|now split].
Qed.
Lemma named_removal busy h b name : named h (fst (remove busy h b name)).
Proof.
  unfold remove. destruct (resolve_parent h b name) as [[d base]|e]; [|apply named_refl]. destruct (lookup h d base) as [n|]; [|apply named_refl].
  destruct (holds_something h n); [apply named_refl|]. destruct (busy && _); [apply named_refl|]. apply (named_displace h d base (Some n)).
Qed.
Lemma named_remove_all fuel h b name h' r : remove_all fuel h b name = Some (h', r) -> named h h'.
Proof.
  unfold remove_all. assert (forall r' : sres unit, Some (h, r') = Some (h', r) -> named h h') as Hsame by (intros r' E; assert (h' = h) as -> by congruence; apply named_refl).
  destruct (ends_with_dot name); [apply Hsame|]. destruct (normalize name) as [[|c l]|e]; try apply Hsame.
  destruct (resolve_parent h b name) as [[d base]|e]; try apply Hsame. destruct (lookup h d base) as [n|]; try apply Hsame. destruct (remove_subtree fuel h n) as [h1|] eqn:E; [|discriminate].
  intros E1. assert (h' = remove_entry h1 d base) as -> by congruence. eapply named_trans; [eapply named_sub, emptied_sub, remove_subtree_emptied, E|apply named_sub, remove_sub].
Qed.
Lemma named_rename h b old new : tree_inv h -> named h (fst (rename h b old new)).
Proof.
  intros H. rewrite rename_eq. destruct (resolve_parent h b old) as [[od ob]|] eqn:Eo; [|apply named_refl]. destruct (lookup h od ob) as [n|] eqn:El; [|apply named_refl].
  destruct (resolve_parent h b new) as [[nd nb]|] eqn:En; [|apply named_refl]. destruct (match lookup h nd nb with Some x => _ | None => _ end); [apply named_refl|]. cbn [fst].
  pose proof (resolve_parent_base _ _ _ _ _ En) as Hp. apply resolve_parent_inside in En; [|exact H]. eapply named_trans; [apply (named_displace h nd nb (lookup h nd nb))|]. eapply named_grow; [apply grows_move|exact Hp].
  apply (same_core_dir _ _ _ (displace_core h nd nb (lookup h nd nb))), En.
Qed.
Lemma named_open h b name q : tree_inv h -> named h (fst (open_file h b name q)).
Proof.
  intros H. assert (named h (fst (open_existing h b name q))) as Hoe by (apply named_same, open_existing_lookup).
  unfold open_file. destruct (o_create q); [|exact Hoe]. destruct (resolve_parent h b name) as [[d base]|] eqn:E; [|apply named_refl]. pose proof (resolve_parent_base _ _ _ _ _ E) as Hp.
  apply resolve_parent_inside in E; [|exact H]. destruct (lookup h d base).
  - destruct (o_excl q); [apply named_refl|exact Hoe].
  - destruct (negb (o_allocs q)); [apply named_refl|]. pose proof (named_file h d base (o_mode q) (o_tag q) H (proj2 E) Hp) as Hk. destruct (enter_file _ _ _ _ _) as [h1 n]. cbn [fst] in Hk.
    unfold open_node. destruct (o_opens q); [|exact Hk]. eapply named_trans; [exact Hk|]. apply named_same. intros. apply bump_lookup.
Qed.
Lemma named_ensure_loop b mode ps : forall h par h' r, tree_inv h -> ensure_loop h b ps mode par = (h', r) -> named h h'.
Proof.
  induction ps as [|p ps IH]; intros h par h' r H E; cbn [ensure_loop] in E; [assert (h' = h) as -> by congruence; apply named_refl|].
  assert (forall e, (h, @Err nat e) = (h', r) -> named h h') as Herr by (intros e He; assert (h' = h) as -> by congruence; apply named_refl).
  destruct (resolve h b (join_sep p) true) as [f|e].
  - destruct (nodes h (f_node f)) as [[m q es| |]|] eqn:Hf; try (eapply Herr, E). eapply IH; [exact H|exact E].
  - destruct e; try (eapply Herr, E). destruct (resolve_parent h b (join_sep p)) as [[d base]|e] eqn:Ep; [|eapply Herr, E]. pose proof (resolve_parent_base _ _ _ _ _ Ep) as Hp.
    apply resolve_parent_inside in Ep; [|exact H]. pose proof (inv_enter h d base (new_dir base mode d) H (proj2 Ep) (new_dir_leaf _ _ _)) as Hk. pose proof (named_enter h d base (new_dir base mode d) H (proj2 Ep) (new_dir_leaf _ _ _) Hp) as Ha2.
    rewrite enter_eq in E, Hk, Ha2. cbn [fst] in Hk, Ha2. eapply named_trans; [exact Ha2|]. eapply IH; [exact Hk|exact E].
Qed.
Lemma named_ensure h b name mode h' r : tree_inv h -> ensure_parents h b name mode = (h', r) -> named h h' /\ forall d base, r = Ok (d, base) -> proper base.
Proof.
  intros H. unfold ensure_parents. destruct (normalize name) as [[|c l]|e] eqn:En; try (intros E; assert (h' = h) as -> by congruence; split; [apply named_refl|intros; congruence]). apply normalize_proper in En.
  destruct (ensure_loop h b (heads [] (removelast (c :: l))) mode b) as [h1 [d|e]] eqn:E; apply named_ensure_loop in E; auto; intros E2; assert (h' = h1) as -> by congruence; split; try exact E; intros d0 b0 E0.
  - assert (b0 = last (c :: l) []) as -> by congruence. now apply last_proper.
  - congruence.
Qed.
Lemma named_add_file h b name t mode sc stats cb : tree_inv h -> is_dir_at h b -> named h (fst (add_file h b name t mode sc stats cb)).
Proof.
  intros H Hb. unfold add_file. destruct (negb stats); [apply named_refl|]. destruct (ensure_parents h b name sc) as [h1 r1] eqn:E. pose proof (named_ensure _ _ _ _ _ _ H E) as [Hn Hp]. apply keeps_ensure in E; auto. destruct E as [Hk Hd].
  destruct r1 as [[d base]|e]; [|exact Hn]. destruct (normalize name) as [comps|e]; [|exact Hn]. destruct (cb comps false _) as [[]|]; try exact Hn. cbn [fst].
  pose proof (keeps_displace h1 d base (lookup h1 d base) (proj1 Hk)) as Hk2. eapply named_trans; [exact Hn|]. eapply named_trans; [apply (named_displace h1 d base (lookup h1 d base))|].
  apply named_file; [apply Hk2|apply Hk2; eapply Hd; reflexivity|eapply Hp; reflexivity].
Qed.
Lemma named_materialize h dst base mode ex ov h' d : tree_inv h -> is_dir_at h dst -> proper base -> materialize_dir h dst base mode ex ov = Some (h', d) -> named h h'.
Proof.
  intros H Hd Hp. unfold materialize_dir.
  assert (forall h1, keeps h h1 -> named h h1 -> Some (enter_new h1 dst base (new_dir base mode dst)) = Some (h', d) -> named h h') as Henter.
  { intros h1 Hk Hn E. pose proof (named_enter h1 dst base (new_dir base mode dst) (proj1 Hk) (proj2 Hk _ Hd) (new_dir_leaf _ _ _) Hp) as Ha2. rewrite enter_eq in *. cbn [fst] in Ha2.
    apply some_inj in E. apply (f_equal fst) in E. cbn [fst] in E. subst h'. now apply (named_trans _ _ _ Hn). }
  destruct ex as [x|]; [|apply Henter; [now apply keeps_refl|apply named_refl]]. destruct (existing_dir h x && negb ov); [intros E; assert (h' = h) as -> by congruence; apply named_refl|]. cbn zeta.
  pose proof (keeps_remove h dst base H) as Hk. pose proof (named_sub h (remove_entry h dst base) (remove_sub h dst base)) as Hn. destruct ov; [|now apply Henter].
  destruct (remove_subtree _ (remove_entry h dst base) x) as [h2|] eqn:E; [|discriminate]. apply remove_subtree_emptied in E. apply Henter.
  - eapply keeps_trans; [exact Hk|]. apply keeps_emptied; [apply Hk|exact E].
  - eapply named_trans; [exact Hn|]. apply named_sub. now apply emptied_sub.
Qed.
Lemma named_descend cb d path cs :
  Forall (fun c => source_ok (snd c) -> forall h dst base path h' r, tree_inv h -> is_dir_at h dst -> proper base -> add_walk cb (snd c) h dst base path = Some (h', r) -> named h h') cs ->
  Forall (fun c => proper (fst c) /\ source_ok (snd c)) cs ->
  forall h h' r, tree_inv h -> is_dir_at h d -> descend (add_walk cb) d path cs h = Some (h', r) -> named h h'.
Proof.
  induction 1 as [|[nm c] cs Hc Hcs IH]; intros Hok h h' r H Hd E; [cbn in E; assert (h' = h) as -> by congruence; apply named_refl|].
  inversion Hok as [|? ? [Hp Hs] Hok2]; subst. cbn [fst snd] in *. rewrite descend_cons in E. destruct (add_walk cb c h d nm (path ++ [nm])) as [[h2 [u|e]]|] eqn:Ew; [| |discriminate].
  - pose proof (keeps_add_walk cb c _ _ _ _ _ _ H Hd Ew) as Hk. eapply named_trans; [eapply Hc; eassumption|]. eapply IH; [exact Hok2|apply Hk|now apply Hk|exact E].
  - assert (h' = h2) as -> by congruence. eapply Hc; eassumption.
Qed.
Lemma named_add_walk cb s : source_ok s -> forall h dst base path h' r, tree_inv h -> is_dir_at h dst -> proper base -> add_walk cb s h dst base path = Some (h', r) -> named h h'.
Proof.
  induction s as [mode cs lists IH|mode t opens|mode t reads|] using source_ind'; intros Hok h dst base path h' r H Hd Hp E; cbn [add_walk] in E;
    assert (forall r', Some (h, r') = Some (h', r) -> named h h') as Hsame by (intros r' E'; assert (h' = h) as -> by congruence; apply named_refl).
  - inversion Hok as [? ? ? _ Hcs| | |]; subst. set (ex := lookup h dst base) in *. assert (forall ov, match materialize_dir h dst base mode ex ov with None => None | Some (h1, d) => if lists then descend (add_walk cb) d path cs h1 else Some (h1, Err EOther) end = Some (h', r) -> named h h') as Hov.
    { intros ov E'. destruct (materialize_dir h dst base mode ex ov) as [[h1 d]|] eqn:Em; [|discriminate]. pose proof (named_materialize _ _ _ _ _ _ _ _ H Hd Hp Em) as Hn. apply keeps_materialize in Em; auto. destruct Em as [Hk Hdd]. destruct lists.
      - eapply named_trans; [exact Hn|]. eapply named_descend; [exact IH|exact Hcs|apply Hk|exact Hdd|exact E'].
      - assert (h' = h1) as -> by congruence. exact Hn. }
    destruct (cb path true _) as [[]|]; try (eapply Hsame, E); eapply Hov, E.
  - set (ex := lookup h dst base) in *. destruct (cb path false _) as [dec|]; [|eapply Hsame, E].
    assert (named h (fst (enter_file (displace h dst base ex) dst base mode t))) as Hke.
    { pose proof (keeps_displace h dst base ex H) as Hk. eapply named_trans; [apply named_displace|]. apply named_file; [apply Hk|now apply Hk|exact Hp]. }
    destruct dec; [eapply Hsame, E| |]; (destruct (negb opens); [eapply Hsame, E|]); destruct ex as [x|]; try (match type of E with Some (?a, _) = _ => assert (h' = a) as -> by congruence end; exact Hke).
    destruct (fresh_view h t) as [h1 v] eqn:Ev. assert (h' = close_view h1 v) as -> by congruence. assert (h1 = fst (fresh_view h t)) as -> by now rewrite Ev. now apply named_same.
  - set (ex := lookup h dst base) in *. destruct (cb path false _) as [dec|]; [|eapply Hsame, E].
    assert (named h (fst (enter_new (displace h dst base ex) dst base (NLink (new_meta base mode) t)))) as Hke.
    { pose proof (keeps_displace h dst base ex H) as Hk. eapply named_trans; [apply named_displace|]. apply named_enter; [apply Hk|now apply Hk|now split|exact Hp]. }
    destruct dec; [eapply Hsame, E| |]; (destruct (negb reads); [eapply Hsame, E|]); destruct ex as [x|]; try (eapply Hsame, E); try (match type of E with Some (?a, _) = _ => assert (h' = a) as -> by congruence end; exact Hke).
  - eapply Hsame, E.
Qed.
Lemma named_add_fs h b name s sc cb h' r : source_ok s -> tree_inv h -> is_dir_at h b -> add_fs h b name s sc cb = Some (h', r) -> named h h'.
Proof.
  intros Hok H Hb. unfold add_fs. assert (forall r', Some (h, r') = Some (h', r) -> named h h') as Hsame by (intros r' E'; assert (h' = h) as -> by congruence; apply named_refl).
  destruct (normalize name) as [[|c l]|e]; [| |apply Hsame].
  - destruct s as [mode cs [] | | |]; try apply Hsame. inversion Hok as [? ? ? _ Hcs| | |]; subst. apply named_descend; auto. apply Forall_forall. intros c _. apply named_add_walk.
  - destruct (ensure_parents h b name sc) as [h1 r1] eqn:E. pose proof (named_ensure _ _ _ _ _ _ H E) as [Hn Hp]. apply keeps_ensure in E; auto. destruct E as [Hk Hd].
    destruct r1 as [[d base]|e].
    + intros E. eapply named_trans; [exact Hn|]. eapply named_add_walk; [exact Hok|apply Hk|eapply Hd; reflexivity|eapply Hp; reflexivity|exact E].
    + intros E. assert (h' = h1) as -> by congruence. exact Hn.
Qed.

Lemma step_named busy st o st' r : state_ok st -> source_op_ok o -> step busy st o = Some (st', r) -> named (st_heap st) (st_heap st').
Proof.
  intros [H Hr] Hs E.
  assert (forall i (f : nat -> option (heap * sres unit)), (forall b h', is_dir_at (st_heap st) b -> f b = Some (h', r) -> named (st_heap st) h') ->
    match nth_error (st_roots st) i with Some b => lift st (f b) | None => Some (st, Err EInval) end = Some (st', r) -> named (st_heap st) (st_heap st')) as Hat.
  { intros i f Hf E'. destruct (nth_error (st_roots st) i) as [b|] eqn:Eb.
    - destruct (f b) as [[h1 r1]|] eqn:Ef; [|discriminate]. cbn in E'. assert (st' = with_heap st h1 /\ r1 = r) as [-> ->] by (split; congruence). apply (Hf b h1); [|exact Ef]. eapply Forall_forall; [exact Hr|]. eapply nth_error_In, Eb.
    - assert (st' = st) as -> by congruence. apply named_refl. }
  destruct o; cbn [step] in E; try (eapply Hat; [|exact E]; cbn beta; intros b h' Hb Ef;
    try (match type of Ef with Some ?x = Some _ => assert (h' = fst x) as -> by now replace x with (h', r) by congruence end)).
  - now apply named_mkdir.
  - unfold mkdir_all. destruct (normalize name); [now apply named_mkdir_loop|apply named_refl].
  - now apply named_symlink.
  - now apply named_link.
  - now apply named_removal.
  - eapply named_remove_all; eassumption.
  - now apply named_rename.
  - cbn [ignore fst]. now apply named_open.
  - assert (st' = with_heap st (drop_ref (st_heap st) n)) as -> by congruence. apply named_same. intros. apply drop_lookup.
  - apply named_same. intros. apply chmod_lookup.
  - destruct (nth_error (st_roots st) i) as [b|] eqn:Eb; [|assert (st' = st) as -> by congruence; apply named_refl]. destruct (open_root (st_heap st) b name) as [d|e] eqn:Eo; [|assert (st' = st) as -> by congruence; apply named_refl].
    match type of E with Some (?a, _) = _ => assert (st' = a) as -> by congruence end. apply named_refl.
  - now apply named_add_file.
  - eapply named_add_fs; eassumption.
Qed.
Lemma run_named busy os : forall st st', state_ok st -> good_names (st_heap st) -> Forall source_op_ok os -> run busy st os = Some st' -> good_names (st_heap st').
Proof.
  induction os as [|o os IH]; intros st st' H Hg Hs E; cbn in E; [apply some_inj in E; now subst|]. inversion Hs as [|? ? Ho Hos]; subst.
  destruct (step busy st o) as [[st1 r]|] eqn:Es; [|discriminate]. apply (IH st1 st'); auto; [eapply step_ok; eassumption|].
  intros d nm n Hl. destruct (step_named busy st o st1 r H Ho Es d nm n Hl) as [Hold|Hp]; [|exact Hp]. destruct (lookup (st_heap st) d nm) as [k|] eqn:Ek; [|contradiction]. eapply Hg, Ek.
Qed.

Lemma listing_lookup h d nm : tree_inv h -> (In nm (listing h d) <-> lookup h d nm <> None).
Proof.
  intros H. unfold listing, entries. unfold lookup at 1. destruct (nodes h d) as [[m p es| |]|] eqn:Hd; try (cbn; split; [tauto|congruence]).
  assert (forall k n, In (k, n) es -> match nodes h n with Some x => m_name (meta_of x) | None => [] end = k) as Hname.
  { intros k n Hin. destruct (t_ent h H d k n) as (x & Hx & Hn & _); [unfold lookup; rewrite Hd; apply in_assoc; [eapply (t_keys h H), Hd|exact Hin]|]. now rewrite Hx. }
  split.
  - intros Hin. apply in_map_iff in Hin. destruct Hin as ([k n] & E & Hin). cbn [snd] in E. rewrite (Hname k n Hin) in E. subst k. rewrite (in_assoc nm es n); [discriminate|eapply (t_keys h H), Hd|exact Hin].
  - intros Hl. destruct (assoc nm es) as [n|] eqn:E; [|contradiction]. apply assoc_in in E. apply in_map_iff. exists (nm, n). split; [|exact E]. cbn [snd]. now apply Hname.
Qed.
Lemma listing_nodup h d : tree_inv h -> NoDup (listing h d).
Proof.
  intros H. unfold listing, entries. destruct (nodes h d) as [[m p es| |]|] eqn:Hd; try constructor.
  rewrite (map_ext_in _ fst); [eapply (t_keys h H), Hd|]. intros [k n] Hin. cbn [fst snd]. destruct (t_ent h H d k n) as (x & Hx & Hn & _); [unfold lookup; rewrite Hd; apply in_assoc; [eapply (t_keys h H), Hd|exact Hin]|]. now rewrite Hx.
Qed.
