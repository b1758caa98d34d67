(* What the single calls of synthfs do to the entry they name. *)
From Verif Require Import Common CommonLemmas ContentRange_Model PathLex_Model PathLex_Proofs Synth_Model Synth_Spec Synth_Proofs SynthTree_Proofs SynthPath_Proofs.
Open Scope nat_scope.

Lemma entered_new h d nm x : tree_inv h -> is_dir_at h d -> leaf_node x d nm -> lookup h d nm = None -> entered h (fst (enter_new h d nm x)) d nm (look_of x).
Proof.
  intros H Hd Hx Hn. split; [exact Hn|]. exists (next h). split; [apply (t_fresh h H); lia|].
  assert (nodes (fst (enter_new h d nm x)) (next h) = Some x) as Hnode.
  { rewrite enter_eq. cbn [fst]. assert (d <> next h) as Hne by (intros ->; destruct Hd as (m & p & es & E); rewrite (t_fresh h H) in E by lia; discriminate).
    unfold add_entry. destruct (nodes (fst (alloc h x)) d) as [[m p es| |]|]; cbn; try (rewrite setf_same; reflexivity). rewrite setf_other by congruence. apply setf_same. }
  split; [|split].
  - rewrite lookup_enter by assumption. now rewrite Nat.eqb_refl, bytes_eqb_refl.
  - unfold seen. now rewrite Hnode.
  - unfold entries. rewrite Hnode. destruct x; try reflexivity. apply Hx.
Qed.

Lemma entered_file h d nm mode t : tree_inv h -> is_dir_at h d -> lookup h d nm = None -> entered h (fst (enter_file h d nm mode t)) d nm (LookFile mode (next_view h)).
Proof. intros H Hd Hn. rewrite enter_file_eq. apply (entered_new (fst (fresh_view h t)) d nm (NFile (new_meta nm mode) (next_view h))); [now apply inv_fresh|exact Hd|now split|exact Hn]. Qed.
Lemma entered_bump h h' d nm mode v n : entered h h' d nm (LookFile mode v) -> entered h (bump h' n) d nm (LookFile mode v).
Proof.
  intros (Hn & k & Hk & Hl & Hs & He). split; [exact Hn|]. exists k. split; [exact Hk|]. split; [now rewrite bump_lookup|]. split.
  - rewrite <- Hs. apply seen_bump. unfold seen in Hs. destruct (nodes h' k); [discriminate|discriminate Hs].
  - unfold entries, bump. destruct (nodes h' n) as [x|] eqn:Hx; [|exact He]. cbn. unfold setf. destruct (Nat.eqb_spec k n) as [-> |]; [|exact He]. unfold entries in He. rewrite Hx in He. destruct x; cbn; auto.
Qed.
Lemma tag_add h d nm n : tag (add_entry h d nm n) = tag h.
Proof. unfold add_entry. destruct (nodes h d) as [[| |]|]; reflexivity. Qed.
Lemma tag_bump h n : tag (bump h n) = tag h.
Proof. unfold bump. destruct (nodes h n); reflexivity. Qed.
Lemma tag_file h d nm mode t : tag (fst (enter_file h d nm mode t)) (next_view h) = t.
Proof. rewrite enter_file_eq, enter_eq. cbn [fst]. rewrite tag_add. cbn. apply setf_same. Qed.

Lemma mkdir_effect h b name mode h' r i : tree_inv h -> mkdir h b name mode = (h', r) ->
  match r with Err _ => h' = h | Ok _ => exists d base, resolve_parent h b name = Ok (d, base) /\ effect h b (OMkdir i name mode) h' d base end.
Proof.
  intros H. unfold mkdir. assert (forall e, (h, Err e) = (h', r) -> match r with Err _ => h' = h | Ok _ => exists d base, resolve_parent h b name = Ok (d, base) /\ effect h b (OMkdir i name mode) h' d base end) as Herr
    by (intros e E; assert (h' = h /\ r = Err e) as [-> ->] by (split; congruence); reflexivity).
  unfold mkdir in *. destruct (resolve_parent h b name) as [[d base]|e] eqn:E; try apply Herr. destruct (_ || _); try apply Herr. destruct (lookup h d base) eqn:El; try apply Herr.
  intros E2. assert (r = Ok tt) as -> by congruence. assert (h' = fst (enter_new h d base (new_dir base mode d))) as -> by congruence. exists d, base. split; [reflexivity|]. cbn [effect].
  apply resolve_parent_inside in E; [|exact H]. apply (entered_new h d base (new_dir base mode d)); auto; [apply E|apply new_dir_leaf].
Qed.
Lemma symlink_effect h b t name mode h' r i : tree_inv h -> symlink h b t name mode = (h', r) ->
  match r with Err _ => h' = h | Ok _ => exists d base, resolve_parent h b name = Ok (d, base) /\ effect h b (OSymlink i t name mode) h' d base end.
Proof.
  intros H. unfold symlink. assert (forall e, (h, Err e) = (h', r) -> match r with Err _ => h' = h | Ok _ => exists d base, resolve_parent h b name = Ok (d, base) /\ effect h b (OSymlink i t name mode) h' d base end) as Herr
    by (intros e E; assert (h' = h /\ r = Err e) as [-> ->] by (split; congruence); reflexivity).
  destruct (resolve_parent h b name) as [[d base]|e] eqn:E; try apply Herr. destruct (lookup h d base) eqn:El; try apply Herr.
  intros E2. assert (r = Ok tt) as -> by congruence. assert (h' = fst (enter_new h d base (NLink (new_meta base mode) t))) as -> by congruence. exists d, base. split; [reflexivity|]. cbn [effect].
  apply resolve_parent_inside in E; [|exact H]. apply (entered_new h d base (NLink (new_meta base mode) t)); auto; [apply E|now split].
Qed.
Lemma link_effect h b old name h' r i : tree_inv h -> link h b old name = (h', r) ->
  match r with Err _ => h' = h | Ok _ => exists d base, resolve_parent h b name = Ok (d, base) /\ effect h b (OLink i old name) h' d base end.
Proof.
  intros H. unfold link. assert (forall e, (h, Err e) = (h', r) -> match r with Err _ => h' = h | Ok _ => exists d base, resolve_parent h b name = Ok (d, base) /\ effect h b (OLink i old name) h' d base end) as Herr
    by (intros e E; assert (h' = h /\ r = Err e) as [-> ->] by (split; congruence); reflexivity).
  destruct (resolve h b old true) as [f|e] eqn:Ef; try apply Herr. destruct (nodes h (f_node f)) as [[m p es|m v|m t]|] eqn:Hf; try apply Herr.
  destruct (resolve_parent h b name) as [[d base]|e] eqn:E; try apply Herr. destruct (lookup h d base) eqn:El; try apply Herr.
  intros E2. assert (r = Ok tt) as -> by congruence. assert (h' = fst (enter_new h d base (NFile (new_meta base (m_mode m)) v))) as -> by congruence. exists d, base. split; [reflexivity|]. cbn [effect].
  apply resolve_parent_inside in E; [|exact H]. exists f, (m_mode m), v. split; [exact Ef|]. split; [unfold seen; now rewrite Hf|]. apply (entered_new h d base (NFile (new_meta base (m_mode m)) v)); auto; [apply E|now split].
Qed.
Lemma remove_effect busy h b name h' r i : remove busy h b name = (h', r) ->
  match r with Err _ => h' = h | Ok _ => exists d base, resolve_parent h b name = Ok (d, base) /\ effect h b (ORemove i name) h' d base end.
Proof.
  unfold remove. assert (forall e, (h, Err e) = (h', r) -> match r with Err _ => h' = h | Ok _ => exists d base, resolve_parent h b name = Ok (d, base) /\ effect h b (ORemove i name) h' d base end) as Herr
    by (intros e E; assert (h' = h /\ r = Err e) as [-> ->] by (split; congruence); reflexivity).
  destruct (resolve_parent h b name) as [[d base]|e] eqn:E; try apply Herr. destruct (lookup h d base) as [n|] eqn:El; try apply Herr. destruct (holds_something h n) eqn:Eh; try apply Herr. destruct (busy && _); try apply Herr.
  intros E2. assert (r = Ok tt) as -> by congruence. assert (h' = displace h d base (Some n)) as -> by (cbn; congruence). exists d, base. split; [reflexivity|]. cbn [effect]. split.
  - rewrite displace_lookup. now rewrite Nat.eqb_refl, bytes_eqb_refl.
  - exists n. split; [exact El|]. unfold holds_something in Eh. unfold entries. destruct (nodes h n) as [[m p [|]| |]|]; try reflexivity. discriminate.
Qed.
Lemma remove_all_effect fuel h b name h' r i : remove_all fuel h b name = Some (h', r) ->
  match r with Err _ => h' = h | Ok _ => exists d base, resolve_parent h b name = Ok (d, base) /\ effect h b (ORemoveAll i name) h' d base end.
Proof.
  unfold remove_all. assert (forall e, Some (h, Err e) = Some (h', r) -> match r with Err _ => h' = h | Ok _ => exists d base, resolve_parent h b name = Ok (d, base) /\ effect h b (ORemoveAll i name) h' d base end) as Herr
    by (intros e E; assert (h' = h /\ r = Err e) as [-> ->] by (split; congruence); reflexivity).
  destruct (ends_with_dot name); try apply Herr. destruct (normalize name) as [[|c l]|e]; try apply Herr.
  destruct (resolve_parent h b name) as [[d base]|e] eqn:E; try apply Herr. destruct (lookup h d base) as [n|] eqn:El.
  - destruct (remove_subtree fuel h n) as [h1|]; [|discriminate]. intros E2. assert (r = Ok tt) as -> by congruence. assert (h' = remove_entry h1 d base) as -> by congruence. exists d, base. split; [reflexivity|]. cbn [effect].
    rewrite lookup_remove. now rewrite Nat.eqb_refl, bytes_eqb_refl.
  - intros E2. assert (r = Ok tt) as -> by congruence. assert (h' = h) as -> by congruence. exists d, base. split; [reflexivity|exact El].
Qed.
Lemma open_existing_err h b name q h' e : open_existing h b name q = (h', Err e) -> h' = h.
Proof.
  unfold open_existing, open_node. destruct (resolve h b name true) as [f|]; [|congruence]. destruct (nodes h (f_node f)) as [[m p es|m v|m t]|]; try congruence; [destruct (o_write q); congruence|destruct (o_opens q); congruence].
Qed.
Lemma open_effect h b name q h' r i : tree_inv h -> ignore (open_file h b name q) = (h', r) ->
  match r with
  | Err _ => h' = h \/ (o_create q = true /\ o_opens q = false)
  | Ok _ => (o_create q = false \/ exists d base, resolve_parent h b name = Ok (d, base)) /\ forall d base, resolve_parent h b name = Ok (d, base) -> effect h b (OOpen i name q) h' d base
  end.
Proof.
  intros H E. destruct (open_file h b name q) as [h1 r1] eqn:Eo. unfold ignore in E. cbn [fst snd] in E. assert (h' = h1) as -> by congruence. assert (r = match r1 with Ok _ => Ok tt | Err e => Err e end) as -> by congruence. clear E.
  unfold open_file in Eo. destruct (o_create q) eqn:Ec.
  - destruct (resolve_parent h b name) as [[d base]|e] eqn:Ep; [|assert (h1 = h) as -> by congruence; assert (r1 = Err e) as -> by congruence; now left].
    destruct (lookup h d base) as [n|] eqn:El.
    + destruct (o_excl q) eqn:Ex; [assert (h1 = h) as -> by congruence; assert (r1 = Err EExist) as -> by congruence; now left|].
      pose proof (open_existing_lookup h b name q d base) as Hlk. rewrite Eo in Hlk. cbn [fst] in Hlk. destruct r1 as [x|e]; [|left; eapply open_existing_err, Eo]. split; [right; eauto|].
      intros d0 b0 E0. assert (d0 = d /\ b0 = base) as [-> ->] by (split; congruence). cbn [effect]. rewrite Ec, El. split; [exact Ex|congruence].
    + destruct (negb (o_allocs q)); [assert (h1 = h) as -> by congruence; assert (r1 = Err EOther) as -> by congruence; now left|].
      pose proof (resolve_parent_inside _ _ _ _ _ H Ep) as [_ Hd].
      destruct (enter_file h d base (o_mode q) (o_tag q)) as [h2 n] eqn:Ee. unfold open_node in Eo. destruct (o_opens q) eqn:Eop; [|assert (r1 = Err EOther) as -> by congruence; right; auto].
      assert (r1 = Ok n) as -> by congruence. assert (h1 = bump h2 n) as -> by congruence. split; [right; eauto|]. intros d0 b0 E0. assert (d0 = d /\ b0 = base) as [-> ->] by (split; congruence). cbn [effect]. rewrite Ec, El.
      pose proof (entered_file h d base (o_mode q) (o_tag q) H Hd El) as Hent. pose proof (tag_file h d base (o_mode q) (o_tag q)) as Ht. rewrite Ee in Hent, Ht. cbn [fst] in Hent, Ht. split; [now apply entered_bump|]. now rewrite tag_bump.
  - pose proof (fun d base => open_existing_lookup h b name q d base) as Hlk. rewrite Eo in Hlk. cbn [fst] in Hlk. destruct r1 as [x|e]; [|left; eapply open_existing_err, Eo]. split; [now left|].
    intros d base _. cbn [effect]. rewrite Ec. apply Hlk.
Qed.


Lemma step_effect busy st o st' r i name b : state_ok st -> step busy st o = Some (st', r) -> named_by o = Some (i, name) -> nth_error (st_roots st) i = Some b ->
  match r with
  | Err _ => st' = st \/ half_created o
  | Ok _ => match resolve_parent (st_heap st) b name with
            | Ok (d, base) => effect (st_heap st) b o (st_heap st') d base
            | Err _ => exists q, o = OOpen i name q /\ o_create q = false
            end
  end.
Proof.
  intros [H _] E Hn Eb. assert (forall h', h' = st_heap st -> with_heap st h' = st) as Hst by (intros h' ->; now destruct st).
  destruct o; cbn [named_by] in Hn; try discriminate; match type of Hn with Some (?x, ?y) = _ => assert (x = i /\ y = name) as [-> ->] by (split; congruence) end; cbn [step] in E; rewrite Eb in E.
  - destruct (mkdir (st_heap st) b name mode) as [h' r'] eqn:Ed. cbn [lift] in E. assert (st' = with_heap st h' /\ r' = r) as [-> ->] by (split; congruence). apply (mkdir_effect _ _ _ _ _ _ i) in Ed; [|exact H]. destruct r; [destruct Ed as (d & base & -> & Hd); exact Hd|left; now apply Hst].
  - destruct (symlink (st_heap st) b target name mode) as [h' r'] eqn:Ed. cbn [lift] in E. assert (st' = with_heap st h' /\ r' = r) as [-> ->] by (split; congruence). apply (symlink_effect _ _ _ _ _ _ _ i) in Ed; [|exact H]. destruct r; [destruct Ed as (d & base & -> & Hd); exact Hd|left; now apply Hst].
  - destruct (link (st_heap st) b old name) as [h' r'] eqn:Ed. cbn [lift] in E. assert (st' = with_heap st h' /\ r' = r) as [-> ->] by (split; congruence). apply (link_effect _ _ _ _ _ _ i) in Ed; [|exact H]. destruct r; [destruct Ed as (d & base & -> & Hd); exact Hd|left; now apply Hst].
  - destruct (remove busy (st_heap st) b name) as [h' r'] eqn:Ed. cbn [lift] in E. assert (st' = with_heap st h' /\ r' = r) as [-> ->] by (split; congruence). apply (remove_effect _ _ _ _ _ _ i) in Ed. destruct r; [destruct Ed as (d & base & -> & Hd); exact Hd|left; now apply Hst].
  - destruct (remove_all (S (next (st_heap st))) (st_heap st) b name) as [[h' r']|] eqn:Ed; [|discriminate]. cbn [lift] in E. assert (st' = with_heap st h' /\ r' = r) as [-> ->] by (split; congruence). apply (remove_all_effect _ _ _ _ _ _ i) in Ed. destruct r; [destruct Ed as (d & base & -> & Hd); exact Hd|left; now apply Hst].
  - destruct (ignore (open_file (st_heap st) b name q)) as [h' r'] eqn:Ed. cbn [lift] in E. assert (st' = with_heap st h' /\ r' = r) as [-> ->] by (split; congruence). apply (open_effect _ _ _ _ _ _ i) in Ed; [|exact H]. destruct r.
    + destruct Ed as [Hc Hd]. destruct (resolve_parent (st_heap st) b name) as [[d base]|e]; [now apply Hd|]. destruct Hc as [Hc|(d & base & Hx)]; [eauto|discriminate].
    + destruct Ed as [Ed|Ed]; [left; now apply Hst|right; exact Ed].
Qed.

Lemma resolve_run_inside busy mode os st i b name fo f : run busy (new_state mode) os = Some st -> nth_error (st_roots st) i = Some b -> resolve (st_heap st) b name fo = Ok f -> found_in (st_heap st) b f.
Proof. intros E _. apply resolve_inside. eapply run_ok; [apply (new_ok mode)|exact E]. Qed.
Lemma resolve_parent_run busy mode os st i b name d base : run busy (new_state mode) os = Some st -> nth_error (st_roots st) i = Some b -> resolve_parent (st_heap st) b name = Ok (d, base) -> reach (st_heap st) b d /\ is_dir_at (st_heap st) d /\ proper base.
Proof.
  intros E _ Ep. assert (state_ok st) as [H _] by (eapply run_ok; [apply (new_ok mode)|exact E]). pose proof (resolve_parent_base _ _ _ _ _ Ep). apply resolve_parent_inside in Ep; [tauto|exact H].
Qed.
Lemma open_root_inside busy mode os st i b name d : run busy (new_state mode) os = Some st -> nth_error (st_roots st) i = Some b -> open_root (st_heap st) b name = Ok d -> reach (st_heap st) b d /\ is_dir_at (st_heap st) d.
Proof.
  intros E _. assert (state_ok st) as [H _] by (eapply run_ok; [apply (new_ok mode)|exact E]). unfold open_root. destruct (resolve (st_heap st) b name true) as [f|] eqn:Er; [|discriminate]. apply resolve_inside in Er; [|exact H].
  destruct (nodes (st_heap st) (f_node f)) as [[m p es| |]|] eqn:Hf; try discriminate. intros Ed. assert (d = f_node f) as -> by congruence. split; [apply Er|]. now exists m, p, es.
Qed.
Lemma resolve_posix busy mode os st i b name fo f : run busy (new_state mode) os = Some st -> nth_error (st_roots st) i = Some b ->
  (resolve (st_heap st) b name fo = Ok f <-> exists comps k, normalize name = Ok comps /\ k <= max_hops /\ namei (st_heap st) b fo k b comps f).
Proof.
  intros E Eb. assert (state_ok st) as [H Hr] by (eapply run_ok; [apply (new_ok mode)|exact E]). unfold resolve. destruct (normalize name) as [comps|e].
  - split.
    + intros Ew. apply walk_namei in Ew; [|exact H|apply reach_self]. destruct Ew as (k & Hk & Hn). now exists comps, k.
    + intros (comps' & k & Ec & Hk & Hn). assert (comps' = comps) as -> by congruence. eapply namei_walk; eauto. eapply Forall_forall; [exact Hr|]. eapply nth_error_In, Eb.
  - split; [discriminate|]. intros (comps & k & Ec & _). discriminate.
Qed.

Lemma chmod_effect h b name fo mode h' r : chmod h b name fo mode = (h', r) ->
  match r with
  | Err _ => h' = h
  | Ok _ => exists f, resolve h b name fo = Ok f /\ (forall d nm, lookup h' d nm = lookup h d nm) /\ (forall n, n <> f_node f -> seen h' n = seen h n) /\ seen h' (f_node f) = option_map (set_mode mode) (seen h (f_node f))
  end.
Proof.
  intros E. pose proof (chmod_lookup h b name fo mode) as Hlk. rewrite E in Hlk. cbn [fst] in Hlk. unfold chmod in E. destruct (resolve h b name fo) as [f|e]; [|assert (r = Err e) as -> by congruence; congruence].
  destruct (nodes h (f_node f)) as [x|] eqn:Hx; (assert (r = Ok tt) as -> by congruence); exists f; (split; [reflexivity|]); (split; [exact Hlk|]).
  - match type of E with (?a, _) = _ => assert (h' = a) as -> by congruence end. unfold seen. split.
    + intros n Hn. cbn. now rewrite setf_other by congruence.
    + cbn. rewrite setf_same, Hx. cbn. now destruct x.
  - assert (h' = h) as -> by congruence. split; [reflexivity|]. unfold seen. now rewrite Hx.
Qed.

Lemma rename_moves st b old new h' r : state_ok st -> acyclic (st_heap st) -> is_dir_at (st_heap st) b -> rename (st_heap st) b old new = (h', r) -> ~ moves_below (st_heap st) b old new ->
  let h := st_heap st in
  match r with
  | Err _ => h' = h
  | Ok _ => exists od ob n nd nb, rename_ends h b old new od ob n nd nb /\ reach h b od /\ reach h b nd /\ (forall x, lookup h nd nb = Some x -> entries h x = []) /\ forall a, is_dir_at h a -> moved h h' a od ob n nd nb
  end.
Proof.
  intros [H _] Ha Hb E Hm. cbn zeta. apply rename_cells in E; [|exact H]. destruct r; [|exact E]. destruct E as (od & ob & n & nd & nb & Hends & Hrep & Hlk & Hs). exists od, ob, n, nd, nb.
  pose proof Hends as (Eo & El & En). apply resolve_parent_inside in Eo; [|exact H]. apply resolve_parent_inside in En; [|exact H].
  split; [exact Hends|]. split; [apply Eo|]. split; [apply En|]. split; [exact Hrep|]. intros c Hc.
  assert (~ reach (st_heap st) n nd) as Hnm by (intros Hx; apply Hm; exists od, ob, n, nd, nb; split; assumption).
  destruct (rename_paths (st_heap st) b old new h' od ob n nd nb H Ha Hends Hnm Hrep Hlk c) as (H1 & H2 & H3). split; [|split].
  - intros l Hlo Hln. apply same_at_intro; auto.
  - intros q. split; [apply H2|]. unfold seen_at. rewrite H2. destruct (at_path (st_heap st) n q) as [k|] eqn:Ek; [|reflexivity]. apply Hs. destruct (t_ent _ H _ _ _ El) as (x & Hx & _).
    destruct q as [|c0 q] using rev_ind; [cbn in Ek; apply some_inj in Ek; congruence|]. rewrite at_snoc in Ek. destruct (at_path (st_heap st) n q) as [e|]; [|discriminate]. destruct (t_ent _ H _ _ _ Ek) as (y & Hy & _). congruence.
  - exact H3.
Qed.

(* Histories and their sanity. *)
Definition no_rename (o : sop) : bool := match o with ORename _ _ _ => false | _ => true end.
Lemma sane_prefix busy os : forall st st1 os2, forallb no_rename os = true -> run busy st os = Some st1 -> sane busy st1 os2 -> sane busy st (os ++ os2).
Proof.
  induction os as [|o os IH]; intros st st1 os2 Hf E Hs; cbn in *; [assert (st1 = st) as -> by congruence; exact Hs|]. apply andb_true_iff in Hf. destruct Hf as [Ho Hf].
  split; [destruct o; try exact I; discriminate|]. destruct (step busy st o) as [[st2 r]|]; [|exact I]. eapply IH; eassumption.
Qed.
Lemma top_unlisted h d n : tree_inv h -> is_dir_at h d -> parent_of h d = None -> reach h n d -> n = d.
Proof.
  intros H (m & p & es & Hd) Hp Hr. inversion Hr as [|e nm ? Hre Hl]; subst; [reflexivity|]. destruct (t_ent h H e nm d Hl) as (x & Hx & _ & Hpar). rewrite Hd in Hx. apply some_inj in Hx. subst x. rewrite Hpar in Hp by reflexivity. discriminate.
Qed.
Lemma sane_to_top h b old new od ob n nd nb : tree_inv h -> rename_ends h b old new od ob n nd nb -> is_dir_at h nd -> parent_of h nd = None -> n <> nd -> ~ moves_below h b old new.
Proof.
  intros H (E1 & E2 & E3) Hd Hp Hn (od' & ob' & n' & nd' & nb' & (E1' & E2' & E3') & Hr). assert (od' = od /\ ob' = ob) as [-> ->] by (split; congruence). assert (n' = n) as -> by congruence. assert (nd' = nd) as -> by congruence.
  apply Hn. eapply top_unlisted; eassumption.
Qed.
Lemma run_tree busy mode os st : run busy (new_state mode) os = Some st -> tree_inv (st_heap st).
Proof. intros E. eapply run_ok; [apply (new_ok mode)|exact E]. Qed.
Lemma run_listing busy mode os st d nm : run busy (new_state mode) os = Some st -> NoDup (listing (st_heap st) d) /\ (In nm (listing (st_heap st) d) <-> lookup (st_heap st) d nm <> None).
Proof. intros E. apply run_tree in E. split; [now apply listing_nodup|now apply listing_lookup]. Qed.
Lemma run_proper busy mode os st : Forall source_op_ok os -> run busy (new_state mode) os = Some st -> good_names (st_heap st).
Proof. intros Hs E. eapply run_named; [apply (new_ok mode)| |exact Hs|exact E]. intros d nm n. unfold lookup. cbn. destruct (Nat.eqb d 0); discriminate. Qed.
Lemma run_ends busy mode os : sane busy (new_state mode) os -> exists st, run busy (new_state mode) os = Some st /\ acyclic (st_heap st).
Proof. apply run_total; [apply new_ok|apply new_acyclic]. Qed.
Lemma run_acyclic busy mode os st : sane busy (new_state mode) os -> run busy (new_state mode) os = Some st -> acyclic (st_heap st).
Proof. intros Hs E. destruct (run_ends busy mode os Hs) as (st' & E' & Ha). assert (st = st') as -> by congruence. exact Ha. Qed.
Lemma run_effect busy mode os st o st' r i name b : run busy (new_state mode) os = Some st -> step busy st o = Some (st', r) -> named_by o = Some (i, name) -> nth_error (st_roots st) i = Some b ->
  match r with
  | Err _ => st' = st \/ half_created o
  | Ok _ => match resolve_parent (st_heap st) b name with
            | Ok (d, base) => effect (st_heap st) b o (st_heap st') d base
            | Err _ => exists q, o = OOpen i name q /\ o_create q = false
            end
  end.
Proof. intros E. apply step_effect. eapply run_ok; [apply (new_ok mode)|exact E]. Qed.
Lemma run_touches_only busy mode os st o st' r i name b : sane busy (new_state mode) os -> run busy (new_state mode) os = Some st ->
  step busy st o = Some (st', r) -> named_by o = Some (i, name) -> nth_error (st_roots st) i = Some b ->
  forall a, is_dir_at (st_heap st) a ->
  match resolve_parent (st_heap st) b name with
  | Err _ => forall l, same_at (st_heap st) (st_heap st') a l
  | Ok (d, base) => (forall n, lookup (st_heap st) d base = Some n -> ~ reach (st_heap st) n a) ->
      forall l, (forall lp, at_path (st_heap st) a lp = Some d -> ~ prefix_of (lp ++ [base]) l) -> same_at (st_heap st) (st_heap st') a l
  end.
Proof. intros Hs E. apply touches_only; [eapply run_ok; [apply (new_ok mode)|exact E]|eapply run_acyclic; eassumption]. Qed.
Lemma run_mkdir_all busy mode os st b name m h' r i : run busy (new_state mode) os = Some st -> nth_error (st_roots st) i = Some b -> mkdir_all (st_heap st) b name m = (h', r) ->
  (forall a, is_dir_at (st_heap st) a -> keeps_all (st_heap st) h' a) /\ (r = Ok tt -> exists f, resolve h' b name true = Ok f /\ is_dir_at h' (f_node f)).
Proof.
  intros E Eb. assert (state_ok st) as [H Hr] by (eapply run_ok; [apply (new_ok mode)|exact E]). apply mkdir_all_spec; [exact H|]. eapply Forall_forall; [exact Hr|]. eapply nth_error_In, Eb.
Qed.
Lemma run_rename busy mode os st i old new b h' r : sane busy (new_state mode) os -> run busy (new_state mode) os = Some st -> nth_error (st_roots st) i = Some b ->
  rename (st_heap st) b old new = (h', r) -> ~ moves_below (st_heap st) b old new ->
  let h := st_heap st in
  match r with
  | Err _ => h' = h
  | Ok _ => exists od ob n nd nb, rename_ends h b old new od ob n nd nb /\ reach h b od /\ reach h b nd /\ (forall x, lookup h nd nb = Some x -> entries h x = []) /\ forall a, is_dir_at h a -> moved h h' a od ob n nd nb
  end.
Proof.
  intros Hs E Eb Er Hm. assert (state_ok st) as Hst by (eapply run_ok; [apply (new_ok mode)|exact E]). eapply rename_moves; try eassumption; [eapply run_acyclic; eassumption|]. eapply Forall_forall; [apply Hst|]. eapply nth_error_In, Eb.
Qed.
Lemma rename_fails h b old new h' e : tree_inv h -> rename h b old new = (h', Err e) -> h' = h.
Proof. intros H E. apply rename_cells in E; [exact E|exact H]. Qed.
