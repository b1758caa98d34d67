(* C52 for synthfs: a node's reference count is the number of its open handles. *)
From Verif Require Import Common CommonLemmas ContentRange_Model PathLex_Model Synth_Model SynthHandles_Model SynthHandles_Spec.
Open Scope nat_scope.

Definition fresh (h : heap) : Prop := forall n, next h <= n -> nodes h n = None.
(* No reference count changes. *)
Definition calm (h h' : heap) : Prop := fresh h -> fresh h' /\ forall n, ref_of h' n = ref_of h n.
Lemma calm_refl h : calm h h.
Proof. intros F. auto. Qed.
Lemma calm_trans a b c : calm a b -> calm b c -> calm a c.
Proof. intros H1 H2 F. destruct (H1 F) as [F1 R1]. destruct (H2 F1) as [F2 R2]. split; [exact F2|]. intros n. rewrite R2. apply R1. Qed.
Lemma calm_set h n x y : nodes h n = Some x -> m_ref (meta_of y) = m_ref (meta_of x) -> calm h (set_node h n y).
Proof.
  intros Hx Hm F. split.
  - intros k Hk. cbn in *. unfold setf. destruct (Nat.eqb_spec k n) as [-> | _]; [rewrite (F n Hk) in Hx; discriminate|apply F; exact Hk].
  - intros k. unfold ref_of. cbn. unfold setf. destruct (Nat.eqb_spec k n) as [-> | _]; [rewrite Hx; exact Hm|reflexivity].
Qed.
Lemma calm_close h v : calm h (close_view h v).
Proof. intros F. split; [exact F|reflexivity]. Qed.
Lemma calm_fresh_view h t : calm h (fst (fresh_view h t)).
Proof. intros F. split; [exact F|reflexivity]. Qed.
Lemma calm_add h d nm n : calm h (add_entry h d nm n).
Proof. unfold add_entry. destruct (nodes h d) as [[m p es|m v|m t]|] eqn:E; try apply calm_refl. eapply calm_set; [exact E|reflexivity]. Qed.
Lemma calm_remove h d nm : calm h (remove_entry h d nm).
Proof. unfold remove_entry. destruct (nodes h d) as [[m p es|m v|m t]|] eqn:E; try apply calm_refl. eapply calm_set; [exact E|reflexivity]. Qed.
Lemma calm_alloc h x : m_ref (meta_of x) = 0 -> calm h (fst (alloc h x)).
Proof.
  intros Hx F. split.
  - intros k Hk. cbn in *. unfold setf. destruct (Nat.eqb_spec k (next h)) as [-> | _]; [lia|apply F; lia].
  - intros k. unfold ref_of. cbn. unfold setf. destruct (Nat.eqb_spec k (next h)) as [-> | _]; [rewrite (F (next h)) by lia; exact Hx|reflexivity].
Qed.
Lemma calm_enter h d nm x : m_ref (meta_of x) = 0 -> calm h (fst (enter_new h d nm x)).
Proof. intros Hx. unfold enter_new. pose proof (calm_alloc h x Hx) as C. destruct (alloc h x) as [h1 n]. cbn in *. eapply calm_trans; [exact C|apply calm_add]. Qed.
Lemma calm_enter_file h d nm mode t : calm h (fst (enter_file h d nm mode t)).
Proof.
  unfold enter_file. pose proof (calm_fresh_view h t) as C. destruct (fresh_view h t) as [h1 v]. cbn [fst] in C.
  eapply calm_trans; [exact C|]. apply calm_enter. reflexivity.
Qed.
Lemma calm_close_if h n : calm h (close_if_file h n).
Proof. unfold close_if_file. destruct (nodes h n) as [[m p es|m v|m t]|]; try apply calm_refl. apply calm_close. Qed.
Lemma calm_displace h d base ex : calm h (displace h d base ex).
Proof. destruct ex; [|apply calm_refl]. eapply calm_trans; [apply calm_remove|apply calm_close_if]. Qed.
Lemma calm_retitle h n d nm : calm h (retitle h n d nm).
Proof. unfold retitle. destruct (nodes h n) as [x|] eqn:E; [|apply calm_refl]. eapply calm_set; [exact E|]. destruct x; reflexivity. Qed.

Lemma calm_mkdir h b name mode : calm h (fst (mkdir h b name mode)).
Proof.
  unfold mkdir. destruct (resolve_parent h b name) as [[d base]|]; [|apply calm_refl].
  destruct (is_empty base || is_dot base || is_dotdot base); [apply calm_refl|]. destruct (lookup h d base); [apply calm_refl|].
  cbn [fst]. apply calm_enter. reflexivity.
Qed.
Lemma calm_mkdir_all h b name mode : calm h (fst (mkdir_all h b name mode)).
Proof.
  unfold mkdir_all. destruct (normalize name) as [comps|]; [|apply calm_refl]. generalize (heads [] comps). intros ps.
  revert h. induction ps as [|p ps IH]; intros h; [apply calm_refl|]. cbn [mkdir_all_loop].
  pose proof (calm_mkdir h b (join_sep p) mode) as C. destruct (mkdir h b (join_sep p) mode) as [h1 [u|e]]; cbn [fst] in C.
  - eapply calm_trans; [exact C|apply IH].
  - destruct e; try exact C. destruct (resolve h1 b (join_sep p) true) as [f|]; [|exact C].
    destruct (nodes h1 (f_node f)) as [[m q es|m v|m t]|]; try exact C. eapply calm_trans; [exact C|apply IH].
Qed.
Lemma calm_symlink h b target name mode : calm h (fst (symlink h b target name mode)).
Proof.
  unfold symlink. destruct (resolve_parent h b name) as [[d base]|]; [|apply calm_refl].
  destruct (lookup h d base); [apply calm_refl|]. cbn [fst]. apply calm_enter. reflexivity.
Qed.
Lemma calm_link h b o n : calm h (fst (link h b o n)).
Proof.
  unfold link. destruct (resolve h b o true) as [f|]; [|apply calm_refl].
  destruct (nodes h (f_node f)) as [[m p es|m v|m t]|]; try apply calm_refl.
  destruct (resolve_parent h b n) as [[d base]|]; [|apply calm_refl]. destruct (lookup h d base); [apply calm_refl|].
  cbn [fst]. apply calm_enter. reflexivity.
Qed.
Lemma calm_rm bc h b name : calm h (fst (remove bc h b name)).
Proof.
  unfold remove. destruct (resolve_parent h b name) as [[d base]|]; [|apply calm_refl].
  destruct (lookup h d base) as [n|]; [|apply calm_refl]. destruct (holds_something h n); [apply calm_refl|].
  destruct (bc && _); [apply calm_refl|]. cbn [fst]. eapply calm_trans; [apply calm_remove|apply calm_close_if].
Qed.
Lemma calm_subtree fuel : forall h n h', remove_subtree fuel h n = Some h' -> calm h h'.
Proof.
  induction fuel as [|f IH]; intros h n h' E; [discriminate|]. cbn [remove_subtree] in E.
  destruct (nodes h n) as [[m p es|m v|m t]|]; try (apply some_inj in E; subst h'; first [apply calm_refl|apply calm_close]).
  assert (G : forall l h0 h1, fold_left (fun (oh : option heap) (e : list N * nat) => match oh with None => None | Some h1 => remove_subtree f h1 (snd e) end) l (Some h0) = Some h1 -> calm h0 h1).
  { induction l as [|e l IHl]; intros h0 h1 El; cbn in El; [apply some_inj in El; subst; apply calm_refl|].
    destruct (remove_subtree f h0 (snd e)) as [h2|] eqn:E2.
    - eapply calm_trans; [apply (IH _ _ _ E2)|apply IHl; exact El].
    - exfalso. clear - El. induction l as [|x l IHl]; cbn in El; [discriminate|auto]. }
  destruct (fold_left _ es (Some h)) as [h1|] eqn:E1; [|discriminate]. specialize (G _ _ _ E1). apply some_inj in E. subst h'.
  eapply calm_trans; [exact G|]. destruct (nodes h1 n) as [[m' p' es'|m' v|m' t]|] eqn:N; try apply calm_refl.
  eapply calm_set; [exact N|reflexivity].
Qed.
Lemma calm_rm_all fuel h b name h' r : remove_all fuel h b name = Some (h', r) -> calm h h'.
Proof.
  unfold remove_all. destruct (ends_with_dot name); [intros E; replace h' with h by congruence; apply calm_refl|].
  destruct (normalize name) as [comps|]; [|intros E; replace h' with h by congruence; apply calm_refl].
  destruct comps as [|c comps]; [intros E; replace h' with h by congruence; apply calm_refl|].
  destruct (resolve_parent h b name) as [[d base]|]; [|intros E; replace h' with h by congruence; apply calm_refl].
  destruct (lookup h d base) as [n|]; [|intros E; replace h' with h by congruence; apply calm_refl].
  destruct (remove_subtree fuel h n) as [h1|] eqn:E1; [|discriminate]. intros E.
  replace h' with (remove_entry h1 d base) by congruence. eapply calm_trans; [apply (calm_subtree _ _ _ _ E1)|apply calm_remove].
Qed.
Lemma calm_rename h b o n : calm h (fst (rename h b o n)).
Proof.
  unfold rename. destruct (resolve_parent h b o) as [[od ob]|]; [|apply calm_refl].
  destruct (lookup h od ob) as [x|]; [|apply calm_refl]. destruct (resolve_parent h b n) as [[nd nb]|]; [|apply calm_refl].
  assert (G : forall h1, calm h1 (add_entry (retitle (remove_entry h1 od ob) x nd nb) nd nb x)).
  { intros h1. eapply calm_trans; [apply calm_remove|]. eapply calm_trans; [apply calm_retitle|apply calm_add]. }
  destruct (lookup h nd nb) as [y|]; cbn [fst]; [|apply G].
  destruct (holds_something h y); [apply calm_refl|]. cbn [fst].
  eapply calm_trans; [apply calm_remove|]. eapply calm_trans; [apply calm_close_if|apply G].
Qed.
Lemma calm_chmod h b name fl mode : calm h (fst (chmod h b name fl mode)).
Proof.
  unfold chmod. destruct (resolve h b name fl) as [f|]; [|apply calm_refl].
  destruct (nodes h (f_node f)) as [x|] eqn:E; [|apply calm_refl]. eapply calm_set; [exact E|]. destruct x; reflexivity.
Qed.
Lemma calm_ensure b mode ps : forall h d, calm h (fst (ensure_loop h b ps mode d)).
Proof.
  induction ps as [|p ps IH]; intros h d; [apply calm_refl|]. cbn [ensure_loop].
  destruct (resolve h b (join_sep p) true) as [f|e].
  - destruct (nodes h (f_node f)) as [[m q es|m v|m t]|]; try apply calm_refl. apply IH.
  - destruct e; try apply calm_refl. destruct (resolve_parent h b (join_sep p)) as [[d' base]|]; [|apply calm_refl].
    pose proof (calm_enter h d' base (new_dir base mode d') eq_refl) as C. destruct (enter_new h d' base (new_dir base mode d')) as [h1 n].
    eapply calm_trans; [exact C|apply IH].
Qed.
Lemma calm_parents h b name mode : calm h (fst (ensure_parents h b name mode)).
Proof.
  unfold ensure_parents. destruct (normalize name) as [[|c comps]|]; try apply calm_refl.
  pose proof (calm_ensure b mode (heads [] (removelast (c :: comps))) h b) as C.
  destruct (ensure_loop h b _ mode b) as [h1 [d|e]]; exact C.
Qed.
Lemma calm_add_file h b name t mode sc stats cb : calm h (fst (add_file h b name t mode sc stats cb)).
Proof.
  unfold add_file. destruct (negb stats); [apply calm_refl|]. pose proof (calm_parents h b name sc) as C.
  destruct (ensure_parents h b name sc) as [h1 [[d base]|e]]; [|exact C].
  destruct (normalize name) as [comps|]; [|exact C]. cbn zeta. destruct (cb comps false _) as [[| |]|]; try exact C.
  cbn [fst]. eapply calm_trans; [exact C|]. eapply calm_trans; [apply calm_displace|apply calm_enter_file].
Qed.
Lemma calm_materialize h dst base mode ex ov h' d : materialize_dir h dst base mode ex ov = Some (h', d) -> calm h h'.
Proof.
  assert (G : forall h0, calm h0 (fst (enter_new h0 dst base (new_dir base mode dst)))) by (intros; apply calm_enter; reflexivity).
  unfold materialize_dir. destruct ex as [x|].
  - destruct (existing_dir h x && negb ov); [intros E; replace h' with h by congruence; apply calm_refl|]. cbn zeta.
    pose proof (calm_remove h dst base) as C. set (h0 := remove_entry h dst base) in *. clearbody h0.
    destruct ov.
    + destruct (remove_subtree (S (next h0)) h0 x) as [h2|] eqn:E2; [|discriminate]. intros E. apply some_inj in E.
      specialize (G h2). rewrite E in G. eapply calm_trans; [exact C|]. eapply calm_trans; [apply (calm_subtree _ _ _ _ E2)|exact G].
    + intros E. apply some_inj in E. specialize (G h0). rewrite E in G. eapply calm_trans; [exact C|exact G].
  - intros E. apply some_inj in E. specialize (G h). rewrite E in G. exact G.
Qed.
Fixpoint source_size (s : source) : nat :=
  match s with SDir _ cs _ => S (fold_right (fun c a => source_size (snd c) + a) 0 cs) | _ => 1 end.
Lemma calm_walk cb : forall k s, source_size s <= k -> forall h dst base path h' r, add_walk cb s h dst base path = Some (h', r) -> calm h h'.
Proof.
  induction k as [|k IH]; intros s L h dst base path h' r; [destruct s; cbn in L; lia|].
  destruct s as [mode cs lists|mode t opens|mode target reads|]; cbn [add_walk]; cbn zeta.
  - destruct (cb path true _) as [dec|]; [|intros E; replace h' with h by congruence; apply calm_refl].
    assert (M : forall ov, match materialize_dir h dst base mode (lookup h dst base) ov with
        | None => None | Some (h1, d) => if lists then descend (add_walk cb) d path cs h1 else Some (h1, Err EOther) end = Some (h', r) -> calm h h').
    { intros ov. destruct (materialize_dir h dst base mode (lookup h dst base) ov) as [[h1 d]|] eqn:Em; [|discriminate].
      apply calm_materialize in Em. destruct lists; [|intros E; replace h' with h1 by congruence; exact Em].
      intros E. eapply calm_trans; [exact Em|]. clear Em. cbn in L.
      assert (Ls : fold_right (fun c a => source_size (snd c) + a) 0 cs <= k) by lia. clear L.
      revert h1 E. induction cs as [|[nm c] cs IHc]; intros h1 E; cbn [descend] in E; [replace h' with h1 by congruence; apply calm_refl|].
      cbn in Ls. destruct (add_walk cb c h1 d nm (path ++ [nm])) as [[h2 [u|e]]|] eqn:Ew; [| |discriminate].
      - eapply calm_trans; [apply (IH c ltac:(lia) _ _ _ _ _ _ Ew)|]. apply IHc; [lia|exact E].
      - replace h' with h2 by congruence. apply (IH c ltac:(lia) _ _ _ _ _ _ Ew). }
    destruct dec; [intros E; replace h' with h by congruence; apply calm_refl|apply (M false)|apply (M true)].
  - destruct (cb path false _) as [dec|]; [|intros E; replace h' with h by congruence; apply calm_refl].
    assert (M : calm h (fst (enter_file (displace h dst base (lookup h dst base)) dst base mode t))) by (eapply calm_trans; [apply calm_displace|apply calm_enter_file]).
    assert (Mk : calm h (let '(h1, v) := fresh_view h t in close_view h1 v)).
    { pose proof (calm_fresh_view h t) as C. destruct (fresh_view h t) as [h1 v]. eapply calm_trans; [exact C|apply calm_close]. }
    destruct dec; [intros E; replace h' with h by congruence; apply calm_refl| |]; (destruct (negb opens); [intros E; replace h' with h by congruence; apply calm_refl|]).
    + destruct (lookup h dst base) as [x|].
      * intros E. cbn [fresh_view] in *. cbn zeta in E. apply some_inj in E. apply (f_equal fst) in E. cbn [fst] in E. rewrite <- E. exact Mk.
      * intros E. apply some_inj in E. apply (f_equal fst) in E. cbn [fst] in E. rewrite <- E. exact M.
    + intros E. apply some_inj in E. apply (f_equal fst) in E. cbn [fst] in E. rewrite <- E. exact M.
  - destruct (cb path false _) as [dec|]; [|intros E; replace h' with h by congruence; apply calm_refl].
    assert (M : calm h (fst (enter_new (displace h dst base (lookup h dst base)) dst base (NLink (new_meta base mode) target)))) by (eapply calm_trans; [apply calm_displace|apply calm_enter; reflexivity]).
    destruct dec; [intros E; replace h' with h by congruence; apply calm_refl| |]; (destruct (negb reads); [intros E; replace h' with h by congruence; apply calm_refl|]).
    + destruct (lookup h dst base) as [x|]; [intros E; replace h' with h by congruence; apply calm_refl|].
      intros E. apply some_inj in E. apply (f_equal fst) in E. cbn [fst] in E. rewrite <- E. exact M.
    + intros E. apply some_inj in E. apply (f_equal fst) in E. cbn [fst] in E. rewrite <- E. exact M.
  - intros E. replace h' with h by congruence. apply calm_refl.
Qed.
Lemma calm_descend cb d path cs : forall h h' r, descend (add_walk cb) d path cs h = Some (h', r) -> calm h h'.
Proof.
  induction cs as [|[nm c] cs IH]; intros h h' r E; cbn [descend] in E; [replace h' with h by congruence; apply calm_refl|].
  destruct (add_walk cb c h d nm (path ++ [nm])) as [[h2 [u|e]]|] eqn:Ew; [| |discriminate].
  - eapply calm_trans; [apply (calm_walk cb (source_size c) c ltac:(lia) _ _ _ _ _ _ Ew)|]. apply (IH _ _ _ E).
  - replace h' with h2 by congruence. apply (calm_walk cb (source_size c) c ltac:(lia) _ _ _ _ _ _ Ew).
Qed.
Lemma calm_add_fs h b name s sc cb h' r : add_fs h b name s sc cb = Some (h', r) -> calm h h'.
Proof.
  unfold add_fs. destruct (normalize name) as [[|c comps]|]; [| |intros E; replace h' with h by congruence; apply calm_refl].
  - destruct s as [mode cs lists|mode t opens|mode target reads|]; try (intros E; replace h' with h by congruence; apply calm_refl).
    destruct lists; [apply calm_descend|intros E; replace h' with h by congruence; apply calm_refl].
  - pose proof (calm_parents h b name sc) as C. destruct (ensure_parents h b name sc) as [h1 [[d base]|e]]; cbn [fst] in C.
    + intros E. eapply calm_trans; [exact C|]. apply (calm_walk cb (source_size s) s ltac:(lia) _ _ _ _ _ _ E).
    + intros E. replace h' with h1 by congruence. exact C.
Qed.

(* Opening raises exactly the count of the node it hands out. *)
Definition raised (h h' : heap) (n : nat) : Prop := fresh h -> fresh h' /\ forall k, ref_of h' k = ref_of h k + (if Nat.eqb k n then 1 else 0).
Lemma raised_bump h n x : nodes h n = Some x -> raised h (bump h n) n.
Proof.
  intros E F. unfold bump. rewrite E. split.
  - intros k Hk. cbn in *. unfold setf. destruct (Nat.eqb_spec k n) as [-> | _]; [rewrite (F n Hk) in E; discriminate|apply F; exact Hk].
  - intros k. unfold ref_of. cbn. unfold setf. destruct (Nat.eqb_spec k n) as [-> | _]; [rewrite E; destruct x; cbn; lia|lia].
Qed.
Lemma calm_raised a b c n : calm a b -> raised b c n -> raised a c n.
Proof. intros H1 H2 F. destruct (H1 F) as [F1 R1]. destruct (H2 F1) as [F2 R2]. split; [exact F2|]. intros k. rewrite R2, R1. reflexivity. Qed.
Lemma open_existing_refs h b name q : match open_existing h b name q with (h', Ok n) => raised h h' n | (h', Err _) => calm h h' end.
Proof.
  unfold open_existing. destruct (resolve h b name true) as [f|]; [|apply calm_refl].
  destruct (nodes h (f_node f)) as [[m p es|m v|m t]|] eqn:E; try apply calm_refl.
  - destruct (o_write q); [apply calm_refl|]. apply (raised_bump _ _ _ E).
  - unfold open_node. destruct (o_opens q); [|apply calm_refl]. apply (raised_bump _ _ _ E).
Qed.
Lemma add_entry_other h d nm n k : k <> d -> nodes (add_entry h d nm n) k = nodes h k.
Proof.
  intros Hk. unfold add_entry. destruct (nodes h d) as [[m p es|m v|m t]|]; try reflexivity. cbn. unfold setf.
  destruct (Nat.eqb_spec k d); [contradiction|reflexivity].
Qed.
Lemma add_entry_file h d nm n k : (exists m v, nodes h k = Some (NFile m v)) -> exists m v, nodes (add_entry h d nm n) k = Some (NFile m v).
Proof.
  intros (m & v & E). destruct (Nat.eq_dec k d) as [-> | Hk]; [|rewrite add_entry_other by exact Hk; eauto].
  unfold add_entry. rewrite E. eauto.
Qed.
Lemma open_file_refs h b name q : match open_file h b name q with (h', Ok n) => raised h h' n | (h', Err _) => calm h h' end.
Proof.
  unfold open_file. destruct (o_create q); [|apply open_existing_refs].
  destruct (resolve_parent h b name) as [[d base]|]; [|apply calm_refl].
  destruct (lookup h d base) as [n|].
  - destruct (o_excl q); [apply calm_refl|apply open_existing_refs].
  - destruct (negb (o_allocs q)); [apply calm_refl|].
    pose proof (calm_enter_file h d base (o_mode q) (o_tag q)) as C.
    assert (X : exists m v, nodes (fst (enter_file h d base (o_mode q) (o_tag q))) (snd (enter_file h d base (o_mode q) (o_tag q))) = Some (NFile m v)).
    { unfold enter_file, enter_new, fresh_view, alloc. cbn [fst snd nodes next]. apply add_entry_file. cbn. unfold setf.
      rewrite Nat.eqb_refl. eauto. }
    destruct (enter_file h d base (o_mode q) (o_tag q)) as [h1 n]. cbn [fst snd] in *. destruct X as (m & v & X).
    unfold open_node. destruct (o_opens q); [|exact C]. eapply calm_raised; [exact C|]. apply (raised_bump _ _ _ X).
Qed.

Definition in_count (st : hsstate) : Prop :=
  fresh (st_heap (h_state st)) /\ forall n, ref_of (st_heap (h_state st)) n = live_count n (h_hands st).
Lemma live_app n a b : live_count n (a ++ b) = live_count n a + live_count n b.
Proof. unfold live_count. rewrite filter_app, app_length. reflexivity. Qed.
Lemma live_cons n h hs : live_count n (h :: hs) = (if live_on n h then 1 else 0) + live_count n hs.
Proof. unfold live_count. cbn. destruct (live_on n h); reflexivity. Qed.
Lemma live_unlive n i : forall hs h, nth_error hs i = Some h -> s_live h = true ->
  live_count n hs = (if Nat.eqb n (s_node h) then 1 else 0) + live_count n (unlive i hs).
Proof.
  induction i as [|i IH]; intros [|a hs] h E L; try discriminate; cbn [nth_error unlive] in *; rewrite !live_cons.
  - apply some_inj in E. subst a. unfold live_on. rewrite L. reflexivity.
  - rewrite (IH hs h E L). lia.
Qed.
Lemma step_calm bc st o s' r : step bc st o = Some (s', r) ->
  match o with
  | OOpen _ _ _ => match handed st o with Some n => raised (st_heap st) (st_heap s') n | None => calm (st_heap st) (st_heap s') end
  | OCloseHandle _ => True
  | _ => calm (st_heap st) (st_heap s')
  end.
Proof.
  assert (L : forall i (f : nat -> option (heap * sres unit)), (forall b h' r', f b = Some (h', r') -> calm (st_heap st) h') ->
    match nth_error (st_roots st) i with Some b => lift st (f b) | None => Some (st, Err EInval) end = Some (s', r) -> calm (st_heap st) (st_heap s')).
  { intros i f H. destruct (nth_error (st_roots st) i) as [b|]; [|intros E; replace s' with st by congruence; apply calm_refl].
    specialize (H b). unfold lift. destruct (f b) as [[h' r']|]; [|discriminate]. intros E. replace s' with (with_heap st h') by congruence.
    cbn. apply (H h' r' eq_refl). }
  assert (L2 : forall (p : heap * sres unit) h' r', Some p = Some (h', r') -> calm (st_heap st) (fst p) -> calm (st_heap st) h').
  { intros p h' r' E C. apply some_inj in E. subst p. exact C. }
  destruct o as [i name mode|i name mode|i target name mode|i old new|i name|i name|i old new|i name q|n|i name fl mode|i name|i name t mode sc stats cb|i name s sc cb]; cbn [step]; cbv zeta.
  - apply L. intros b h' r' E. apply (L2 _ _ _ E). apply calm_mkdir.
  - apply L. intros b h' r' E. apply (L2 _ _ _ E). apply calm_mkdir_all.
  - apply L. intros b h' r' E. apply (L2 _ _ _ E). apply calm_symlink.
  - apply L. intros b h' r' E. apply (L2 _ _ _ E). apply calm_link.
  - apply L. intros b h' r' E. apply (L2 _ _ _ E). apply calm_rm.
  - apply L. intros b h' r' E. apply (calm_rm_all _ _ _ _ _ _ E).
  - apply L. intros b h' r' E. apply (L2 _ _ _ E). apply calm_rename.
  - cbn [handed]. destruct (nth_error (st_roots st) i) as [b|]; [|intros E; replace s' with st by congruence; apply calm_refl].
    pose proof (open_file_refs (st_heap st) b name q) as R. unfold lift, ignore. destruct (open_file (st_heap st) b name q) as [h' [n|e]]; cbn [fst snd];
      intros E; replace s' with (with_heap st h') by congruence; exact R.
  - auto.
  - apply L. intros b h' r' E. apply (L2 _ _ _ E). apply calm_chmod.
  - destruct (nth_error (st_roots st) i) as [b|]; [|intros E; replace s' with st by congruence; apply calm_refl].
    destruct (open_root (st_heap st) b name); intros E; apply some_inj in E; apply (f_equal fst) in E; cbn [fst] in E; rewrite <- E; apply calm_refl.
  - apply L. intros b h' r' E. apply (L2 _ _ _ E). apply calm_add_file.
  - apply L. intros b h' r' E. apply (calm_add_fs _ _ _ _ _ _ _ _ E).
Qed.
Lemma close_in_count st i : in_count st -> in_count (close_at st i).
Proof.
  intros [F C]. unfold close_at. destruct (nth_error (h_hands st) i) as [h|] eqn:E; [|split; assumption].
  destruct (s_live h) eqn:L; [|split; assumption]. unfold in_count. cbn [h_state h_hands with_heap st_heap].
  unfold drop_ref. destruct (nodes (st_heap (h_state st)) (s_node h)) as [x|] eqn:N.
  - split.
    + intros k Hk. cbn in *. unfold setf. destruct (Nat.eqb_spec k (s_node h)) as [-> | _]; [rewrite (F _ Hk) in N; discriminate|apply F; exact Hk].
    + intros k. specialize (C k). rewrite (live_unlive k i _ _ E L) in C. unfold ref_of in *. cbn. unfold setf.
      destruct (Nat.eqb_spec k (s_node h)) as [-> | _]; [|exact C]. rewrite N in C. destruct x; cbn in *; lia.
  - split; [exact F|]. intros k. specialize (C k). rewrite (live_unlive k i _ _ E L) in C.
    destruct (Nat.eqb_spec k (s_node h)) as [-> | _]; [|exact C]. unfold ref_of in C. rewrite N in C. lia.
Qed.
Lemma hs_step_in_count bc st e st' r : in_count st -> hs_step bc st e = Some (st', r) -> in_count st'.
Proof.
  intros I. destruct e as [o|i]; cbn [hs_step].
  - assert (G : (match o with OCloseHandle _ => False | _ => True end) ->
      match step bc (h_state st) o with
      | None => None
      | Some (s', r) => Some ({| h_state := s'; h_hands := match handed (h_state st) o with Some n => h_hands st ++ [{| s_node := n; s_live := true |}] | None => h_hands st end |}, r)
      end = Some (st', r) -> in_count st').
    { intros No. destruct (step bc (h_state st) o) as [[s' r']|] eqn:E; [|discriminate]. intros E'. apply some_inj in E'. apply (f_equal fst) in E'. cbn [fst] in E'. subst st'.
      apply step_calm in E. destruct I as [F C]. unfold in_count. cbn [h_state h_hands].
      assert (Q : match handed (h_state st) o with Some n => raised (st_heap (h_state st)) (st_heap s') n | None => calm (st_heap (h_state st)) (st_heap s') end)
        by (destruct o; try contradiction; exact E).
      destruct (handed (h_state st) o) as [n|]; destruct (Q F) as [F' R']; (split; [exact F'|]); intros k; rewrite R', C.
      - rewrite live_app, live_cons. unfold live_on, live_count at 3. cbn. destruct (Nat.eqb k n); reflexivity.
      - reflexivity. }
    destruct o; try (apply G; exact Logic.I). intros E. apply some_inj in E. apply (f_equal fst) in E. cbn [fst] in E. subst st'. exact I.
  - intros E. apply some_inj in E. apply (f_equal fst) in E. cbn [fst] in E. subst st'. apply close_in_count. exact I.
Qed.
Lemma hs_run_in_count bc es : forall st st', in_count st -> hs_run bc st es = Some st' -> in_count st'.
Proof.
  induction es as [|e es IH]; intros st st' I E; cbn [hs_run] in E; [apply some_inj in E; subst; exact I|].
  destruct (hs_step bc st e) as [[st1 r]|] eqn:S; [|discriminate]. apply (IH st1); [|exact E]. apply (hs_step_in_count _ _ _ _ _ I S).
Qed.
Lemma new_in_count mode : in_count (hs_new mode).
Proof.
  split.
  - intros n H. cbn in *. destruct n; [lia|reflexivity].
  - intros n. unfold ref_of. cbn. destruct n; reflexivity.
Qed.
Lemma synth_counts bc mode es st n : hs_run bc (hs_new mode) es = Some st -> ref_of (st_heap (h_state st)) n = live_count n (h_hands st).
Proof. intros E. apply (hs_run_in_count _ _ _ _ (new_in_count mode) E). Qed.

Lemma sharing_iff mode es st i name b d base n : hs_run true (hs_new mode) es = Some st ->
  nth_error (st_roots (h_state st)) i = Some b -> resolve_parent (st_heap (h_state st)) b name = Ok (d, base) ->
  lookup (st_heap (h_state st)) d base = Some n -> holds_something (st_heap (h_state st)) n = false ->
  (forall st' r, hs_step true st (HDo (ORemove i name)) = Some (st', r) ->
     (r = Ok tt <-> live_count n (h_hands st) = 0) /\ (r = Err ESharing <-> 0 < live_count n (h_hands st)) /\ (r <> Ok tt -> st' = st)).
Proof.
  intros E Hb Hr Hl Hh st' r. rewrite <- (synth_counts true mode es st n E). cbn [hs_step step]. cbv zeta. rewrite Hb. unfold lift, remove. rewrite Hr, Hl, Hh.
  cbn [handed]. unfold ref_of. destruct (nodes (st_heap (h_state st)) n) as [x|]; cbn [andb].
  - destruct (Nat.ltb_spec 0 (m_ref (meta_of x))) as [L|L]; cbn [fst]; intros H; apply some_inj in H.
    + assert (r = Err ESharing) as -> by congruence. split; [split; [discriminate|lia]|]. split; [split; [auto|reflexivity]|].
      intros _. apply (f_equal fst) in H. cbn [fst] in H. rewrite <- H. destruct st as [[h0 rs] hs]. reflexivity.
    + assert (r = Ok tt) as -> by congruence. split; [split; [lia|reflexivity]|]. split; [split; [discriminate|lia]|]. intros C. contradiction.
  - intros H. apply some_inj in H. assert (r = Ok tt) as -> by congruence.
    split; [split; reflexivity|]. split; [split; [discriminate|lia]|]. intros C. contradiction.
Qed.
Lemma unlive_nth i : forall hs, nth_error (unlive i hs) i = option_map (fun h => {| s_node := s_node h; s_live := false |}) (nth_error hs i).
Proof. induction i as [|i IH]; intros [|h hs]; cbn; auto. Qed.
Lemma synth_double_close st i : close_at (close_at st i) i = close_at st i.
Proof.
  unfold close_at at 2 3. destruct (nth_error (h_hands st) i) as [h|] eqn:E.
  - destruct (s_live h) eqn:L; [|unfold close_at; rewrite E, L; reflexivity].
    unfold close_at. cbn [h_hands]. rewrite unlive_nth, E. reflexivity.
  - unfold close_at. rewrite E. reflexivity.
Qed.

(* Opening with O_TRUNC. *)
Lemma truncating_returns h b name q truncates :
  (exists r, open_truncating h b name q truncates = Some r) \/
  (truncates = false /\ o_write q = true /\ exists m v f, resolve h b name true = Ok f /\ nodes h (f_node f) = Some (NFile m v) /\ o_opens q = true).
Proof.
  unfold open_truncating, open_existing. destruct (resolve h b name true) as [f|]; [|left; eauto].
  destruct (nodes h (f_node f)) as [[m p es|m v|m t]|] eqn:E; try (left; eauto; fail).
  - destruct (o_write q); [left; eauto|]. left. destruct (nodes (bump h (f_node f)) (f_node f)) as [[m' p' es'|m' v'|m' t']|]; cbn [andb]; eauto.
  - unfold open_node. destruct (o_opens q) eqn:O; [|left; eauto]. unfold bump. rewrite E. cbn. unfold setf. rewrite Nat.eqb_refl. cbn.
    destruct (o_write q) eqn:W; cbn [andb]; [|left; eauto]. destruct truncates; cbn; [left; eauto|]. right. split; [reflexivity|]. split; [reflexivity|]. eauto 8.
Qed.
Lemma truncating_same h b name q : open_truncating h b name q true = Some (open_existing h b name q).
Proof.
  unfold open_truncating. destruct (open_existing h b name q) as [h1 [n|e]]; [|reflexivity].
  destruct (nodes h1 n) as [[m p es|m v|m t]|]; try reflexivity. destruct (o_write q); reflexivity.
Qed.
Lemma truncate_stuck h b name q m v f : resolve h b name true = Ok f -> nodes h (f_node f) = Some (NFile m v) ->
  o_opens q = true -> o_write q = true -> open_truncating h b name q false = None.
Proof.
  intros R N O W. unfold open_truncating, open_existing. rewrite R, N. unfold open_node. rewrite O. unfold bump. rewrite N. cbn.
  unfold setf. rewrite Nat.eqb_refl. cbn. rewrite W. reflexivity.
Qed.
Lemma stuck_somewhere : exists mode os st b name q m v f, run true (new_state mode) os = Some st /\ nth_error (st_roots st) 0 = Some b /\
  resolve (st_heap st) b name true = Ok f /\ nodes (st_heap st) (f_node f) = Some (NFile m v) /\ o_opens q = true /\ open_truncating (st_heap st) b name q false = None.
Proof.
  set (q := {| o_create := true; o_excl := false; o_write := true; o_mode := 420; o_tag := 7; o_opens := true; o_allocs := true |}).
  exists 493%N, [OOpen 0 [102%N] q]. do 2 eexists. exists [102%N], q. do 3 eexists.
  split; [vm_compute; reflexivity|]. split; [vm_compute; reflexivity|]. split; [vm_compute; reflexivity|]. split; [vm_compute; reflexivity|].
  split; vm_compute; reflexivity.
Qed.
