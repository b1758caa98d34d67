From Verif Require Import Common CommonLemmas Views_Model MemBuf_Model MemBuf_Spec MemBuf_Proofs Synth_Model Synth_Spec Synth_Proofs SynthPath_Proofs SynthPlain_Spec SynthPlain_Proofs SynthData_Model SynthData_Spec.
From Verif Require SynthTree_Proofs.
From Verif Require RoViews_Model.
Open Scope nat_scope.

(* Flags. *)
Lemma has_flagged flag b : flagged flag b = has flag b.
Proof. unfold flagged, has. destruct (Z.land flag b =? 0)%Z; reflexivity. Qed.
Lemma has_lor flag a b : negb (Z.land flag (Z.lor a b) =? 0)%Z = has flag a || has flag b.
Proof.
  rewrite Z.land_lor_distr_r. unfold has. destruct (Z.eqb_spec (Z.lor (Z.land flag a) (Z.land flag b)) 0) as [E|E]; rewrite ?Z.lor_eq_0_iff in E.
  - destruct E as [-> ->]. reflexivity.
  - destruct (Z.eqb_spec (Z.land flag a) 0), (Z.eqb_spec (Z.land flag b) 0); cbn; tauto.
Qed.
Lemma writable_is fl flag : writable (f_all fl) flag = can_write fl flag.
Proof. unfold writable, can_write. apply has_lor. Qed.
Lemma readable_is fl flag : readable (f_all fl) flag = can_read fl flag.
Proof. unfold readable, can_read, has. destruct (Z.land flag (f_wronly (f_all fl)) =? 0)%Z, (Z.land flag (f_rdwr (f_all fl)) =? 0)%Z; reflexivity. Qed.
Lemma write_op_is fl flag : write_op (f_all fl) flag = may_change fl flag.
Proof.
  unfold write_op, may_change, can_write. set (L := f_all fl). rewrite has_lor. f_equal.
  assert (forall a b, has flag (Z.lor a b) = has flag a || has flag b) as Hl by (intros a b; rewrite <- has_lor; unfold has; destruct (_ =? 0)%Z; reflexivity).
  rewrite !Hl. reflexivity.
Qed.

(* Lists. *)
Lemma at_nth_set {A} (l : list A) i x : at_nth l i x = set_nth l i x.
Proof. unfold at_nth. revert i. induction l as [|y l IH]; intros [|i]; cbn; try reflexivity. now rewrite IH. Qed.
Lemma set_nth_length {A} (l : list A) i x : length (set_nth l i x) = length l.
Proof. revert i. induction l as [|y l IH]; intros [|i]; cbn; auto. Qed.
Lemma nth_set {A} (l : list A) i x j : nth_error (set_nth l i x) j = if Nat.eqb i j then (if j <? length l then Some x else None) else nth_error l j.
Proof.
  revert i j. induction l as [|y l IH]; intros [|i] [|j]; cbn; try reflexivity; [now destruct (Nat.eqb i j)|]. rewrite IH. reflexivity.
Qed.
Lemma nth_set_same {A} (l : list A) i x y : nth_error l i = Some y -> nth_error (set_nth l i x) i = Some x.
Proof. intros E. rewrite nth_set, Nat.eqb_refl. assert (i < length l) as H by (apply nth_error_Some; congruence). apply Nat.ltb_lt in H. now rewrite H. Qed.
Lemma nth_set_other {A} (l : list A) i x j : i <> j -> nth_error (set_nth l i x) j = nth_error l j.
Proof. intros E. rewrite nth_set. apply Nat.eqb_neq in E. now rewrite E. Qed.
Lemma Forall2_set {A B} (P : A -> B -> Prop) l m i x y : Forall2 P l m -> P x y -> Forall2 P (set_nth l i x) (set_nth m i y).
Proof. intros H Hx. revert i. induction H as [|a b l m Hab H IH]; intros [|i]; cbn; constructor; auto. Qed.
Lemma Forall2_nth {A B} (P : A -> B -> Prop) l m i x : Forall2 P l m -> nth_error l i = Some x -> exists y, nth_error m i = Some y /\ P x y.
Proof. intros H. revert i. induction H as [|a b l m Hab H IH]; intros [|i] E; cbn in *; try discriminate; [exists b; split; [reflexivity|]; assert (a = x) as <- by congruence; exact Hab|auto]. Qed.
Lemma In_set {A} (l : list A) i x y : In y (set_nth l i x) -> y = x \/ In y l.
Proof. revert i. induction l as [|a l IH]; intros [|i] H; cbn in *; auto; destruct H as [H|H]; auto. destruct (IH i H); auto. Qed.
Lemma Forall2_len {A B} (P : A -> B -> Prop) l m : Forall2 P l m -> length l = length m.
Proof. induction 1; cbn; congruence. Qed.
Lemma Forall2_none {A B} (P : A -> B -> Prop) l m i : Forall2 P l m -> nth_error l i = None -> nth_error m i = None.
Proof. intros H. rewrite !nth_error_None. now rewrite (Forall2_len P l m H). Qed.

(* Views. *)
Definition flat (d : list byte) : slice := {| s_arr := d; s_len := zlen d |}.
Definition fine (v : dview) : Prop := match v with VMemory b => clean_buf b | VBytes d => (zlen d <= max_int64)%Z end.
Definition memory (v : dview) : Prop := exists b, v = VMemory b.
Lemma flat_bytes d : s_bytes (flat d) = d.
Proof. unfold s_bytes, flat. cbn. apply zslice_all. lia. Qed.
Lemma flat_clean d : (zlen d <= max_int64)%Z -> clean_buf (flat d).
Proof. intros H. pose proof (zlen_nonneg d). unfold clean_buf, s_cap, flat. cbn. split; [lia|]. split; [exact H|]. intros k Hk. apply byt_out. now right. Qed.

Definition in_memory (fl : dflags) (g : goheap) (b : slice) (h : handle) (o : mop) : slice * handle * mres := mem_step (f_all fl) g b h o.
Definition unsaid (o : mop) (r : mres) : mres := match o, r with MRead _, MOk (Zpos n) d _ => MOk (Zpos n) d e_nil | _, _ => r end.

Lemma bytes_call fl g d h o : in_range h -> op_fits (0, o) -> asks_write o = false -> o <> MStat -> o <> MClose -> (forall f, o <> MOpen f) ->
  (asks_read o = true -> can_read fl (h_flag h) = true) ->
  exists h1 r, mem_step (f_all fl) g (flat d) h o = (flat d, h1, r) /\ inner_call fl g (VBytes d) h o = (VBytes d, h1, unsaid o r).
Proof.
  intros Hr Hf Hw Hs Hc Ho Hcr. rewrite <- readable_is in Hcr. destruct Hf as [Hf1 Hf2]. cbn [snd] in Hf1, Hf2. assert (forall h0, MemBuf_Model.moved h0 (h_off h0) = h0) as Hm by (intros []; reflexivity).
  destruct o as [f|n|n off|p|p off|off wh|size| |]; try (exfalso; try apply (Ho f); try discriminate; now try apply Hs; try apply Hc); unfold inner_call, ro_op, RoViews_Model.inner_step, mem_step; cbn [RoViews_Model.r_view RoViews_Model.r_pos asks_read] in *.
  - rewrite (Hcr eq_refl). cbn [negb]. unfold read_at. rewrite flat_bytes. cbn [s_len flat]. destruct Hr as [Hr1 Hr2]. replace (h_off h <? 0)%Z with false by lia. destruct (zlen d <=? h_off h)%Z eqn:E.
    + eexists _, _. split; [reflexivity|]. cbn [RoViews_Model.r_pos unsaid]. rewrite Hm. replace (h_off h + 0)%Z with (h_off h) by lia. rewrite Hm. reflexivity.
    + eexists _, _. split; [reflexivity|]. cbn [RoViews_Model.r_pos unsaid]. pose proof (zlen_nonneg (zslice d (h_off h) n)) as Hz. destruct (zlen (zslice d (h_off h) n)) as [|q|q] eqn:Ez; [|reflexivity|lia].
      replace (0 <? n)%Z with false; [reflexivity|]. symmetry. apply Z.ltb_ge. rewrite zslice_length in Ez by lia. lia.
  - rewrite (Hcr eq_refl). cbn [negb]. unfold read_at. rewrite flat_bytes. cbn [s_len flat]. eexists _, _. split; [reflexivity|]. cbn [RoViews_Model.r_pos unsaid RoViews_Model.view_read_at]. rewrite Hm. reflexivity.
  - unfold mem_seek. cbn [s_len flat]. replace (wrap64 (off + 0)) with off by (rewrite Z.add_0_r, wrap64_id by exact Hf1; reflexivity).
    destruct (wh =? 0)%Z; [|destruct (wh =? 1)%Z; [|destruct (wh =? 2)%Z]].
    all: try match goal with |- context [(if (?x <? 0)%Z then _ else _)] => destruct (x <? 0)%Z end.
    all: eexists _, _; (split; [reflexivity|]); cbn [RoViews_Model.r_pos unsaid]; rewrite ?Hm, ?Z.sub_0_r; reflexivity.
Qed.
Lemma bytes_length b : clean_buf b -> zlen (s_bytes b) = s_len b.
Proof. exact (bytes_len b). Qed.
Lemma core fl g b f h o : clean_buf b -> c_len f = s_len b -> (forall k, c_at f k = byt (s_bytes b) k) -> in_range h -> op_fits (0, o) -> o <> MClose -> (forall fg, o <> MOpen fg) ->
  (wants (f_all fl) (alone f h) (0%nat, o) <= max_alloc g)%Z ->
  exists b1 h1 r a, mem_step (f_all fl) g b h o = (b1, h1, r) /\ a_step (f_all fl) (alone f h) (0, o) = (a, Some r) /\ clean_buf b1 /\ in_range h1 /\ a_handles a = [h1] /\ a_len a = s_len b1 /\ forall k, a_at a k = byt (s_bytes b1) k.
Proof.
  intros Hb Hl Ha Hr Hf Hc Ho Hw. pose proof (step_spec (f_all fl) g {| m_buf := b; m_handles := [h] |} (alone f h) (0, o)) as S.
  assert (minv {| m_buf := b; m_handles := [h] |}) as Hm by (split; [exact Hb|repeat constructor; exact Hr || apply Hr]).
  specialize (S Hm). assert (MemBuf_Spec.shows {| m_buf := b; m_handles := [h] |} (alone f h)) as Hs. { split; [symmetry; exact Hl|]. split; [reflexivity|]. exact Ha. }
  specialize (S Hs Hf). unfold mstep in S.
  assert (exists b1 h1 r, mem_step (f_all fl) g b h o = (b1, h1, r)) as (b1 & h1 & r & E) by (destruct (mem_step (f_all fl) g b h o) as [[b1 h1] r]; eauto).
  destruct (a_step (f_all fl) (alone f h) (0, o)) as [a r'] eqn:Ea.
  assert (minv {| m_buf := b1; m_handles := [h1] |} /\ ((Some r = Some MPanic /\ (max_alloc g < wants (f_all fl) (alone f h) (0%nat, o))%Z /\ b1 = b) \/ (Some r = r' /\ MemBuf_Spec.shows {| m_buf := b1; m_handles := [h1] |} a))) as S'.
  { destruct o; try (exfalso; eapply Ho; reflexivity); try (exfalso; apply Hc; reflexivity); cbn [nth_error m_handles m_buf] in S; rewrite E in S; cbn [set_nth m_buf] in S; exact S. }
  destruct S' as [[Hm1 Hm2] [(_ & Hbad & _)|(Er & Hs1 & Hs2 & Hs3)]]; [lia|]. exists b1, h1, r, a. split; [exact E|]. split; [now rewrite Er|]. cbn [m_buf m_handles] in *. split; [exact Hm1|]. split; [now inversion Hm2|]. split; [now rewrite <- Hs2|]. split; [now rewrite Hs1|exact Hs3].
Qed.

Lemma flag_kept fl g b h o : h_flag (snd (fst (mem_step (f_all fl) g b h o))) = h_flag h.
Proof.
  destruct o as [f|n|n off|p|p off|off wh|size| |]; unfold mem_step; try reflexivity.
  - destruct (readable _ _); cbn [negb]; [|reflexivity]. destruct (read_at b n (h_off h)); reflexivity.
  - destruct (readable _ _); reflexivity.
  - destruct (writable _ _); cbn [negb]; [|reflexivity]. destruct (appends _ _); destruct (write_at _ _ _ _) as [b1 [k d e|]]; reflexivity.
  - destruct (appends _ _); [reflexivity|]. destruct (writable _ _); cbn [negb]; [|reflexivity]. destruct (write_at _ _ _ _); reflexivity.
  - unfold mem_seek. destruct (wh =? 0)%Z; [|destruct (wh =? 1)%Z; [|destruct (wh =? 2)%Z]]; try match goal with |- context [(if (?x <? 0)%Z then _ else _)] => destruct (x <? 0)%Z end; reflexivity.
  - destruct (writable _ _); cbn [negb]; [|reflexivity]. destruct (truncate _ _ _); reflexivity.
Qed.

Lemma method_sim fl g w f k o : shows_file w f -> fine w -> in_range (k_hand k) -> op_fits (0, o) -> o <> MClose -> (forall fg, o <> MOpen fg) ->
  (wants (f_all fl) (alone f (k_hand k)) (0%nat, o) <= max_alloc g)%Z -> (c_fixed f = true -> can_write fl (h_flag (k_hand k)) = false) ->
  exists w1 h1 r f1, file_call fl g w (k_open k) (k_hand k) o = (w1, h1, r) /\ method fl f k o = (f1, h1, r) /\ shows_file w1 f1 /\ fine w1 /\ in_range h1 /\ c_fixed f1 = c_fixed f /\ h_flag h1 = h_flag (k_hand k).
Proof.
  intros Hs Hg Hr Hf Hc Ho Hw Hx. set (h := k_hand k) in *. unfold method. fold h.
  assert (forall e, exists w1 h1 r f1, (w, h, MOk 0 [] e) = (w1, h1, r) /\ (f, h, MOk 0 [] e) = (f1, h1, r) /\ shows_file w1 f1 /\ fine w1 /\ in_range h1 /\ c_fixed f1 = c_fixed f /\ h_flag h1 = h_flag h) as Hno.
  { intros e. exists w, h, (MOk 0 [] e), f. auto 10. }
  assert (exists w1 h1 r f1, (w, h, MOk (view_size w) [] e_nil) = (w1, h1, r) /\ (f, h, MOk (c_len f) [] e_nil) = (f1, h1, r) /\ shows_file w1 f1 /\ fine w1 /\ in_range h1 /\ c_fixed f1 = c_fixed f /\ h_flag h1 = h_flag h) as Hstat.
  { assert (view_size w = c_len f) as Ev. { destruct Hs as (El & _). rewrite El. destruct w as [b|d]; cbn in *; [now rewrite bytes_length|reflexivity]. } rewrite Ev. exists w, h, (MOk (c_len f) [] e_nil), f. auto 10. }
  assert (asks_write o && negb (can_write fl (h_flag h)) = false -> asks_read o && negb (can_read fl (h_flag h)) = false -> o <> MStat ->
    exists w1 h1 r f1, inner_call fl g w h o = (w1, h1, r) /\
      match a_step (f_all fl) (alone f h) (0, o) with (a, Some r0) => (back f a, hand_in a h, quiet f o r0) | (_, None) => (f, h, MOk 0 [] e_nil) end = (f1, h1, r) /\
      shows_file w1 f1 /\ fine w1 /\ in_range h1 /\ c_fixed f1 = c_fixed f /\ h_flag h1 = h_flag h) as Hgo.
  { intros Hcw Hcr Hst. destruct Hs as (El & Ea & Ek). destruct w as [b|d]; cbn [bytes_in fine] in *.
    - assert (c_fixed f = false) as Hfx. { destruct (c_fixed f); [|reflexivity]. destruct (proj1 Ek eq_refl) as [d Ed]. discriminate. }
      rewrite bytes_length in El by exact Hg. destruct (core fl g b f h o Hg El Ea Hr Hf Hc Ho Hw) as (b1 & h1 & r & a & E1 & E2 & Hb1 & Hr1 & Eh & El1 & Ea1).
      pose proof (flag_kept fl g b h o) as Hk. rewrite E1 in Hk. cbn [fst snd] in Hk. rewrite E2. unfold inner_call. rewrite E1. exists (VMemory b1), h1, r, (back f a).
      split; [reflexivity|]. split. { unfold hand_in, quiet. rewrite Eh, Hfx. reflexivity. } split.
      { split; [cbn [back c_len bytes_in]; rewrite bytes_length by exact Hb1; exact El1|]. split; [exact Ea1|]. cbn [back c_fixed]. rewrite Hfx. split; [discriminate|intros [d E]; discriminate]. }
      split; [exact Hb1|]. split; [exact Hr1|]. split; [reflexivity|exact Hk].
    - assert (c_fixed f = true) as Hfx by (apply Ek; eauto). rewrite (Hx Hfx) in Hcw. assert (asks_write o = false) as Haw by (destruct (asks_write o); [discriminate|reflexivity]).
      assert (asks_read o = true -> can_read fl (h_flag h) = true) as Hcr' by (destruct (asks_read o), (can_read fl (h_flag h)); auto; discriminate).
      destruct (bytes_call fl g d h o Hr Hf Haw Hst Hc Ho Hcr') as (h1 & r & E1 & E3). pose proof (flat_clean d Hg) as Hcl.
      destruct (core fl g (flat d) f h o Hcl El) as (b1 & h1' & r' & a & E1' & E2 & Hb1 & Hr1 & Eh & El1 & Ea1); auto.
      { intros j. rewrite flat_bytes. apply Ea. }
      rewrite E1 in E1'. assert (b1 = flat d /\ h1' = h1 /\ r' = r) as (-> & -> & ->) by (split; [congruence|split; congruence]).
      pose proof (flag_kept fl g (flat d) h o) as Hk. rewrite E1 in Hk. cbn [fst snd] in Hk. rewrite E2, E3. exists (VBytes d), h1, (unsaid o r), (back f a).
      split; [reflexivity|]. split. { unfold hand_in, quiet, unsaid. rewrite Eh, Hfx. reflexivity. } split.
      { split; [exact El1|]. split; [intros j; cbn [back c_at]; rewrite Ea1, flat_bytes; reflexivity|]. cbn [back c_fixed]. rewrite Hfx. split; [eauto|reflexivity]. }
      split; [exact Hg|]. split; [exact Hr1|]. split; [reflexivity|exact Hk]. }
  destruct o as [fg|n|n off|p|p off|off wh|size| |]; try (exfalso; eapply Ho; reflexivity); try (exfalso; now apply Hc); unfold file_call; fold h; [| | | | | |exact Hstat]; (destruct (k_open k); cbn [negb]; [|apply Hno]); rewrite ?readable_is, ?writable_is; cbn [asks_read asks_write andb orb] in *; fold h in Hgo.
  - destruct (can_read fl (h_flag h)); cbn [negb orb] in *; [|apply Hno]. apply Hgo; auto; discriminate.
  - destruct (can_read fl (h_flag h)); cbn [negb orb] in *; [|apply Hno]. apply Hgo; auto; discriminate.
  - destruct (can_write fl (h_flag h)); cbn [negb orb] in *; [|apply Hno]. apply Hgo; auto; discriminate.
  - destruct (can_write fl (h_flag h)); cbn [negb orb] in *; [|apply Hno]. apply Hgo; auto; discriminate.
  - apply Hgo; auto; discriminate.
  - destruct (can_write fl (h_flag h)); cbn [negb orb] in *; [|apply Hno]. apply Hgo; auto; discriminate.
Qed.

(* The plain tree's files only grow in number. *)
Lemma mkdirs_files mode l : forall t pre, t_files (fst (mkdirs t pre l mode)) = t_files t.
Proof.
  induction l as [|c l IH]; intros t pre; cbn [mkdirs]; [reflexivity|]. destruct (place_at t (pre ++ [c])) as [p|e]; [|reflexivity].
  destruct (pat t p); [|now rewrite IH]. destruct (SynthPlain_Spec.walk t true 40 [] (pre ++ [c])) as [q|e]; [|reflexivity]. destruct (dir_at t q); [apply IH|reflexivity].
Qed.
Lemma scaffolds_files mode l : forall t pre d, t_files (fst (scaffolds t pre l mode d)) = t_files t.
Proof.
  induction l as [|c l IH]; intros t pre d; cbn [scaffolds]; [reflexivity|]. destruct (SynthPlain_Spec.walk t true 40 [] (pre ++ [c])) as [q|[]]; try reflexivity.
  - destruct (dir_at t q); [apply IH|reflexivity].
  - destruct (place_at t (pre ++ [c])) as [p|e]; [|reflexivity]. now rewrite IH.
Qed.
Lemma make_files t p x : t_files (fst (make_at t p x)) = t_files t.
Proof. destruct p as [p|e]; cbn; [|reflexivity]. destruct (pat t p); reflexivity. Qed.
Lemma plain_files t o : by_name o -> length (t_files t) <= length (t_files (fst (plain t o))).
Proof.
  destruct o as [i name mode|i name mode|i tg name mode|i old new|i name|i name|i old new|i name q|n|i name fo mode|i name|i name x mode sc stats cb|i name s sc cb]; intros B; try contradiction; cbn [plain].
  - now rewrite make_files.
  - destruct (parse name); [|reflexivity]. now rewrite mkdirs_files.
  - now rewrite make_files.
  - destruct (leads_to t old true) as [p|e]; [|reflexivity]. destruct (pat t p) as [[| |]|]; try reflexivity. now rewrite make_files.
  - destruct (place_of t name) as [p|e]; [|reflexivity]. destruct (pat t p); [|reflexivity]. destruct (childless t p); reflexivity.
  - destruct (dot_last name); [reflexivity|]. destruct (place_of t name); reflexivity.
  - destruct (place_of t old) as [p|e]; [|reflexivity]. destruct (pat t p); [|reflexivity]. destruct (place_of t new) as [n|e]; [|reflexivity]. destruct (childless t n); [|reflexivity]. destruct (same p n); reflexivity.
  - destruct (leads_to t name fo) as [p|e]; [|reflexivity]. destruct (pat t p); reflexivity.
  - reflexivity.
  - destruct stats; cbn [negb]; [|reflexivity]. destruct (parse name) as [[|c l]|]; try reflexivity. pose proof (scaffolds_files sc (removelast (c :: l)) t [] []) as Hs.
    destruct (scaffolds t [] (removelast (c :: l)) sc []) as [t1 [d|e]]; cbn [fst] in Hs; [|cbn [fst]; now rewrite Hs]. destruct (cb _ _ _) as [[]|]; cbn [fst new_file t_files]; rewrite ?app_length; cbn [drop t_files]; rewrite Hs; lia.
Qed.
Lemma firstn_S_nth {A} (l : list A) n x : nth_error l n = Some x -> firstn (S n) l = firstn n l ++ [x].
Proof. revert n. induction l as [|y l IH]; intros [|n] E; cbn [nth_error] in E; try discriminate; [apply some_inj in E; now subst y|]. cbn [firstn app]. f_equal. now apply IH. Qed.
Lemma tags_are h t : SynthPlain_Spec.shows h t -> map (tag h) (seq 0 (length (t_files t))) = t_files t.
Proof.
  intros (_ & _ & H). set (l := t_files t) in *. clearbody l. revert H. generalize (tag h). clear. intros f H.
  assert (forall n, n <= length l -> map f (seq 0 n) = firstn n l) as Hn; [|now rewrite Hn, firstn_all by lia].
  induction n as [|n IH]; intros Hl; [reflexivity|]. rewrite seq_S, map_app, IH by lia. cbn [map plus]. specialize (H n ltac:(lia)).
  now rewrite (firstn_S_nth l n (f n) H).
Qed.

Lemma new_views (given : N -> list byte) h t (k : nat) : SynthPlain_Spec.shows h t -> k <= length (t_files t) ->
  map (fun v => VBytes (given (tag h v))) (seq k (next_view h - k)) = map (fun x => VBytes (given x)) (skipn k (t_files t)).
Proof.
  intros S Hk. rewrite <- (map_map (tag h) (fun x => VBytes (given x))). f_equal. rewrite (proj1 (proj2 S)). rewrite <- (tags_are h t S) at 2. rewrite skipn_map. f_equal.
  set (n := length (t_files t)) in *. clearbody n. replace n with (k + (n - k)) at 2 by lia. rewrite seq_app, skipn_app, seq_length, Nat.sub_diag. rewrite skipn_all2 by (rewrite seq_length; lia). reflexivity.
Qed.

Record dgood (fl : dflags) (s : dstate) (w : world) : Prop := {
  i_good : good (st_heap (d_tree s)) (w_tree w); i_root : nth_error (st_roots (d_tree s)) 0 = Some 0;
  i_files : Forall2 shows_file (d_views s) (w_files w); i_hands : Forall2 shows_hand (d_hands s) (w_hands w);
  i_fine : Forall fine (d_views s); i_range : Forall (fun k => in_range (k_hand k)) (w_hands w);
  i_len : length (w_files w) = length (t_files (w_tree w));
  i_known : forall k v, In k (w_hands w) -> k_file k = Some v -> v < length (w_files w);
  i_ro : forall k v f, In k (w_hands w) -> k_file k = Some v -> nth_error (w_files w) v = Some f -> c_fixed f = true -> can_write fl (h_flag (k_hand k)) = false }.

Lemma holds d : shows_file (VBytes d) (holding d).
Proof. split; [reflexivity|]. split; [reflexivity|]. cbn. split; [eauto|reflexivity]. Qed.
Lemma holds_none : shows_file empty_view no_bytes.
Proof. split; [reflexivity|]. split; [|split; [discriminate|intros [d E]; discriminate]]. intros k. cbn. unfold byt, zget. destruct (k <? 0)%Z; [reflexivity|]. now destruct (Z.to_nat k). Qed.
Lemma empty_fine : fine empty_view.
Proof. cbn. split; [unfold s_cap; cbn; lia|]. split; [cbn; unfold max_int64; lia|]. intros k _. cbn. unfold byt, zget. destruct (k <? 0)%Z; [reflexivity|]. now destruct (Z.to_nat k). Qed.

Lemma tree_sim given fl s w o : (forall x, (zlen (given x) <= max_int64)%Z) -> dgood fl s w -> by_root o -> by_name o -> ~ into_itself (w_tree w) o ->
  exists s', tree_call given s o = Some (s', snd (plain (w_tree w) o)) /\ dgood fl s' (fst (does given fl w (DTree o))).
Proof.
  intros Hgiven D B N I. destruct (step_sim (d_tree s) (w_tree w) o (i_good _ _ _ D) (i_root _ _ _ D) B I) as (t1 & E & G & R). unfold tree_call. rewrite E. eexists. split; [reflexivity|]. cbn [does fst].
  pose proof (plain_files (w_tree w) o N) as Hm. set (t := fst (plain (w_tree w) o)) in *.
  pose proof (Forall2_len _ _ _ (i_files _ _ _ D)) as Hv. pose proof (i_len _ _ _ D) as Hl. rewrite Hv, (new_views given (st_heap t1) t) by (apply (g_shows _ _ G) || lia).
  constructor; cbn [d_tree d_views d_hands w_tree w_files w_hands].
  - exact G.
  - exact R.
  - apply Forall2_app; [apply (i_files _ _ _ D)|]. induction (skipn _ _) as [|x l IH]; cbn [map]; constructor; [apply holds|exact IH].
  - apply (i_hands _ _ _ D).
  - apply Forall_app. split; [apply (i_fine _ _ _ D)|]. induction (skipn _ _) as [|x l IH]; cbn [map]; constructor; [apply Hgiven|exact IH].
  - apply (i_range _ _ _ D).
  - rewrite app_length, map_length, skipn_length. lia.
  - intros k v Hk Ek. rewrite app_length. pose proof (i_known _ _ _ D k v Hk Ek). lia.
  - intros k v f Hk Ek Ef. pose proof (i_known _ _ _ D k v Hk Ek) as Hlt. rewrite nth_error_app1 in Ef by exact Hlt. exact (i_ro _ _ _ D k v f Hk Ek Ef).
Qed.

Lemma size_is w f : shows_file w f -> fine w -> view_size w = c_len f.
Proof. intros (El & _) Hg. rewrite El. destruct w as [b|d]; cbn in *; [now rewrite bytes_length|reflexivity]. Qed.
Lemma add_hand fl s w h t vs fs x k : dgood fl s w -> good h t -> Forall2 shows_file vs fs -> Forall fine vs -> length fs = length (t_files t) -> length (w_files w) <= length fs ->
  (forall v f f', nth_error (w_files w) v = Some f -> nth_error fs v = Some f' -> c_fixed f' = c_fixed f) ->
  shows_hand x k -> in_range (k_hand k) -> (forall v, k_file k = Some v -> exists f, nth_error fs v = Some f /\ (c_fixed f = true -> can_write fl (h_flag (k_hand k)) = false)) ->
  dgood fl (opened s h vs x) (World t fs (w_hands w ++ [k])).
Proof.
  intros D G Hf Hg Hl Hmore Hkind Hx Hr Hk. constructor; cbn [opened d_tree d_views d_hands w_tree w_files w_hands with_heap st_heap st_roots].
  - exact G.
  - apply (i_root _ _ _ D).
  - exact Hf.
  - apply Forall2_app; [apply (i_hands _ _ _ D)|]. repeat constructor; apply Hx.
  - exact Hg.
  - apply Forall_app. split; [apply (i_range _ _ _ D)|]. repeat constructor; apply Hr.
  - exact Hl.
  - intros k' v Hin Ev. apply in_app_or in Hin. destruct Hin as [Hin|[<-|[]]]; [pose proof (i_known _ _ _ D k' v Hin Ev); lia|]. destruct (Hk v Ev) as (f & Ef & _). apply nth_error_Some. congruence.
  - intros k' v f Hin Ev Ef Hx'. apply in_app_or in Hin. destruct Hin as [Hin|[<-|[]]].
    + pose proof (i_known _ _ _ D k' v Hin Ev) as Hlt. apply nth_error_Some in Hlt. destruct (nth_error (w_files w) v) as [f0|] eqn:E0; [|contradiction]. apply (i_ro _ _ _ D k' v f0 Hin Ev E0). rewrite <- (Hkind v f0 f E0 Ef). exact Hx'.
    + destruct (Hk v Ev) as (f0 & Ef0 & Hc). assert (f0 = f) as -> by congruence. exact (Hc Hx').
Qed.
Lemma hand_on_shows n v flag : shows_hand (hand_on n v flag) (hand_of v flag).
Proof. repeat split. Qed.
Lemma hand_of_range v flag : in_range (k_hand (hand_of v flag)).
Proof. cbn. unfold in_range, max_int64. cbn. lia. Qed.
Lemma not_changing fl flag : may_change fl flag = false -> can_write fl flag = false.
Proof. unfold may_change. destruct (can_write fl flag); [discriminate|reflexivity]. Qed.
Lemma cut_sim fl g w f flag : shows_file w f -> fine w -> can_write fl flag = true -> (c_fixed f = true -> can_write fl flag = false) ->
  exists w1 h1, file_call fl g w true {| h_flag := flag; h_off := 0 |} (MTruncate 0) = (w1, h1, MOk 0 [] 0%N) /\ shows_file w1 (cut f) /\ fine w1.
Proof.
  intros Hs Hg Hw Hfx. unfold file_call. cbn [negb h_flag]. rewrite writable_is, Hw. cbn [negb]. destruct w as [b|d].
  - unfold inner_call, mem_step. cbn [h_flag]. rewrite writable_is, Hw. cbn [negb]. unfold truncate. cbn [Z.ltb Z.compare]. pose proof Hg as (Hb & _). replace (0 <? 0 - s_len b)%Z with false by lia. eexists _, _. split; [reflexivity|].
    assert (c_fixed f = false) as E. { destruct (c_fixed f); [|reflexivity]. discriminate (eq_trans (eq_sym Hw) (Hfx eq_refl)). }
    unfold cut. rewrite E. split; [|split; [|split]]; cbn.
    + split; [reflexivity|]. split; [|split; [discriminate|intros [d Ed]; discriminate]]. intros k. cbn. unfold byt, zget. destruct (k <? 0)%Z; [reflexivity|]. now destruct (Z.to_nat k).
    + unfold s_cap. cbn. lia.
    + unfold max_int64. lia.
    + intros k _. unfold byt, zget. destruct (k <? 0)%Z; [reflexivity|]. now destruct (Z.to_nat k).
  - destruct Hs as (_ & _ & Ek). rewrite Hfx in Hw; [discriminate|]. apply Ek. eauto.
Qed.
Lemma same_files (fs : list dfile) v f f' : nth_error fs v = Some f -> nth_error fs v = Some f' -> c_fixed f' = c_fixed f.
Proof. congruence. Qed.
Lemma there_sim fl g s w name flag : dgood fl s w ->
  exists s', SynthData_Model.open_there fl g s name flag = Some (s', snd (opens_there fl w name flag)) /\ dgood fl s' (fst (opens_there fl w name flag)).
Proof.
  intros D. pose proof (i_good _ _ _ D) as G. unfold SynthData_Model.open_there, opens_there. pose proof (resolve_sim _ _ G name true) as Hr. destruct (resolve (st_heap (d_tree s)) 0 name true) as [f|e]; [|rewrite Hr; exists s; split; [reflexivity|exact D]].
  destruct Hr as (p & -> & Ep). rewrite (shown _ _ G p _ Ep). unfold seen. destruct (nodes (st_heap (d_tree s)) (f_node f)) as [[m pa es|m v|m tg]|]; cbn [option_map look_of]; try (exists s; split; [reflexivity|exact D]).
  - rewrite write_op_is. destruct (may_change fl flag); [exists s; split; [reflexivity|exact D]|]. eexists. split; [reflexivity|]. cbn [fst snd].
    apply add_hand; [exact D|now apply bump_good|apply (i_files _ _ _ D)|apply (i_fine _ _ _ D)|apply (i_len _ _ _ D)|lia|apply same_files|apply hand_on_shows|apply hand_of_range|discriminate].
  - destruct (nth_error (d_views s) v) as [x|] eqn:Ev; [|rewrite (Forall2_none _ _ _ _ (i_files _ _ _ D) Ev); exists s; split; [reflexivity|exact D]].
    destruct (Forall2_nth _ _ _ _ _ (i_files _ _ _ D) Ev) as (c & Ec & Hc). rewrite Ec. assert (fine x) as Hg by (apply (proj1 (Forall_forall _ _) (i_fine _ _ _ D)), (nth_error_In _ _ Ev)).
    assert (negb (view_opens fl x flag) = c_fixed c && may_change fl flag) as Eo.
    { destruct Hc as (_ & _ & Hk). destruct x as [b|d]; cbn [view_opens negb].
      - destruct (c_fixed c); [|reflexivity]. destruct (proj1 Hk eq_refl) as [d E]. discriminate.
      - rewrite (proj2 Hk (ex_intro _ d eq_refl)), write_op_is. now destruct (may_change fl flag). }
    rewrite Eo. destruct (c_fixed c && may_change fl flag) eqn:Eb; [exists s; split; [reflexivity|exact D]|].
    assert (c_fixed c = true -> can_write fl flag = false) as Hro. { intros E. rewrite E in Eb. now apply not_changing. }
    rewrite has_flagged, writable_is. destruct (has flag (f_trunc (f_all fl)) && can_write fl flag) eqn:Et.
    + apply andb_prop in Et. destruct Et as [_ Ew]. destruct (cut_sim fl g x c flag Hc Hg Ew Hro) as (x1 & h1 & E1 & Hs1 & Hg1). cbn [hand_on d_hand]. rewrite E1. eexists. split; [reflexivity|]. cbn [fst snd]. rewrite at_nth_set.
      assert (c_fixed (cut c) = c_fixed c) as Efx. { unfold cut. destruct (c_fixed c) eqn:E; [exact E|reflexivity]. }
      apply add_hand; [exact D|now apply bump_good|apply Forall2_set; [apply (i_files _ _ _ D)|exact Hs1]|apply set_nth_Forall; [apply (i_fine _ _ _ D)|exact Hg1]|rewrite set_nth_length; apply (i_len _ _ _ D)|rewrite set_nth_length; lia| |apply hand_on_shows|apply hand_of_range|].
      * intros v' c0 c1 E0 E2. destruct (Nat.eq_dec v v') as [<-|Hne]; [rewrite (nth_set_same _ _ _ _ Ec) in E2|rewrite nth_set_other in E2 by exact Hne; congruence]. apply some_inj in E2. subst c1. assert (c0 = c) as -> by congruence. exact Efx.
      * cbn. intros v' E. apply some_inj in E. subst v'. exists (cut c). split; [exact (nth_set_same _ _ _ _ Ec)|]. rewrite Efx. exact Hro.
    + eexists. split; [reflexivity|]. cbn [fst snd].
      apply add_hand; [exact D|now apply bump_good|apply (i_files _ _ _ D)|apply (i_fine _ _ _ D)|apply (i_len _ _ _ D)|lia|apply same_files|apply hand_on_shows|apply hand_of_range|].
      cbn. intros v' E. apply some_inj in E. subst v'. exists c. split; [exact Ec|exact Hro].
Qed.
Lemma open_data_sim fl g s w name flag perm : dgood fl s w ->
  exists s', open fl g s name flag perm = Some (s', snd (opens fl w name flag perm)) /\ dgood fl s' (fst (opens fl w name flag perm)).
Proof.
  intros D. pose proof (i_good _ _ _ D) as G. unfold open, opens. rewrite !has_flagged. destruct (has flag (f_create (f_all fl))); [|now apply there_sim].
  pose proof (parent_sim _ _ G name) as Hp. destruct (resolve_parent (st_heap (d_tree s)) 0 name) as [[d base]|e]; [|rewrite Hp; exists s; split; [reflexivity|exact D]].
  destruct Hp as (p & -> & Ep & Hd). rewrite (shown_child _ _ G p d base Ep). destruct (lookup (st_heap (d_tree s)) d base) as [n|] eqn:El.
  - pose proof (listed_node _ d base n (g_inv _ _ G) El) as Hn. unfold seen. destruct (nodes (st_heap (d_tree s)) n); [|contradiction]. cbn [option_map]. rewrite ?(has_flagged flag (f_excl fl)). destruct (has flag (f_excl fl)); [exists s; split; [reflexivity|exact D]|]. now apply there_sim.
  - assert (good (fst (enter_file (st_heap (d_tree s)) d base perm 0)) (new_file (w_tree w) (p ++ [base]) perm 0)) as G1 by (apply (file_sim _ (w_tree w) p d); auto; congruence).
    destruct (enter_file (st_heap (d_tree s)) d base perm 0) as [h1 n]. cbn [fst] in G1. eexists. split; [reflexivity|]. cbn [fst snd].
    assert (next_view (st_heap (d_tree s)) = length (w_files w)) as En by (rewrite (proj1 (proj2 (g_shows _ _ G))), (i_len _ _ _ D); reflexivity). rewrite En.
    apply add_hand; [exact D|now apply bump_good|apply Forall2_app; [apply (i_files _ _ _ D)|repeat constructor; apply holds_none]|apply Forall_app; split; [apply (i_fine _ _ _ D)|repeat constructor; apply empty_fine]| | | |apply hand_on_shows|apply hand_of_range|].
    + cbn [new_file t_files]. rewrite !app_length, (i_len _ _ _ D). reflexivity.
    + rewrite app_length. lia.
    + intros v c c' E E'. rewrite nth_error_app1 in E' by (apply nth_error_Some; congruence). congruence.
    + cbn. intros v E. apply some_inj in E. subst v. exists no_bytes. split; [|discriminate]. rewrite nth_error_app2, Nat.sub_diag by lia. reflexivity.
Qed.

Lemma same_fixed fl f k o : c_fixed (fst (fst (method fl f k o))) = c_fixed f.
Proof.
  unfold method. destruct o; try reflexivity; (destruct (k_open k); cbn [negb]; [|reflexivity]); match goal with |- context [if ?b then _ else _] => destruct b end; try reflexivity; destruct (a_step _ _ _) as [a [r|]]; reflexivity.
Qed.
Lemma dstep_sim given fl g s w o : (forall x, (zlen (given x) <= max_int64)%Z) -> dgood fl s w -> allowed fl g w o ->
  exists s', dstep given fl g s o = Some (s', snd (does given fl w o)) /\ dgood fl s' (fst (does given fl w o)).
Proof.
  intros Hgiven D A. pose proof (i_good _ _ _ D) as G. destruct o as [o|name flag perm|name|i o].
  - destruct A as (B & N & I). destruct (tree_sim given fl s w o Hgiven D B N I) as (s' & E & D'). exists s'. cbn [dstep]. rewrite E. split; [reflexivity|exact D'].
  - destruct (open_data_sim fl g s w name flag perm D) as (s' & E & D'). exists s'. cbn [dstep does fst snd]. rewrite E. split; [reflexivity|exact D'].
  - exists s. split; [|exact D]. cbn [dstep does snd]. pose proof (resolve_sim _ _ G name true) as Hr. destruct (resolve (st_heap (d_tree s)) 0 name true) as [f|e]; [|rewrite Hr; reflexivity].
    destruct Hr as (p & -> & Ep). rewrite (shown _ _ G p _ Ep). unfold seen. destruct (nodes (st_heap (d_tree s)) (f_node f)) as [[m pa es|m v|m tg]|]; cbn [option_map look_of]; try reflexivity.
    destruct (nth_error (d_views s) v) as [x|] eqn:Ev; [|now rewrite (Forall2_none _ _ _ _ (i_files _ _ _ D) Ev)]. destruct (Forall2_nth _ _ _ _ _ (i_files _ _ _ D) Ev) as (c & Ec & Hc). rewrite Ec.
    rewrite (size_is x c Hc); [reflexivity|]. apply (proj1 (Forall_forall _ _) (i_fine _ _ _ D)), (nth_error_In _ _ Ev).
  - destruct A as (Hf & Ho & Hw). cbn [dstep does]. destruct (nth_error (d_hands s) i) as [x|] eqn:Ex; [|rewrite (Forall2_none _ _ _ _ (i_hands _ _ _ D) Ex); exists s; split; [reflexivity|exact D]].
    destruct (Forall2_nth _ _ _ _ _ (i_hands _ _ _ D) Ex) as (k & Ek & H1 & H2 & H3). rewrite Ek. pose proof (nth_error_In _ _ Ek) as Hin. pose proof (proj1 (Forall_forall _ _) (i_range _ _ _ D) k Hin) as Hr.
    assert (o = MClose \/ o <> MClose) as [-> |Hc] by (destruct o; (left; reflexivity) || (right; discriminate)).
    { eexists. split; [reflexivity|]. cbn [fst snd]. rewrite at_nth_set. unfold close. destruct (d_live x) eqn:El.
      - constructor; cbn [d_tree d_views d_hands w_tree w_files w_hands with_heap st_heap st_roots]; try apply D.
        + apply dropref_good, G.
        + apply Forall2_set; [apply (i_hands _ _ _ D)|]. split; [exact H1|]. split; [exact H2|reflexivity].
        + apply set_nth_Forall; [apply (i_range _ _ _ D)|exact Hr].
        + intros k' v Hk' Ev. apply In_set in Hk'. destruct Hk' as [-> |Hk']; [exact (i_known _ _ _ D k v Hin Ev)|exact (i_known _ _ _ D k' v Hk' Ev)].
        + intros k' v f Hk' Ev Ef. apply In_set in Hk'. destruct Hk' as [-> |Hk']; [exact (i_ro _ _ _ D k v f Hin Ev Ef)|exact (i_ro _ _ _ D k' v f Hk' Ev Ef)].
      - replace {| k_file := k_file k; k_hand := k_hand k; k_open := false |} with k by (destruct k; cbn in *; congruence). rewrite (set_nth_same _ _ _ Ek). destruct w; exact D. }
    assert (forall A (a b : A), match o with MClose => a | _ => b end = b) as Hm by (intros; destruct o; reflexivity || (exfalso; now apply Hc)). rewrite !Hm. rewrite H1. destruct (k_file k) as [v|] eqn:Efile; [|exists s; split; [reflexivity|exact D]].
    destruct (nth_error (d_views s) v) as [y|] eqn:Ev; [|rewrite (Forall2_none _ _ _ _ (i_files _ _ _ D) Ev); exists s; split; [reflexivity|exact D]].
    destruct (Forall2_nth _ _ _ _ _ (i_files _ _ _ D) Ev) as (c & Ec & Hc'). rewrite Ec. assert (fine y) as Hg by (apply (proj1 (Forall_forall _ _) (i_fine _ _ _ D)), (nth_error_In _ _ Ev)).
    pose proof (same_fixed fl c k o) as Hsf.
    destruct (method_sim fl g y c k o Hc' Hg Hr Hf Hc Ho (Hw k v c Ek Efile Ec) (i_ro _ _ _ D k v c Hin Efile Ec)) as (y1 & h1 & r & c1 & E1 & E2 & Hs1 & Hg1 & Hr1 & Hk1 & Hfl).
    rewrite H2, H3, E1. rewrite E2 in Hsf |- *. eexists. split; [reflexivity|]. cbn [fst snd]. rewrite !at_nth_set.
    constructor; cbn [d_tree d_views d_hands w_tree w_files w_hands]; try apply D.
    + apply Forall2_set; [apply (i_files _ _ _ D)|exact Hs1].
    + apply Forall2_set; [apply (i_hands _ _ _ D)|]. split; [exact H1|]. split; [reflexivity|exact H3].
    + apply set_nth_Forall; [apply (i_fine _ _ _ D)|exact Hg1].
    + apply set_nth_Forall; [apply (i_range _ _ _ D)|exact Hr1].
    + rewrite set_nth_length. apply (i_len _ _ _ D).
    + intros k' v' Hk' Ev'. rewrite set_nth_length. apply In_set in Hk'. destruct Hk' as [-> |Hk']; [exact (i_known _ _ _ D k v' Hin (eq_trans Efile Ev'))|exact (i_known _ _ _ D k' v' Hk' Ev')].
    + assert (forall v' f', nth_error (set_nth (w_files w) v c1) v' = Some f' -> exists f0, nth_error (w_files w) v' = Some f0 /\ c_fixed f' = c_fixed f0) as Hold.
      { intros v' f' E. destruct (Nat.eq_dec v v') as [<-|Hne]; [rewrite (nth_set_same _ _ _ _ Ec) in E; apply some_inj in E; subst f'; eauto|rewrite nth_set_other in E by exact Hne; eauto]. }
      intros k' v' f' Hk' Ev' Ef' Hx. destruct (Hold v' f' Ef') as (f0 & Ef0 & Hfx). rewrite Hfx in Hx. apply In_set in Hk'. destruct Hk' as [-> |Hk'].
      * cbn [k_hand k_file] in *. rewrite Hfl. exact (i_ro _ _ _ D k v' f0 Hin (eq_trans Efile Ev') Ef0 Hx).
      * exact (i_ro _ _ _ D k' v' f0 Hk' Ev' Ef0 Hx).
Qed.
Lemma drun_sim given fl g os : (forall x, (zlen (given x) <= max_int64)%Z) -> forall s w, dgood fl s w -> all_allowed given fl g w os ->
  exists s', drun given fl g s os = Some (s', says given fl w os) /\ dgood fl s' (makes given fl w os).
Proof.
  intros Hgiven. induction os as [|o os IH]; intros s w D A; [exists s; split; [reflexivity|exact D]|]. destruct A as [A1 A2]. destruct (dstep_sim given fl g s w o Hgiven D A1) as (s1 & E1 & D1). destruct (IH s1 _ D1 A2) as (s2 & E2 & D2).
  exists s2. cbn [drun says]. rewrite E1, E2. split; [reflexivity|exact D2].
Qed.
Lemma begin_good fl mode : dgood fl (dnew mode) (begin mode).
Proof. constructor; cbn; try constructor; try apply start_good; try reflexivity; contradiction. Qed.
Lemma data_history given fl g mode os : (forall x, (zlen (given x) <= max_int64)%Z) -> all_allowed given fl g (begin mode) os ->
  exists s, drun given fl g (dnew mode) os = Some (s, says given fl (begin mode) os) /\ shows_world s (makes given fl (begin mode) os).
Proof.
  intros Hg A. destruct (drun_sim given fl g os Hg _ _ (begin_good fl mode) A) as (s & E & D). exists s. split; [exact E|]. split; [apply (g_shows _ _ (i_good _ _ _ D))|]. split; [apply (i_files _ _ _ D)|apply (i_hands _ _ _ D)].
Qed.

(* What each kind of call leaves alone. *)
Lemma tree_leaves given fl g s o s' r : dstep given fl g s (DTree o) = Some (s', r) ->
  d_hands s' = d_hands s /\ exists new, d_views s' = d_views s ++ new /\ Forall (fun v => exists x, v = VBytes (given x)) new.
Proof.
  cbn [dstep]. unfold tree_call. destruct (step false (d_tree s) o) as [[t1 r1]|]; cbn [named]; [|discriminate]. intros E. apply some_inj in E. injection E as <- <-. cbn [d_hands d_views]. split; [reflexivity|]. eexists. split; [reflexivity|].
  apply Forall_forall. intros v Hv. apply in_map_iff in Hv. destruct Hv as (k & <- & _). eauto.
Qed.
Lemma trees_leave given fl g os : forall s s' rs, drun given fl g s (map DTree os) = Some (s', rs) ->
  d_hands s' = d_hands s /\ exists new, d_views s' = d_views s ++ new.
Proof.
  induction os as [|o os IH]; intros s s' rs E; cbn [drun map] in E.
  - apply some_inj in E. injection E as <- <-. split; [reflexivity|]. exists []. now rewrite app_nil_r.
  - destruct (dstep given fl g s (DTree o)) as [[s1 r1]|] eqn:E1; [|discriminate]. destruct (drun given fl g s1 (map DTree os)) as [[s2 r2]|] eqn:E2; [|discriminate]. apply some_inj in E. injection E as <- <-.
    destruct (tree_leaves _ _ _ _ _ _ _ E1) as (H1 & n1 & V1 & _). destruct (IH _ _ _ E2) as (H2 & n2 & V2). split; [congruence|]. exists (n1 ++ n2). rewrite V2, V1. now rewrite app_assoc.
Qed.
Lemma handles_outlive given fl g os s s1 rs i x v w o : drun given fl g s (map DTree os) = Some (s1, rs) ->
  nth_error (d_hands s) i = Some x -> d_file x = Some v -> nth_error (d_views s) v = Some w ->
  option_map snd (dstep given fl g s1 (DCall i o)) = option_map snd (dstep given fl g s (DCall i o)).
Proof.
  intros E Ex Ev Ew. destruct (trees_leave _ _ _ _ _ _ _ E) as (H & new & V). cbn [dstep]. rewrite H, Ex. assert (nth_error (d_views s1) v = Some w) as Ew1 by (rewrite V, nth_error_app1 by (apply nth_error_Some; congruence); exact Ew).
  rewrite Ev, Ew, Ew1. destruct (file_call fl g w (d_live x) (d_hand x) o) as [[w1 h1] r]. destruct o; reflexivity.
Qed.
Lemma drop_seen h n p : seen_at (drop_ref h n) 0 p = seen_at h 0 p.
Proof.
  assert (forall d l, at_path (drop_ref h n) d l = at_path h d l) as Hp by (intros d l; revert d; induction l as [|c l IH]; intros d; cbn; [reflexivity|rewrite SynthTree_Proofs.drop_lookup; destruct (lookup h d c); [apply IH|reflexivity]]).
  unfold seen_at. rewrite Hp. destruct (at_path h 0 p) as [k|]; [|reflexivity]. destruct (nodes h k) eqn:E; [apply seen_drop; congruence|].
  unfold seen, drop_ref. destruct (nodes h n) eqn:En; [|reflexivity]. rewrite nodes_set. destruct (Nat.eqb_spec k n); [congruence|reflexivity].
Qed.
Lemma call_leaves given fl g s i o s' r : dstep given fl g s (DCall i o) = Some (s', r) ->
  (forall p, seen_at (st_heap (d_tree s')) 0 p = seen_at (st_heap (d_tree s)) 0 p) /\
  (forall j, j <> i -> nth_error (d_hands s') j = nth_error (d_hands s) j) /\
  (forall v, (forall x, nth_error (d_hands s) i = Some x -> d_file x <> Some v) -> nth_error (d_views s') v = nth_error (d_views s) v).
Proof.
  assert (forall s0 : dstate, (forall p, seen_at (st_heap (d_tree s0)) 0 p = seen_at (st_heap (d_tree s0)) 0 p) /\ (forall j, j <> i -> nth_error (d_hands s0) j = nth_error (d_hands s0) j) /\
    (forall v, (forall x, nth_error (d_hands s0) i = Some x -> d_file x <> Some v) -> nth_error (d_views s0) v = nth_error (d_views s0) v)) as Hid by (intros; repeat split; reflexivity).
  cbn [dstep]. destruct (nth_error (d_hands s) i) as [x|] eqn:Ex; [|intros E; apply some_inj in E; injection E as <- <-; repeat split; reflexivity].
  assert (o = MClose \/ o <> MClose) as [-> |Hc] by (destruct o; (left; reflexivity) || (right; discriminate)).
  - intros E. apply some_inj in E. injection E as <- <-. unfold close. destruct (d_live x); [|repeat split; reflexivity]. cbn [d_tree d_views d_hands with_heap st_heap]. split; [|split; [|reflexivity]].
    + intros p. apply drop_seen.
    + intros j Hj. apply nth_set_other. congruence.
  - assert (forall A (a b : A), match o with MClose => a | _ => b end = b) as Hm by (intros; destruct o; reflexivity || (exfalso; now apply Hc)). rewrite !Hm.
    destruct (d_file x) as [v|] eqn:Ev; [|intros E; apply some_inj in E; injection E as <- <-; repeat split; reflexivity].
    destruct (nth_error (d_views s) v) as [w|] eqn:Ew; [|intros E; apply some_inj in E; injection E as <- <-; repeat split; reflexivity].
    destruct (file_call fl g w (d_live x) (d_hand x) o) as [[w1 h1] r1]. intros E. apply some_inj in E. injection E as <- <-. cbn [d_tree d_views d_hands]. split; [reflexivity|]. split.
    + intros j Hj. apply nth_set_other. congruence.
    + intros v' Hv. apply nth_set_other. intros ->. exact (Hv x eq_refl Ev).
Qed.

(* What is written is read back under any name the file has later. *)
Lemma says_app given fl os1 os2 : forall w, says given fl w (os1 ++ os2) = says given fl w os1 ++ says given fl (makes given fl w os1) os2.
Proof. induction os1 as [|o os IH]; intros w; [reflexivity|]. cbn [says app makes fold_left]. f_equal. apply IH. Qed.
Lemma says_len given fl os : forall w, length (says given fl w os) = length os.
Proof. induction os as [|o os IH]; intros w; cbn; [reflexivity|f_equal; apply IH]. Qed.
Lemma names_keep given fl os : forall w, w_hands (makes given fl w (map DTree os)) = w_hands w /\ exists new, w_files (makes given fl w (map DTree os)) = w_files w ++ new.
Proof.
  induction os as [|o os IH]; intros w; [split; [reflexivity|]; exists []; now rewrite app_nil_r|]. cbn [map makes fold_left]. destruct (IH (fst (does given fl w (DTree o)))) as (H & new & E). split; [exact H|].
  change (fold_left _ (map DTree os) ?x) with (makes given fl x (map DTree os)). rewrite E. cbn [does fst w_files]. rewrite <- app_assoc. eauto.
Qed.
Lemma written_read f p off : p <> [] -> writes_at p off = true -> a_read (put_bytes f p off) (zlen p) off = MOk (zlen p) p e_nil.
Proof.
  intros Hp Hw. unfold writes_at in Hw. apply andb_true_iff in Hw. destruct Hw as [H0 _]. apply Z.leb_le in H0. assert (0 < zlen p)%Z as Hz by (destruct p; [contradiction|unfold zlen; cbn; lia]).
  assert (a_len (put_bytes f p off) = Z.max (a_len f) (off + zlen p)) as Hl by (unfold put_bytes; destruct p; [contradiction|reflexivity]).
  unfold a_read, a_count. rewrite Hl. destruct (Z.ltb_spec off 0); [lia|]. destruct (Z.leb_spec (Z.max (a_len f) (off + zlen p)) off); [lia|].
  replace (Z.max 0 (Z.min (zlen p) (Z.max (a_len f) (off + zlen p) - off))) with (zlen p) by lia. rewrite Z.ltb_irrefl. f_equal.
  unfold a_range. assert (forall k, a_at (put_bytes f p off) k = match zget p (k - off) with Some x => x | None => a_at f k end) as Ha by (intros; unfold put_bytes; destruct p; [contradiction|reflexivity]).
  apply (nth_ext _ _ 0%N 0%N); [rewrite map_length, seq_length; unfold zlen; lia|]. intros n Hn. rewrite map_length, seq_length in Hn.
  rewrite (nth_indep _ 0%N ((fun k => a_at (put_bytes f p off) (off + Z.of_nat k)) 0)) by (rewrite map_length, seq_length; exact Hn).
  rewrite (map_nth (fun k => a_at (put_bytes f p off) (off + Z.of_nat k))), seq_nth by exact Hn. rewrite Ha. replace (off + Z.of_nat (0 + n) - off)%Z with (Z.of_nat n) by lia.
  unfold zget. destruct (Z.ltb_spec (Z.of_nat n) 0); [lia|]. rewrite Nat2Z.id. destruct (nth_error p n) as [x|] eqn:E; [symmetry; now apply nth_error_nth|]. apply nth_error_None in E. unfold zlen in Hn. lia.
Qed.
Lemma reads_back given fl g mode os names i k v p off name q m flag perm :
  let w := makes given fl (begin mode) os in
  let w1 := fst (does given fl w (DCall i (MWriteAt p off))) in
  let later := makes given fl w1 (map DTree names) in
  let j := length (w_hands w) in
  let all := os ++ DCall i (MWriteAt p off) :: map DTree names ++ [DOpen name flag perm; DCall j (MReadAt (zlen p) off)] in
  (forall x, (zlen (given x) <= max_int64)%Z) -> all_allowed given fl g (begin mode) all ->
  p <> [] -> nth_error (w_hands w) i = Some k -> k_file k = Some v -> snd (does given fl w (DCall i (MWriteAt p off))) = RData (MOk (zlen p) [] e_nil) ->
  leads_to (w_tree later) name true = Ok q -> pat (w_tree later) q = Some (Synth_Spec.LookFile m v) -> may_change fl flag = false ->
  exists s rs, drun given fl g (dnew mode) all = Some (s, rs ++ [RName (Ok tt); RData (MOk (zlen p) p e_nil)]).
Proof.
  intros w w1 later j all Hg A Hp Ek Ev Er El Ep Hm. destruct (drun_sim given fl g all Hg _ _ (begin_good fl mode) A) as (s & E & _). exists s.
  exists (says given fl (begin mode) os ++ snd (does given fl w (DCall i (MWriteAt p off))) :: says given fl w1 (map DTree names)). rewrite E. unfold all. rewrite says_app. cbn [says]. fold w. fold w1. rewrite says_app. fold later. rewrite <- app_assoc. cbn [app].
  enough (says given fl later [DOpen name flag perm; DCall j (MReadAt (zlen p) off)] = [RName (Ok tt); RData (MOk (zlen p) p e_nil)]) as -> by reflexivity.
  assert (exists f1, w_files w1 = at_nth (w_files w) v f1 /\ length (w_hands w1) = j /\ (v < length (w_files w)) /\ forall h, a_read (alone f1 h) (zlen p) off = MOk (zlen p) p e_nil) as (f1 & Hf1 & Hh1 & Hv1 & Hr1).
  { unfold w1. cbn [does] in *. rewrite Ek, Ev in *. destruct (nth_error (w_files w) v) as [f|] eqn:Ef; [|discriminate]. destruct (method fl f k (MWriteAt p off)) as [[f1 h1] r] eqn:Em. cbn [fst snd w_files w_hands] in *. exists f1. split; [reflexivity|]. split; [rewrite at_nth_set; apply set_nth_length|]. split; [apply nth_error_Some; congruence|].
    assert (r = MOk (zlen p) [] e_nil) as -> by congruence. unfold method in Em. destruct (k_open k); cbn [negb] in Em; [|injection Em as _ _ Ez; destruct p; [contradiction|discriminate]].
    cbn [asks_read asks_write andb orb] in Em. destruct (can_write fl (h_flag (k_hand k))) eqn:Ecw; cbn [negb] in Em; [|injection Em as _ _ Ez; destruct p; [contradiction|discriminate]].
    cbn [a_step a_handles alone nth_error] in Em. destruct (appends (f_all fl) (h_flag (k_hand k))); [injection Em as _ _ Ez; unfold quiet in Ez; destruct (c_fixed f), p; try contradiction; discriminate|]. rewrite writable_is, Ecw in Em.
    destruct (writes_at p off) eqn:Ewr; [|injection Em as _ _ Ez; unfold quiet in Ez; destruct (c_fixed f), p; try contradiction; discriminate]. injection Em as <- _ _. intros h. etransitivity; [|exact (written_read (alone f h) p off Hp Ewr)].
    unfold a_read, a_count, a_range, put_bytes, alone, back. destruct p; [contradiction|]. reflexivity. }
  destruct (names_keep given fl names w1) as (Hh2 & new & Hf2). fold later in Hh2, Hf2.
  assert (nth_error (w_files later) v = Some f1) as Ef2 by (rewrite Hf2, nth_error_app1 by (rewrite Hf1, at_nth_set, set_nth_length; exact Hv1); rewrite Hf1, at_nth_set, nth_set, Nat.eqb_refl; destruct (Nat.ltb_spec v (length (w_files w))); [reflexivity|lia]).
  assert (has flag (f_create (f_all fl)) = false /\ has flag (f_trunc (f_all fl)) = false /\ can_read fl flag = true) as (Hc & Ht & Hrd).
  { unfold may_change in Hm. repeat apply orb_false_iff in Hm as [Hm ?]. split; [assumption|]. split; [assumption|]. unfold can_read. rewrite Hm. reflexivity. }
  assert (does given fl later (DOpen name flag perm) = (World (w_tree later) (w_files later) (w_hands later ++ [hand_of (Some v) flag]), RName (Ok tt))) as Ed.
  { cbn [does]. unfold opens, opens_there. rewrite Hc, El, Ep, Ef2, Hm, andb_false_r, Ht. reflexivity. }
  cbn [says]. rewrite Ed. cbn [fst snd]. f_equal. f_equal. cbn [does w_hands w_files]. unfold j in *. rewrite Hh2, nth_error_app2, Hh1, Nat.sub_diag by lia. cbn [nth_error hand_of k_file]. rewrite Ef2.
  unfold method. cbn [k_open hand_of negb k_hand h_flag asks_read asks_write andb orb]. rewrite Hrd. cbn [negb]. cbn [a_step a_handles alone nth_error h_flag]. rewrite readable_is, Hrd. rewrite Hr1. cbn [snd]. unfold quiet. destruct (c_fixed f1); reflexivity.
Qed.

(* Deciding what is allowed. *)
Definition fits64 (z : Z) : bool := (min_int64 <=? z)%Z && (z <=? max_int64)%Z.
Definition op_fitsb (o : mop) : bool :=
  match o with
  | MRead n => (0 <=? n)%Z && (n <=? max_int64)%Z
  | MReadAt n off => (0 <=? n)%Z && (n <=? max_int64)%Z && fits64 off
  | MSeek off _ => fits64 off | MTruncate n => fits64 n | MWriteAt _ off => fits64 off
  | MOpen _ => false
  | _ => true
  end.
Definition by_nameb (o : sop) : bool := match o with OOpen _ _ _ | OCloseHandle _ | OAddFS _ _ _ _ _ => false | _ => true end.
Definition allowedb (fl : dflags) (g : goheap) (w : world) (o : dop) : bool :=
  match o with
  | DTree o => fitb (w_tree w) [o] && by_nameb o
  | DOpen _ _ _ | DSize _ => true
  | DCall i o =>
      op_fitsb o &&
      match nth_error (w_hands w) i with
      | Some k => match k_file k with
                  | Some v => match nth_error (w_files w) v with Some f => (wants (f_all fl) (alone f (k_hand k)) (0%nat, o) <=? max_alloc g)%Z | None => true end
                  | None => true
                  end
      | None => true
      end
  end.
Fixpoint all_allowedb (given : N -> list byte) (fl : dflags) (g : goheap) (w : world) (os : list dop) : bool :=
  match os with [] => true | o :: os => allowedb fl g w o && all_allowedb given fl g (fst (does given fl w o)) os end.
Lemma op_fitsb_fits o : op_fitsb o = true -> op_fits (0, o) /\ forall flag, o <> MOpen flag.
Proof. unfold op_fitsb, op_fits, fits64, in_int64. destruct o; cbn [snd]; rewrite ?andb_true_iff, ?Z.leb_le; intros H; split; try discriminate; try (split; (exact I || lia)). Qed.
Lemma all_allowedb_allowed given fl g os : forall w, all_allowedb given fl g w os = true -> all_allowed given fl g w os.
Proof.
  induction os as [|o os IH]; intros w H; [exact I|]. cbn [all_allowedb] in H. apply andb_true_iff in H. destruct H as [H1 H2]. split; [|now apply IH]. destruct o as [o|n f p|n|i o]; cbn [allowedb allowed] in *; try exact I.
  - apply andb_true_iff in H1. destruct H1 as [H1 H3]. apply fitb_fit in H1. destruct H1 as (Ha & Hb & _). split; [exact Ha|]. split; [|exact Hb]. destruct o; try discriminate; exact I.
  - apply andb_true_iff in H1. destruct H1 as [H1 H3]. destruct (op_fitsb_fits o H1) as [Ha Hb]. split; [exact Ha|]. split; [exact Hb|]. intros k v f Ek Ev Ef. rewrite Ek, Ev, Ef in H3. now apply Z.leb_le.
Qed.
Lemma data_names_share given fl g : ~ (forall mode os s rs p q m1 m2 v, all_allowed given fl g (begin mode) os -> drun given fl g (dnew mode) os = Some (s, rs) ->
  seen_at (st_heap (d_tree s)) 0 p = Some (LookFile m1 v) -> seen_at (st_heap (d_tree s)) 0 q = Some (LookFile m2 v) -> m1 = m2).
Proof.
  intros K. set (os := [DTree (OAddFile 0 [97%N] 0 420 448 true merge_overwrite); DTree (OLink 0 [97%N] [98%N]); DTree (OChmod 0 [97%N] false 384)]).
  assert (all_allowed given fl g (begin 493) os) as A by (apply all_allowedb_allowed; vm_compute; reflexivity).
  destruct (drun given fl g (dnew 493) os) as [[s rs]|] eqn:E; [|vm_compute in E; discriminate].
  assert (seen_at (st_heap (d_tree s)) 0 [[97%N]] = Some (LookFile 384 0) /\ seen_at (st_heap (d_tree s)) 0 [[98%N]] = Some (LookFile 420 0)) as [H1 H2].
  { assert (option_map (fun x => map (seen_at (st_heap (d_tree (fst x))) 0) [[[97%N]]; [[98%N]]]) (drun given fl g (dnew 493) os) = Some [Some (LookFile 384 0); Some (LookFile 420 0)]) as Hx by (vm_compute; reflexivity).
    rewrite E in Hx. cbn [option_map map fst] in Hx. apply some_inj in Hx. injection Hx as -> ->. split; reflexivity. }
  pose proof (K 493%N os s rs _ _ _ _ _ A E H1 H2). discriminate.
Qed.
