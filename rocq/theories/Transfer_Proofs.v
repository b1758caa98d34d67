From Verif Require Import Common CommonLemmas ContentRange_Model MultiRead_Model SeqRead_Model SeqRead_Spec Chunk_Model Chunk_Spec Chunk_Proofs
  FileClient_Model FileClient_Spec FileClient_Proofs Transfer_Model Transfer_Spec.
Open Scope Z_scope.

Lemma is_count_unique total chunk n m : is_count total chunk n -> is_count total chunk m -> n = m.
Proof.
  intros (A1 & A2 & A3) (B1 & B2 & B3). specialize (A3 m B1 B2). specialize (B3 n A1 A2). lia.
Qed.

Lemma store_set_same s k v : store_set s k v k = Some v.
Proof. unfold store_set. replace (bytes_eqb k k) with true; [reflexivity|]. symmetry. apply bytes_eqb_iff. reflexivity. Qed.
Lemma store_set_other s k v k' : k' <> k -> store_set s k v k' = s k'.
Proof.
  intros H. unfold store_set. destruct (bytes_eqb k' k) eqn:E; [|reflexivity].
  apply bytes_eqb_iff in E. contradiction.
Qed.

Section Proofs.
Variable base : str.
Variable name : Z -> str.
Variable d : list byte.
Variable chunk : Z.
Variable n : Z.
Hypothesis Hbase : plain_base base.
Hypothesis Hsz : sizes_fit (zlen d) chunk.
Hypothesis Hn : n = chunk_count (zlen d) chunk.
Hypothesis Hnames : names_ok name n.

Definition exact_at (s : store) (i : Z) : Prop := at_chunk base name s i = Some (chunk_of d chunk i).

Lemma url_inj i j : 0 <= i < n -> 0 <= j < n -> object_url base (name i) = object_url base (name j) -> i = j.
Proof.
  intros Hi Hj E. destruct Hnames as [H1 H2]. apply (H2 i j Hi Hj).
  exact (object_url_inj base _ _ (H1 i Hi) (H1 j Hj) E).
Qed.

Lemma wire_stat f s c i : faithful f -> 0 <= i < n ->
  exists r, client_step (wire f) base (s, c) (FStat (name i)) = (RStat r, (s, S c)) /\
    ((r = match at_chunk base name s i with None => TErr CNotExist | Some v => TOk (zlen v) end) \/
     (f c <> Serve /\ r = TErr COther)).
Proof.
  intros Hf Hi. destruct Hnames as [H1 _]. specialize (H1 i Hi).
  unfold client_step, wire. destruct (f c) as [| | |k|code] eqn:E.
  - cbn [plain_server stat_req h_method h_url].
    rewrite (proj1 (url_path_object base (name i) Hbase H1)). unfold at_chunk.
    eexists. split; [reflexivity|]. left. destruct (s (object_url base (name i))) as [v|]; [|reflexivity].
    cbn [stat_answer p_status p_length fst]. change (200 =? 200) with true. cbn [orb].
    destruct (Z.ltb_spec (zlen v) 0) as [X|_]; [pose proof (zlen_nonneg v); lia|reflexivity].
  - eexists. split; [reflexivity|]. right. split; [discriminate|reflexivity].
  - eexists. split; [reflexivity|]. right. split; [discriminate|reflexivity].
  - eexists. split; [reflexivity|]. right. split; [discriminate|reflexivity].
  - eexists. split; [reflexivity|]. right. split; [discriminate|].
    destruct (Hf c code E) as (A & B & C). cbn [stat_answer p_status p_length fst].
    destruct (Z.eqb_spec code 200); [lia|]. destruct (Z.eqb_spec code 204); [lia|].
    destruct (Z.eqb_spec code 404); [lia|]. destruct (Z.eqb_spec code 410); [lia|]. reflexivity.
Qed.

Lemma wire_put f s c i v : faithful f -> 0 <= i < n ->
  exists r s', client_step (wire f) base (s, c) (FPut (name i) (zlen v) v) = (RPut r, (s', S c)) /\
    ((r = None /\ s' = store_set s (object_url base (name i)) v) \/
     (f c <> Serve /\ r <> None /\ (s' = s \/ exists k, s' = store_set s (object_url base (name i)) (firstn k v)))).
Proof.
  intros Hf Hi. destruct Hnames as [H1 _]. specialize (H1 i Hi).
  pose proof (proj1 (url_path_object base (name i) Hbase H1)) as Hu.
  unfold client_step, wire. destruct (f c) as [| | |k|code] eqn:E.
  - cbn [plain_server put_req h_method h_url h_body]. rewrite Z.eqb_refl, Hu.
    eexists. eexists. split; [reflexivity|]. left. split; reflexivity.
  - eexists. eexists. split; [reflexivity|]. right. split; [discriminate|]. split; [discriminate|]. left. reflexivity.
  - cbn [plain_server put_req h_method h_url h_body]. rewrite Z.eqb_refl, Hu.
    eexists. eexists. split; [reflexivity|]. right. split; [discriminate|]. split; [discriminate|].
    right. exists (length v). rewrite firstn_all. reflexivity.
  - cbn [put_req h_method h_url h_body]. rewrite Hu.
    eexists. eexists. split; [reflexivity|]. right. split; [discriminate|]. split; [discriminate|].
    right. exists k. reflexivity.
  - eexists. eexists. split; [reflexivity|]. right. split; [discriminate|]. split; [|left; reflexivity].
    destruct (Hf c code E) as (A & _). cbn [put_answer p_status fst].
    destruct (Z.ltb_spec code 200); [discriminate|]. destruct (Z.leb_spec 300 code); [discriminate|lia].
Qed.

Lemma parts_put s i v : 0 <= i < n -> only_parts base name d chunk n s -> prefix_of v (chunk_of d chunk i) ->
  only_parts base name d chunk n (store_set s (object_url base (name i)) v).
Proof.
  intros Hi Hs Hp j w Hj Hw Hl. unfold at_chunk in Hw.
  destruct (Z.eq_dec i j) as [<-|Hij].
  - rewrite store_set_same in Hw. apply some_inj in Hw. subst w. apply prefix_same_len; assumption.
  - rewrite store_set_other in Hw by (intros E; apply Hij; symmetry; apply url_inj; assumption).
    exact (Hs j w Hj Hw Hl).
Qed.

Lemma state_over_spec f : faithful f -> forall m k s c, 0 <= k -> k + Z.of_nat m = n -> only_parts base name d chunk n s ->
  exists r c', state_over (wire f) base name (zlen d) chunk (zrange k m) (s, c) = (r, (s, c')) /\
    match r with
    | SSErr => exists t, f t <> Serve
    | SSOk off true => off = zlen d /\ forall i, k <= i < n -> exact_at s i
    | SSOk off false => exists j, off = j * chunk /\ k <= j < n /\ (forall i, k <= i < j -> exact_at s i) /\ ~ exact_at s j
    end.
Proof.
  intros Hf. induction m as [|m IH]; intros k s c Hk Hkm Hs; cbn [zrange state_over].
  - exists (SSOk (zlen d) true), c. split; [reflexivity|]. split; [reflexivity|]. intros; lia.
  - destruct (wire_stat f s c k Hf ltac:(lia)) as (r & -> & Hr).
    assert (expected_chunk_size k (zlen d) chunk = zlen (chunk_of d chunk k)) as Hexp
      by (apply expected_is_slice; [exact Hsz|lia]).
    destruct Hr as [->|[Hfc ->]].
    + destruct (at_chunk base name s k) as [v|] eqn:Ev.
      * rewrite Hexp. destruct (Z.eqb_spec (zlen v) (zlen (chunk_of d chunk k))) as [El|Nl]; cbn [negb].
        -- assert (exact_at s k) as Hex by (unfold exact_at; rewrite Ev; f_equal; apply (Hs k v); [lia|exact Ev|exact El]).
           destruct (IH (k + 1) s (S c) ltac:(lia) ltac:(lia) Hs) as (r & c' & -> & H).
           exists r, c'. split; [reflexivity|]. destruct r as [|off [|]].
           ++ exact H.
           ++ destruct H as [-> H]. split; [reflexivity|]. intros i Hi.
              destruct (Z.eq_dec i k) as [->|]; [exact Hex|apply H; lia].
           ++ destruct H as (j & -> & Hj & H1 & H2). exists j. split; [reflexivity|]. split; [lia|]. split; [|exact H2].
              intros i Hi. destruct (Z.eq_dec i k) as [->|]; [exact Hex|apply H1; lia].
        -- eexists. eexists. split; [reflexivity|]. exists k. split; [reflexivity|]. split; [lia|]. split; [intros; lia|].
           unfold exact_at. rewrite Ev. intros E. apply some_inj in E. congruence.
      * eexists. eexists. split; [reflexivity|]. exists k. split; [reflexivity|]. split; [lia|]. split; [intros; lia|].
        unfold exact_at. congruence.
    + eexists. eexists. split; [reflexivity|]. exists c. exact Hfc.
Qed.

Definition reader_at (pos : Z) (r : areader) : Prop :=
  exists rest, skipn (Z.to_nat pos) d = ar_data r ++ rest /\ (ar_err r = None -> rest = []).

Lemma append_over_spec f tmp rewind : faithful f -> forall m k s c r, 0 <= k -> k + Z.of_nat m = n ->
  reader_at (k * chunk) r -> only_parts base name d chunk n s ->
  exists ok s' c', append_over (wire f) base name (zlen d) chunk tmp rewind (zrange k m) r (s, c) = (ok, (s', c')) /\
    only_parts base name d chunk n s' /\
    (forall key, (forall i, k <= i < n -> key <> object_url base (name i)) -> s' key = s key) /\
    (ok = true -> forall i, k <= i < n -> exact_at s' i) /\
    ((forall t, f t = Serve) -> (forall i, tmp i = false) -> (forall i, rewind i = false) -> ar_err r = None -> ok = true).
Proof.
  intros Hf. induction m as [|m IH]; intros k s c r Hk Hkm Hr Hs; cbn [zrange append_over].
  - eexists. eexists. eexists. split; [reflexivity|]. split; [exact Hs|]. split; [auto|]. split; [intros; lia|auto].
  - assert (0 <= k < n) as Hkn by lia.
    assert (reader_ok d (k * chunk) r) as Hro by (destruct Hr as (rest & Hr & _); exists rest; exact Hr).
    pose proof (spool_prefix d chunk k r Hsz ltac:(lia) Hro) as Hpre.
    assert (expected_chunk_size k (zlen d) chunk = zlen (chunk_of d chunk k)) as Hexp
      by (apply expected_is_slice; [exact Hsz|lia]).
    destruct Hr as (rest & Hrest & Hend).
    set (e := expected_chunk_size k (zlen d) chunk) in *.
    set (v := zslice (ar_data r) 0 e) in *.
    assert (0 <= e) as He0 by (rewrite Hexp; apply zlen_nonneg).
    assert (zlen v = Z.min e (zlen (ar_data r))) as Hv
      by (unfold v; rewrite zslice_length by lia; pose proof (zlen_nonneg (ar_data r)); lia).
    (* a file that has not failed is not short *)
    assert (ar_err r = None -> zlen v = e) as Hfull.
    { intros E. specialize (Hend E). subst rest. rewrite app_nil_r in Hrest.
      rewrite Hv, Hexp, <- Hrest. unfold chunk_of, zslice, zlen. rewrite firstn_length. lia. }
    assert (forall w, prefix_of w (chunk_of d chunk k) ->
       only_parts base name d chunk n (store_set s (object_url base (name k)) w) /\
       (forall key, (forall i, k <= i < n -> key <> object_url base (name i)) ->
          store_set s (object_url base (name k)) w key = s key)) as Hput.
    { intros w Hw. split; [apply parts_put; assumption|]. intros key Hkey. apply store_set_other. apply Hkey. lia. }
    assert (forall (ok : bool) (s' : store) (c' : nat), ok = false -> only_parts base name d chunk n s' ->
       (forall key, (forall i, k <= i < n -> key <> object_url base (name i)) -> s' key = s key) ->
       ~ ((forall t, f t = Serve) /\ (forall i, tmp i = false) /\ (forall i, rewind i = false) /\ ar_err r = None) ->
       exists ok0 s0 c0, (ok, (s', c')) = (ok0, (s0, c0)) /\
         only_parts base name d chunk n s0 /\
         (forall key, (forall i, k <= i < n -> key <> object_url base (name i)) -> s0 key = s key) /\
         (ok0 = true -> forall i, k <= i < n -> exact_at s0 i) /\
         ((forall t, f t = Serve) -> (forall i, tmp i = false) -> (forall i, rewind i = false) -> ar_err r = None -> ok0 = true))
      as Hfail.
    { intros ok s' c' -> A1 A2 A3. exists false, s', c'. split; [reflexivity|]. split; [exact A1|]. split; [exact A2|].
      split; [discriminate|]. intros B1 B2 B3 B4. exfalso. apply A3. auto. }
    destruct (tmp k) eqn:Etmp.
    { apply Hfail; auto. intros (_ & T & _). rewrite T in Etmp. discriminate. }
    destruct (zlen v <? e) eqn:Eshort; cbn [andb].
    { assert (exists x, ar_err r = Some x) as (x & Ex).
      { destruct (ar_err r) as [x|]; [exists x; reflexivity|]. specialize (Hfull eq_refl). apply Z.ltb_lt in Eshort. lia. }
      rewrite Ex in *. apply Hfail; auto. intros (_ & _ & _ & X). discriminate. }
    assert (zlen v = e) as Hve by (apply Z.ltb_ge in Eshort; lia).
    assert (v = chunk_of d chunk k) as Hvc by (apply prefix_same_len; [exact Hpre|lia]).
    destruct (rewind k) eqn:Erw.
    { apply Hfail; auto. intros (_ & _ & T & _). rewrite T in Erw. discriminate. }
    destruct (wire_put f s c k v Hf Hkn) as (res & s1 & -> & [[-> ->]|(Hfc & Hres & Hs1)]).
    + destruct (Hput v Hpre) as [P1 P2].
      assert (reader_at ((k + 1) * chunk) (AReader (skipn (Z.to_nat e) (ar_data r)) (ar_err r))
              \/ m = O) as [Hr'| ->].
      { destruct (Z.eq_dec k (n - 1)) as [Hl|Hnl]; [right; lia|left].
        assert (e = chunk) as Hec by (apply expected_props; [exact Hsz|lia|lia]).
        exists rest. cbn [ar_data ar_err]. split; [|exact Hend].
        replace (Z.to_nat ((k + 1) * chunk)) with (Z.to_nat (k * chunk) + Z.to_nat e)%nat.
        2:{ destruct Hsz as (_ & Hc & _). rewrite <- Z2Nat.inj_add by nia. f_equal. lia. }
        rewrite <- skipn_skipn', Hrest, skipn_app.
        replace (Z.to_nat e - length (ar_data r))%nat with O by (unfold zlen in *; lia). reflexivity. }
      * destruct (IH (k + 1) _ (S c) _ ltac:(lia) ltac:(lia) Hr' P1) as (ok & s' & c' & -> & I1 & I2 & I3 & I4).
        exists ok, s', c'. split; [reflexivity|]. split; [exact I1|]. split.
        { intros key Hkey. rewrite I2 by (intros i Hi; apply Hkey; lia). apply P2. exact Hkey. }
        split; [|exact I4]. intros Hok i Hi. destruct (Z.eq_dec i k) as [->|Hik]; [|apply I3; [exact Hok|lia]].
        unfold exact_at, at_chunk. rewrite I2; [rewrite store_set_same; congruence|].
        intros j Hj E. apply url_inj in E; lia.
      * cbn [zrange append_over]. eexists. eexists. eexists. split; [reflexivity|]. split; [exact P1|]. split; [exact P2|].
        split; [|auto]. intros _ i Hi. assert (i = k) as -> by lia. unfold exact_at, at_chunk. rewrite store_set_same. congruence.
    + destruct res as [x|]; [|contradiction].
      assert (~ ((forall t, f t = Serve) /\ (forall i, tmp i = false) /\ (forall i, rewind i = false) /\ ar_err r = None)) as Hno
        by (intros (X & _); apply Hfc; apply X).
      destruct Hs1 as [->|(j & ->)]; [apply Hfail; auto|].
      destruct (Hput (firstn j v) (prefix_firstn _ _ _ Hpre)) as [P1 P2]. apply Hfail; auto.
Qed.

Lemma push_spec c s : pcall_ok d c -> only_parts base name d chunk n s ->
  exists r s', run_push base name (zlen d) chunk c s = (r, s') /\
    only_parts base name d chunk n s' /\
    (forall key, (forall i, 0 <= i < n -> key <> object_url base (name i)) -> s' key = s key) /\
    (forall j, j <= n -> (forall i, 0 <= i < j -> exact_at s i) -> forall i, 0 <= i < j -> exact_at s' i) /\
    (r = PushComplete -> s' = s /\ holds_file base name d chunk n s') /\
    (r = PushCommitted -> d <> [] -> holds_file base name d chunk n s') /\
    (calm d c -> r <> PushErr).
Proof.
  intros [Hf [Hlsz Hread]] Hs. destruct (chunk_count_bounds _ _ Hsz) as (Hn1 & Hn2 & Hn3 & Hn4). rewrite <- Hn in *.
  unfold run_push, push_over.
  assert (forall s', s' = s -> ~ calm d c ->
    exists r s0, (PushErr, s') = (r, s0) /\
    only_parts base name d chunk n s0 /\
    (forall key, (forall i, 0 <= i < n -> key <> object_url base (name i)) -> s0 key = s key) /\
    (forall j, j <= n -> (forall i, 0 <= i < j -> exact_at s i) -> forall i, 0 <= i < j -> exact_at s0 i) /\
    (r = PushComplete -> s0 = s /\ holds_file base name d chunk n s0) /\
    (r = PushCommitted -> d <> [] -> holds_file base name d chunk n s0) /\
    (calm d c -> r <> PushErr)) as Hnop.
  { intros s' -> Hc. exists PushErr, s. repeat split; auto; try discriminate. }
  destruct (l_open (pc_local c)) eqn:E1.
  { cbn [fst]. apply Hnop; [reflexivity|]. intros (_ & _ & _ & X & _). rewrite X in E1. discriminate. }
  destruct (l_stat (pc_local c)) eqn:E2.
  { cbn [fst]. apply Hnop; [reflexivity|]. intros (_ & _ & _ & X & _). rewrite X in E2. discriminate. }
  destruct ((0 <=? pc_size c) && negb (pc_size c =? l_size (pc_local c))) eqn:E3.
  { cbn [fst]. apply Hnop; [reflexivity|]. intros (_ & _ & _ & X & Y). rewrite Hlsz in E3.
    destruct (Z.leb_spec 0 (pc_size c)); [|discriminate]. destruct Y as [Y|Y]; [lia|].
    rewrite Y, Z.eqb_refl in E3. discriminate. }
  unfold sink_state_over. rewrite <- Hn.
  destruct (state_over_spec (pc_net c) Hf (Z.to_nat n) 0 s O ltac:(lia) ltac:(lia) Hs) as (r & c1 & -> & H).
  destruct r as [|off [|]].
  - cbn [fst]. apply Hnop; [reflexivity|]. destruct H as (t & Ht). intros (X & _). apply Ht. apply X.
  - destruct H as [_ H]. exists PushComplete, s. split; [reflexivity|]. repeat split; auto; try discriminate.
  - destruct H as (j & -> & Hj & He & Hne). rewrite Hlsz.
    destruct (Z.eq_dec (zlen d) 0) as [Ed|Ed].
    { assert (j = 0) as -> by (specialize (Hn4 Ed); lia). rewrite Ed. cbn [Z.mul Z.ltb Z.compare Z.eqb fst].
      exists PushCommitted, s. split; [reflexivity|]. repeat split; auto; try discriminate.
      intros _ X. exfalso. apply X. destruct d; [reflexivity|]. unfold zlen in Ed. cbn [length] in Ed. lia. }
    assert (j * chunk < zlen d) as Hjd
      by (pose proof (zlen_nonneg d); specialize (Hn3 ltac:(lia)); destruct Hsz as (_ & Hc & _); nia).
    destruct (Z.ltb_spec (zlen d) (j * chunk)); [lia|].
    destruct (Z.eqb_spec (j * chunk) (zlen d)); [lia|].
    destruct ((0 <? j * chunk) && l_seek (pc_local c)) eqn:E4.
    { cbn [fst]. apply Hnop; [reflexivity|]. intros (_ & _ & _ & X & _). rewrite X in E4. cbn [l_seek calm_local] in E4.
      rewrite andb_false_r in E4. discriminate. }
    unfold sink_append_over. destruct Hsz as (Ht0 & Hc & _).
    rewrite Z.rem_mul by lia. cbn [Z.eqb negb]. rewrite Z.quot_mul by lia. rewrite <- Hn.
    destruct (append_over_spec (pc_net c) (pc_tmp c) (pc_rewind c) Hf (Z.to_nat (n - j)) j s c1
                (l_read (pc_local c) (j * chunk)) ltac:(lia) ltac:(lia)
                (Hread (j * chunk) ltac:(nia)) Hs)
      as (ok & s' & c2 & -> & A1 & A2 & A3 & A4).
    assert (forall i, 0 <= i < j -> exact_at s' i) as Hkept.
    { intros i Hi. unfold exact_at, at_chunk. rewrite A2; [apply He; exact Hi|].
      intros q Hq E. apply url_inj in E; lia. }
    cbn [fst]. exists (if ok then PushCommitted else PushErr), s'.
    split; [destruct ok; reflexivity|]. split; [exact A1|].
    split; [intros key Hkey; apply A2; intros i Hi; apply Hkey; lia|].
    split.
    { intros q Hq Hall i Hi. destruct (Z.lt_ge_cases i j) as [L|G]; [apply Hkept; lia|].
      exfalso. apply Hne. apply Hall. lia. }
    split; [destruct ok; discriminate|].
    split.
    { intros Hok _ i Hi. destruct ok; [|discriminate].
      destruct (Z.lt_ge_cases i j) as [L|G]; [apply Hkept; lia|]. apply A3; [reflexivity|lia]. }
    intros (C1 & C2 & C3 & C4 & _). rewrite A4; [discriminate|exact C1|exact C2|exact C3|].
    rewrite C4. reflexivity.
Qed.

Lemma pushes_spec cs : forall s, Forall (pcall_ok d) cs -> only_parts base name d chunk n s ->
  let s' := run_pushes base name (zlen d) chunk cs s in
  only_parts base name d chunk n s' /\
  (forall key, (forall i, 0 <= i < n -> key <> object_url base (name i)) -> s' key = s key) /\
  (forall j, j <= n -> (forall i, 0 <= i < j -> exact_at s i) -> forall i, 0 <= i < j -> exact_at s' i).
Proof.
  induction cs as [|c cs IH]; intros s Hcs Hs; cbn [run_pushes fold_left].
  - split; [exact Hs|]. split; auto.
  - apply Forall_cons_iff in Hcs as [Hc Hcs].
    destruct (push_spec c s Hc Hs) as (r & s1 & E & P1 & P2 & P3 & _). rewrite E. cbn [snd].
    destruct (IH s1 Hcs P1) as (I1 & I2 & I3). split; [exact I1|]. split.
    + intros key Hk. unfold run_pushes in I2. rewrite I2 by exact Hk. apply P2. exact Hk.
    + intros j Hj Hall. apply I3; [exact Hj|]. apply P3; assumption.
Qed.

(* What a Get delivers from a store holding the file. *)
Lemma get_body f s c i off b t : faithful f -> 0 <= i < n -> exact_at s i -> 0 <= off <= max_int64 ->
  fst (client_step (wire f) base (s, c) (FGet (name i) off)) = RGet (GOk b t) ->
  b = skipn (Z.to_nat off) (chunk_of d chunk i) /\ t = zlen (chunk_of d chunk i).
Proof.
  intros Hf Hi He Ho. destruct Hnames as [H1 _]. specialize (H1 i Hi).
  assert (fst (client_step plain_server base s (FGet (name i) off)) = RGet (GOk b t) ->
          b = skipn (Z.to_nat off) (chunk_of d chunk i) /\ t = zlen (chunk_of d chunk i)) as Hserve.
  { intros H.
    pose (s1 := fun k => if bytes_eqb k (object_url base (name i)) then s k else None).
    assert (fst (client_step plain_server base s1 (FGet (name i) off)) = fst (client_step plain_server base s (FGet (name i) off))) as E1.
    { unfold client_step. cbn [plain_server get_req h_method h_url].
      rewrite (proj1 (url_path_object base (name i) Hbase H1)). unfold s1.
      rewrite (proj2 (bytes_eqb_iff _ _) eq_refl). reflexivity. }
    assert (zlen (chunk_of d chunk i) <= max_int64) as Hsmall.
    { unfold chunk_of, zslice, zlen. rewrite firstn_length, skipn_length.
      destruct Hsz as (_ & Hc & Hm). unfold zlen in Hm. lia. }
    assert (fits s1) as Hfit.
    { intros k v Hv. unfold s1 in Hv. destruct (bytes_eqb k (object_url base (name i))) eqn:Ek; [|discriminate].
      apply bytes_eqb_iff in Ek. subst k. unfold exact_at, at_chunk in He. rewrite He in Hv. apply some_inj in Hv. subst v. exact Hsmall. }
    pose proof (step_is_map base s1 (FGet (name i) off) Hbase Hfit (conj H1 (proj2 Ho))) as Hm.
    destruct (client_step plain_server base s1 (FGet (name i) off)) as [r1 s2] eqn:Ec. cbn [map_step] in Hm.
    destruct Hm as [Hm _]. cbn [fst] in E1. rewrite <- E1, Hm in H. unfold named, s1 in H.
    rewrite (proj2 (bytes_eqb_iff _ _) eq_refl) in H. unfold exact_at, at_chunk in He. rewrite He in H.
    destruct (Z.leb_spec off 0) as [L|L].
    - assert (off = 0) as -> by lia. injection H as <- <-. split; reflexivity.
    - destruct (Z.ltb_spec off (zlen (chunk_of d chunk i))) as [L2|L2]; [|discriminate].
      injection H as <- <-. split; reflexivity. }
  intros H. apply Hserve. revert H. unfold client_step, wire.
  destruct (f c) as [| | |k|code] eqn:E.
  - destruct (plain_server s (get_req base (name i) off)) as [x s']. exact (fun H => H).
  - intros H. exfalso. cbn [fst get_answer] in H. discriminate H.
  - intros H. exfalso. cbn [fst get_answer] in H. discriminate H.
  - intros H. exfalso. cbn [fst get_answer] in H. discriminate H.
  - destruct (Hf c code E) as (A & B & C). intros H. exfalso. cbn [get_answer p_status p_range fst] in H.
    destruct (Z.eqb_spec code 200); [lia|]. destruct (Z.eqb_spec code 206); [lia|].
    destruct ((code =? 404) || (code =? 410)); cbn [fst] in H; discriminate H.
Qed.

(* ... and that without faults it does, inside the chunk. *)
Lemma get_served f s c i off : (forall t, f t = Serve) -> 0 <= i < n -> exact_at s i -> 0 <= off < zlen (chunk_of d chunk i) ->
  exists b t, fst (client_step (wire f) base (s, c) (FGet (name i) off)) = RGet (GOk b t).
Proof.
  intros Hf Hi He Ho. destruct Hnames as [H1 _]. specialize (H1 i Hi).
  assert (zlen (chunk_of d chunk i) <= max_int64) as Hsmall.
  { unfold chunk_of, zslice, zlen. rewrite firstn_length, skipn_length.
    destruct Hsz as (_ & Hc & Hm). unfold zlen in Hm. lia. }
  pose (s1 := fun k => if bytes_eqb k (object_url base (name i)) then s k else None).
  assert (fst (client_step (wire f) base (s, c) (FGet (name i) off)) = fst (client_step plain_server base s1 (FGet (name i) off))) as ->.
  { unfold client_step, wire. rewrite Hf. cbn [plain_server get_req h_method h_url].
    rewrite (proj1 (url_path_object base (name i) Hbase H1)). unfold s1.
    rewrite (proj2 (bytes_eqb_iff _ _) eq_refl). reflexivity. }
  assert (fits s1) as Hfit.
  { intros k v Hv. unfold s1 in Hv. destruct (bytes_eqb k (object_url base (name i))) eqn:Ek; [|discriminate].
    apply bytes_eqb_iff in Ek. subst k. unfold exact_at, at_chunk in He. rewrite He in Hv. apply some_inj in Hv. subst v. exact Hsmall. }
  pose proof (step_is_map base s1 (FGet (name i) off) Hbase Hfit (conj H1 (ltac:(lia) : off <= max_int64))) as Hm.
  destruct (client_step plain_server base s1 (FGet (name i) off)) as [r1 s2] eqn:Ec. cbn [map_step] in Hm.
  destruct Hm as [Hm _]. cbn [fst]. rewrite Hm. unfold named, s1.
  rewrite (proj2 (bytes_eqb_iff _ _) eq_refl). unfold exact_at, at_chunk in He. rewrite He.
  destruct (Z.leb_spec off 0); [eexists; eexists; reflexivity|].
  destruct (Z.ltb_spec off (zlen (chunk_of d chunk i))); [eexists; eexists; reflexivity|lia].
Qed.

Lemma in_count i : 0 <= i -> i * chunk < zlen d -> 0 <= i < n.
Proof.
  intros H0 H1. destruct (chunk_count_bounds _ _ Hsz) as (A1 & A2 & _). rewrite <- Hn in *.
  destruct Hsz as (_ & Hc & _). nia.
Qed.

Lemma download_holds f s at_ close rd : holds_file base name d chunk n s ->
  (forall i, 0 <= i < n -> stream_ok (download f base name s at_ close rd i)) ->
  srv_holds (download f base name s at_ close rd) d chunk.
Proof.
  intros Hh Hst i Hi Hlt. pose proof (in_count i Hi Hlt) as Hin. split; [|apply Hst; exact Hin].
  cbn [download chunk_source src_data]. unfold stored_chunk. rewrite (Hh i Hin). reflexivity.
Qed.

Lemma download_fault_free f s at_ close rd i : holds_file base name d chunk n s -> 0 <= i < n ->
  (forall t, f t = Serve) -> (forall t, close i t = None) -> (forall t len pos c, snd (rd i t len pos) <> ROther c) ->
  fault_free (download f base name s at_ close rd i).
Proof.
  intros Hh Hi Hf Hcl Hrd. split; [|split; [exact Hcl|exact Hrd]].
  intros t off Ho. cbn [download chunk_source src_data src_open] in *. unfold stored_chunk in Ho.
  unfold at_chunk in Ho. pose proof (Hh i Hi) as He. unfold at_chunk in He. rewrite He in Ho.
  destruct (get_served f s (at_ i t) i off Hf Hi (Hh i Hi) Ho) as (b & tt & ->). reflexivity.
Qed.
End Proofs.

Lemma count_is total chunk n : sizes_fit total chunk -> is_count total chunk n -> n = chunk_count total chunk.
Proof. intros Hs Hn. exact (is_count_unique _ _ _ _ Hn (chunk_count_is_count _ _ Hs)). Qed.

Lemma calm_ok d c : calm d c -> pcall_ok d c.
Proof.
  intros (H1 & _ & _ & H2 & _). split.
  - intros t x E. rewrite H1 in E. discriminate.
  - rewrite H2. split; [reflexivity|]. intros off _. exists []. cbn [calm_local l_read ar_data ar_err].
    rewrite app_nil_r. auto.
Qed.

Lemma push_success base name d chunk n cs c s0 r s' :
  plain_base base -> sizes_fit (zlen d) chunk -> is_count (zlen d) chunk n -> names_ok name n ->
  only_parts base name d chunk n s0 -> Forall (pcall_ok d) cs -> pcall_ok d c -> d <> [] ->
  run_push base name (zlen d) chunk c (run_pushes base name (zlen d) chunk cs s0) = (r, s') -> r <> PushErr ->
  holds_file base name d chunk n s'.
Proof.
  intros Hb Hs Hn Hnm Hp Hcs Hc Hd E Hr. apply (count_is _ _ _ Hs) in Hn.
  destruct (pushes_spec base name d chunk n Hb Hs Hn Hnm cs s0 Hcs Hp) as (P1 & _).
  destruct (push_spec base name d chunk n Hb Hs Hn Hnm c _ Hc P1) as (r0 & s1 & E1 & _ & _ & _ & A & B & _).
  rewrite E in E1. assert (r = r0 /\ s' = s1) as [-> ->] by (split; congruence).
  destruct r0; [contradiction| |]; [apply A; reflexivity|apply B; [reflexivity|exact Hd]].
Qed.

Lemma push_complete base name d chunk n cs c s0 s' :
  plain_base base -> sizes_fit (zlen d) chunk -> is_count (zlen d) chunk n -> names_ok name n ->
  only_parts base name d chunk n s0 -> Forall (pcall_ok d) cs -> pcall_ok d c ->
  run_push base name (zlen d) chunk c (run_pushes base name (zlen d) chunk cs s0) = (PushComplete, s') ->
  s' = run_pushes base name (zlen d) chunk cs s0 /\ holds_file base name d chunk n s'.
Proof.
  intros Hb Hs Hn Hnm Hp Hcs Hc E. apply (count_is _ _ _ Hs) in Hn.
  destruct (pushes_spec base name d chunk n Hb Hs Hn Hnm cs s0 Hcs Hp) as (P1 & _).
  destruct (push_spec base name d chunk n Hb Hs Hn Hnm c _ Hc P1) as (r0 & s1 & E1 & _ & _ & _ & A & _).
  rewrite E in E1. assert (PushComplete = r0 /\ s' = s1) as [<- ->] by (split; congruence). auto.
Qed.

Lemma push_calm base name d chunk n cs c s0 :
  plain_base base -> sizes_fit (zlen d) chunk -> is_count (zlen d) chunk n -> names_ok name n ->
  only_parts base name d chunk n s0 -> Forall (pcall_ok d) cs -> calm d c -> d <> [] ->
  let (r, s') := run_push base name (zlen d) chunk c (run_pushes base name (zlen d) chunk cs s0) in
  r <> PushErr /\ holds_file base name d chunk n s'.
Proof.
  intros Hb Hs Hn Hnm Hp Hcs Hc Hd.
  destruct (run_push base name (zlen d) chunk c (run_pushes base name (zlen d) chunk cs s0)) as [r s'] eqn:E.
  assert (r <> PushErr) as Hr.
  { pose proof (count_is _ _ _ Hs Hn) as Hn'.
    destruct (pushes_spec base name d chunk n Hb Hs Hn' Hnm cs s0 Hcs Hp) as (P1 & _).
    destruct (push_spec base name d chunk n Hb Hs Hn' Hnm c _ (calm_ok _ _ Hc) P1) as (r0 & s1 & E1 & _ & _ & _ & _ & _ & A).
    rewrite E in E1. assert (r = r0) as -> by congruence. apply A. exact Hc. }
  split; [exact Hr|]. eapply push_success; eauto. apply calm_ok. exact Hc.
Qed.

Lemma pushes_frame base name d chunk n cs s0 :
  plain_base base -> sizes_fit (zlen d) chunk -> is_count (zlen d) chunk n -> names_ok name n ->
  only_parts base name d chunk n s0 -> Forall (pcall_ok d) cs ->
  let s' := run_pushes base name (zlen d) chunk cs s0 in
  only_parts base name d chunk n s' /\
  (forall key, (forall i, 0 <= i < n -> key <> object_url base (name i)) -> s' key = s0 key) /\
  (forall j, j <= n -> (forall i, 0 <= i < j -> at_chunk base name s0 i = Some (chunk_of d chunk i)) ->
     forall i, 0 <= i < j -> at_chunk base name s' i = Some (chunk_of d chunk i)).
Proof.
  intros Hb Hs Hn Hnm Hp Hcs. exact (pushes_spec base name d chunk n Hb Hs (count_is _ _ _ Hs Hn) Hnm cs s0 Hcs Hp).
Qed.

Lemma got_body base name d chunk n f s c i off b t :
  plain_base base -> sizes_fit (zlen d) chunk -> is_count (zlen d) chunk n -> names_ok name n ->
  holds_file base name d chunk n s -> faithful f -> 0 <= i < n -> 0 <= off <= max_int64 ->
  fst (client_step (wire f) base (s, c) (FGet (name i) off)) = RGet (GOk b t) ->
  b = skipn (Z.to_nat off) (stored_chunk base name s i) /\ stored_chunk base name s i = chunk_of d chunk i /\ t = zlen (chunk_of d chunk i).
Proof.
  intros Hb Hs Hn Hnm Hh Hf Hi Ho H. pose proof (Hh i Hi) as He.
  destruct (get_body base name d chunk n Hb Hs Hnm f s c i off b t Hf Hi He Ho H) as [-> ->].
  unfold stored_chunk. rewrite He. auto.
Qed.

Lemma arrives base name d chunk n s f at_ close rd offset lens :
  plain_base base -> sizes_fit (zlen d) chunk -> is_count (zlen d) chunk n -> names_ok name n ->
  holds_file base name d chunk n s ->
  (forall i, 0 <= i < n -> stream_ok (download f base name s at_ close rd i)) ->
  0 <= offset < zlen d -> Forall (fun l => 0 <= l) lens ->
  exists st, chunked_open (download f base name s at_ close rd) (zlen d) chunk offset = COReader st /\
    reads_ok d offset lens (fst (cread_run st lens)).
Proof.
  intros Hb Hs Hn Hnm Hh Hst Ho Hl.
  pose proof (download_holds base name d chunk n Hs (count_is _ _ _ Hs Hn) f s at_ close rd Hh Hst) as Hsrv.
  destruct (chunked_open_reads _ d chunk offset lens Hs Hsrv Ho Hl) as (st & E & R & _). exists st. auto.
Qed.

Lemma arrives_calm base name d chunk n s f at_ close rd offset lens :
  plain_base base -> sizes_fit (zlen d) chunk -> is_count (zlen d) chunk n -> names_ok name n ->
  holds_file base name d chunk n s ->
  (forall i, 0 <= i < n -> stream_ok (download f base name s at_ close rd i)) ->
  (forall t, f t = Serve) -> (forall i t, close i t = None) -> (forall i t len pos c, snd (rd i t len pos) <> ROther c) ->
  0 <= offset < zlen d -> Forall (fun l => 0 < l) lens -> zlen d - offset < zlen lens ->
  exists st, chunked_open (download f base name s at_ close rd) (zlen d) chunk offset = COReader st /\
    concat (map res_data (fst (cread_run st lens))) = skipn (Z.to_nat offset) d /\
    Exists is_eof (fst (cread_run st lens)).
Proof.
  intros Hb Hs Hn Hnm Hh Hst Hf Hcl Hrd Ho Hl Hlen. pose proof (count_is _ _ _ Hs Hn) as Hn'.
  pose proof (download_holds base name d chunk n Hs Hn' f s at_ close rd Hh Hst) as Hsrv.
  destruct (chunked_drain _ d chunk offset lens Hs Hsrv Ho) as (st & E & R & X & _); [|exact Hl|exact Hlen|].
  { intros i Hi Hlt. apply (download_fault_free base name d chunk n Hb Hs Hnm); auto.
    exact (in_count d chunk n Hs Hn' i Hi Hlt). }
  exists st. split; [exact E|]. split; [|exact X]. rewrite R.
  apply skipn_zslice; lia.
Qed.

(* An empty file is never stored. *)
Lemma empty_push base name chunk c s : plain_base base -> octets (name 0) -> calm [] c ->
  at_chunk base name s 0 = None ->
  run_push base name 0 chunk c s = (PushCommitted, s).
Proof.
  intros Hb Hn (C1 & C2 & C3 & C4 & C5) Hs. unfold run_push, push_over. rewrite C4. cbn [calm_local l_open l_stat l_size].
  change (zlen (@nil N)) with 0 in *.
  assert (((0 <=? pc_size c) && negb (pc_size c =? 0)) = false) as ->.
  { destruct C5 as [C5| ->]; [|reflexivity]. destruct (Z.leb_spec 0 (pc_size c)); [lia|reflexivity]. }
  unfold sink_state_over. change (zrange 0 (Z.to_nat (chunk_count 0 chunk))) with [0]. cbn [state_over].
  unfold client_step, wire. rewrite C1. cbn [plain_server stat_req h_method h_url].
  rewrite (proj1 (url_path_object base (name 0) Hb Hn)). unfold at_chunk in Hs. rewrite Hs.
  reflexivity.
Qed.
Definition ex_base : str := [104; 116; 116; 112; 58; 47; 47; 104]%N.
Definition ex_name (i : Z) : str := [97%N; Z.to_N i].
Lemma empty_never_stored : exists base name chunk, plain_base base /\ sizes_fit 0 chunk /\ names_ok name 1 /\
  forall cs c, Forall (calm []) cs -> calm [] c ->
    run_pushes base name 0 chunk cs (fun _ => None) = (fun _ => None) /\
    run_push base name 0 chunk c (fun _ => None) = (PushCommitted, fun _ => None) /\
    ~ holds_file base name [] chunk 1 (fun _ => None) /\
    fst (sink_state_over (wire (pc_net c)) base name 0 chunk (fun _ => None, O)) = SSOk 0 false.
Proof.
  exists ex_base, ex_name, 4. split; [split; vm_compute; intuition discriminate|].
  split; [unfold sizes_fit, max_int64; lia|]. split.
  { split; [intros i Hi; assert (i = 0) as -> by lia; repeat constructor|intros; lia]. }
  assert (plain_base ex_base) as Hb by (split; vm_compute; intuition discriminate).
  assert (octets (ex_name 0)) as Ho by (repeat constructor).
  intros cs c Hcs Hc. split.
  { induction Hcs as [|x cs Hx _ IH]; [reflexivity|]. cbn [run_pushes fold_left].
    rewrite (empty_push ex_base ex_name 4 x (fun _ => None) Hb Ho Hx eq_refl). exact IH. }
  split; [apply empty_push; auto|]. split.
  { intros H. specialize (H 0 ltac:(lia)). discriminate. }
  unfold sink_state_over. change (zrange 0 (Z.to_nat (chunk_count 0 4))) with [0]. cbn [state_over].
  unfold client_step, wire. destruct Hc as (C1 & _). rewrite C1. reflexivity.
Qed.

(* A file that shrinks while it is sent. *)
Definition shrinking : local := Local false false false 5 (fun off => AReader (skipn (Z.to_nat off) [1;2;3;4]%N) None).
Lemma shrunk_accepted : exists base name c s',
  plain_base base /\ names_ok name 2 /\ (forall n, pc_net c n = Serve) /\ l_size (pc_local c) = 5 /\
  run_push base name 5 3 c (fun _ => None) = (PushCommitted, s') /\
  at_chunk base name s' 1 = Some [4%N] /\
  fst (sink_state_over (wire (fun _ => Serve)) base name 5 3 (s', O)) = SSOk 3 false.
Proof.
  exists ex_base, ex_name, (PCall (fun _ => Serve) (fun _ => false) (fun _ => false) shrinking 5). eexists.
  split; [split; vm_compute; intuition discriminate|]. split.
  { split.
    - intros i Hi. assert (i = 0 \/ i = 1) as [->| ->] by lia; repeat constructor.
    - intros i j Hi Hj E. unfold ex_name in E. injection E as E. lia. }
  split; [reflexivity|]. split; [reflexivity|]. split; [vm_compute; reflexivity|].
  split; vm_compute; reflexivity.
Qed.

(* Whatever the local file does while it is read: only the last chunk can come out short. *)
Section Lengths.
Variable base : str.
Variable name : Z -> str.
Variables total chunk n : Z.
Hypothesis Hbase : plain_base base.
Hypothesis Hsz : sizes_fit total chunk.
Hypothesis Hn : n = chunk_count total chunk.
Hypothesis Hnames : names_ok name n.

Definition sized (s : store) (i : Z) : Prop :=
  exists v, at_chunk base name s i = Some v /\ zlen v <= chunk /\ (i < n - 1 -> zlen v = chunk).

Lemma expected_sized i (v : list byte) : 0 <= i < n -> zlen v <= expected_chunk_size i total chunk ->
  (i < n - 1 -> zlen v = expected_chunk_size i total chunk) -> zlen v <= chunk /\ (i < n - 1 -> zlen v = chunk).
Proof.
  intros Hi H1 H2. destruct (expected_props total chunk i Hsz ltac:(lia)) as (E1 & _ & E3). rewrite <- Hn in E3.
  split; [lia|]. intros H. rewrite H2 by exact H. apply E3. exact H.
Qed.

Lemma state_over_sized f : faithful f -> forall m k s c, 0 <= k -> k + Z.of_nat m = n ->
  exists r c', state_over (wire f) base name total chunk (zrange k m) (s, c) = (r, (s, c')) /\
    match r with
    | SSErr => True
    | SSOk off true => forall i, k <= i < n -> sized s i
    | SSOk off false => exists j, off = j * chunk /\ k <= j < n /\ (forall i, k <= i < j -> sized s i)
    end.
Proof.
  intros Hf. induction m as [|m IH]; intros k s c Hk Hkm; cbn [zrange state_over].
  - exists (SSOk total true), c. split; [reflexivity|]. intros; lia.
  - destruct (wire_stat base name n Hbase Hnames f s c k Hf ltac:(lia)) as (r & -> & Hr).
    destruct Hr as [->|[Hfc ->]].
    + destruct (at_chunk base name s k) as [v|] eqn:Ev.
      * destruct (Z.eqb_spec (zlen v) (expected_chunk_size k total chunk)) as [El|Nl]; cbn [negb].
        -- assert (sized s k) as Hex.
           { exists v. split; [exact Ev|]. apply expected_sized; [lia|lia|intros _; exact El]. }
           destruct (IH (k + 1) s (S c) ltac:(lia) ltac:(lia)) as (r & c' & -> & H).
           exists r, c'. split; [reflexivity|]. destruct r as [|off [|]].
           ++ exact H.
           ++ intros i Hi. destruct (Z.eq_dec i k) as [->|]; [exact Hex|apply H; lia].
           ++ destruct H as (j & -> & Hj & H1). exists j. split; [reflexivity|]. split; [lia|].
              intros i Hi. destruct (Z.eq_dec i k) as [->|]; [exact Hex|apply H1; lia].
        -- eexists. eexists. split; [reflexivity|]. exists k. split; [reflexivity|]. split; [lia|]. intros; lia.
      * eexists. eexists. split; [reflexivity|]. exists k. split; [reflexivity|]. split; [lia|]. intros; lia.
    + eexists. eexists. split; [reflexivity|]. exact I.
Qed.

Lemma append_over_sized f tmp rewind : faithful f -> forall m k s c r, 0 <= k -> k + Z.of_nat m = n ->
  exists ok s' c', append_over (wire f) base name total chunk tmp rewind (zrange k m) r (s, c) = (ok, (s', c')) /\
    (forall i, 0 <= i < k -> at_chunk base name s' i = at_chunk base name s i) /\
    (ok = true -> forall i, k <= i < n -> sized s' i).
Proof.
  intros Hf. induction m as [|m IH]; intros k s c r Hk Hkm; cbn [zrange append_over].
  - exists true, s, c. split; [reflexivity|]. split; [auto|]. intros; lia.
  - assert (0 <= k < n) as Hkn by lia.
    set (e := expected_chunk_size k total chunk) in *.
    set (v := zslice (ar_data r) 0 e) in *.
    assert (forall (s' : store) (c' : nat), (forall i, 0 <= i < k -> at_chunk base name s' i = at_chunk base name s i) ->
       exists ok0 s0 c0, (false, (s', c')) = (ok0, (s0, c0)) /\
         (forall i, 0 <= i < k -> at_chunk base name s0 i = at_chunk base name s i) /\
         (ok0 = true -> forall i, k <= i < n -> sized s0 i)) as Hfail.
    { intros s' c' H. exists false, s', c'. split; [reflexivity|]. split; [exact H|discriminate]. }
    destruct (tmp k); [apply Hfail; auto|].
    destruct ((zlen v <? e) && match ar_err r with Some _ => true | None => false end); [apply Hfail; auto|].
    rewrite <- Hn.
    destruct ((zlen v <? e) && (k <? n - 1)) eqn:Eshort; [apply Hfail; auto|].
    destruct (rewind k); [apply Hfail; auto|].
    assert (forall w i, 0 <= i < k ->
      at_chunk base name (store_set s (object_url base (name k)) w) i = at_chunk base name s i) as Hput.
    { intros w i Hi. unfold at_chunk. apply store_set_other. intros E.
      apply (url_inj base name n Hnames i k) in E; lia. }
    destruct (wire_put base name n Hbase Hnames f s c k v Hf Hkn) as (res & s1 & -> & [[-> ->]|(Hfc & Hres & Hs1)]).
    + destruct (IH (k + 1) (store_set s (object_url base (name k)) v) (S c)
                  (AReader (skipn (Z.to_nat e) (ar_data r)) (ar_err r)) ltac:(lia) ltac:(lia)) as (ok & s' & c' & -> & I1 & I2).
      exists ok, s', c'. split; [reflexivity|]. split.
      { intros i Hi. rewrite I1 by lia. apply Hput. exact Hi. }
      intros Hok i Hi. destruct (Z.eq_dec i k) as [->|]; [|apply I2; [exact Hok|lia]].
      exists v. split; [rewrite I1 by lia; unfold at_chunk; apply store_set_same|].
      assert (0 <= e) as He.
      { unfold e. rewrite expected_eq; [|exact Hsz|lia].
        destruct (chunk_count_bounds _ _ Hsz) as (_ & _ & P3 & P4). rewrite <- Hn in *. destruct Hsz as (Q1 & Q2 & _).
        destruct (Z.eq_dec total 0) as [E0|E0]; [specialize (P4 E0); assert (k = 0) as -> by lia; lia|].
        specialize (P3 ltac:(lia)). nia. }
      assert (zlen v = Z.min e (zlen (ar_data r))) as Hv
        by (unfold v; rewrite zslice_length by lia; pose proof (zlen_nonneg (ar_data r)); lia).
      apply expected_sized; [exact Hkn|fold e; lia|]. intros Hl. fold e.
      apply andb_false_iff in Eshort as [X|X]; [apply Z.ltb_ge in X; lia|apply Z.ltb_ge in X; lia].
    + destruct res as [x|]; [|contradiction].
      destruct Hs1 as [->|(j & ->)]; [apply Hfail; auto|]. apply Hfail. apply Hput.
Qed.
End Lengths.

Lemma unaligned_refused {S} (srv : S -> hreq -> doing * S) base name total chunk tmp rewind offset r w : Z.rem offset chunk <> 0 ->
  sink_append_over srv base name total chunk tmp rewind offset r w = (false, w).
Proof. intros H. unfold sink_append_over. destruct (Z.eqb_spec (Z.rem offset chunk) 0); [contradiction|reflexivity]. Qed.
Lemma push_sized base name total chunk n c s0 r s' :
  plain_base base -> sizes_fit total chunk -> is_count total chunk n -> names_ok name n ->
  faithful (pc_net c) -> l_size (pc_local c) = total -> 0 < total ->
  run_push base name total chunk c s0 = (r, s') -> r <> PushErr -> whole_but_last base name chunk n s'.
Proof.
  intros Hb Hsz Hcn Hnames Hf Hlsz Htot E Hr. pose proof (count_is _ _ _ Hsz Hcn) as Hn.
  destruct (chunk_count_bounds _ _ Hsz) as (Hn1 & Hn2 & Hn3 & _). rewrite <- Hn in *. specialize (Hn3 Htot).
  unfold run_push, push_over in E.
  destruct (l_open (pc_local c)); [apply pair_equal_spec in E as [<- _]; contradiction|].
  destruct (l_stat (pc_local c)); [apply pair_equal_spec in E as [<- _]; contradiction|].
  destruct ((0 <=? pc_size c) && negb (pc_size c =? l_size (pc_local c))); [apply pair_equal_spec in E as [<- _]; contradiction|].
  unfold sink_state_over in E. rewrite <- Hn in E.
  destruct (state_over_sized base name total chunk n Hb Hsz Hn Hnames (pc_net c) Hf (Z.to_nat n) 0 s0 O ltac:(lia) ltac:(lia))
    as (x & c1 & E1 & H). rewrite E1 in E. clear E1.
  destruct x as [|off [|]].
  - apply pair_equal_spec in E as [<- _]; contradiction.
  - apply pair_equal_spec in E as [_ E]. cbn [fst] in E. subst s'. exact H.
  - destruct H as (j & -> & Hj & He). rewrite Hlsz in E. destruct Hsz as (Ht0 & Hc & Hmax) eqn:Ez.
    assert (j * chunk < total) as Hjd by nia.
    destruct (Z.ltb_spec total (j * chunk)); [lia|].
    destruct (Z.eqb_spec (j * chunk) total); [lia|].
    destruct ((0 <? j * chunk) && l_seek (pc_local c)); [apply pair_equal_spec in E as [<- _]; contradiction|].
    unfold sink_append_over in E. rewrite Z.rem_mul in E by lia. cbn [Z.eqb negb] in E. rewrite Z.quot_mul in E by lia.
    rewrite <- Hn in E.
    destruct (append_over_sized base name total chunk n Hb (conj Ht0 (conj Hc Hmax)) Hn Hnames (pc_net c) (pc_tmp c) (pc_rewind c) Hf
                (Z.to_nat (n - j)) j s0 c1 (l_read (pc_local c) (j * chunk)) ltac:(lia) ltac:(lia))
      as (ok & s2 & c2 & E2 & A1 & A2). rewrite E2 in E. clear E2. cbn [fst] in E.
    apply pair_equal_spec in E as [Eok <-]. destruct ok; [|subst r; contradiction].
    intros i Hi. destruct (Z.lt_ge_cases i j) as [L|G]; [|exact (A2 eq_refl i ltac:(lia))].
    destruct (He i ltac:(lia)) as (v & Hv & Hrest). exists v. rewrite A1 by lia. split; [exact Hv|exact Hrest].
Qed.
