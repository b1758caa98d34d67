From Verif Require Import Common CommonLemmas MultiRead_Model MultiRead_Spec MultiRead_Proofs
  SeqRead_Model SeqRead_Spec SeqRead_Proofs Chunk_Model Chunk_Spec.
Open Scope Z_scope.

(* ---------- arithmetic ---------- *)

Lemma chunk_count_eq total chunk : sizes_fit total chunk ->
  chunk_count total chunk = if total =? 0 then 1 else (total + chunk - 1) / chunk.
Proof.
  intros (H0 & Hc & Hm). unfold chunk_count. destruct (Z.eqb_spec total 0); [reflexivity|].
  unfold max_int64 in Hm.
  rewrite (wrap64_id (total + chunk)) by (unfold in_int64, min_int64, max_int64; lia).
  rewrite wrap64_id by (unfold in_int64, min_int64, max_int64; lia).
  apply Z.quot_div_nonneg; lia.
Qed.

Lemma chunk_count_bounds total chunk : sizes_fit total chunk ->
  let n := chunk_count total chunk in
  1 <= n /\ total <= n * chunk /\ (0 < total -> (n - 1) * chunk < total) /\ (total = 0 -> n = 1).
Proof.
  intros Hs n. unfold n. rewrite chunk_count_eq by exact Hs. destruct Hs as (H0 & Hc & _).
  destruct (Z.eqb_spec total 0); [repeat split; nia|].
  pose proof (Z.div_mod (total + chunk - 1) chunk ltac:(lia)).
  pose proof (Z.mod_pos_bound (total + chunk - 1) chunk ltac:(lia)).
  assert (1 <= (total + chunk - 1) / chunk) by (apply Z.div_le_lower_bound; lia).
  repeat split; nia.
Qed.

Lemma chunk_count_is_count total chunk : sizes_fit total chunk ->
  is_count total chunk (chunk_count total chunk).
Proof.
  intros Hs. destruct (chunk_count_bounds _ _ Hs) as (H1 & H2 & H3 & H4).
  destruct Hs as (H0 & Hc & _). split; [exact H1|]. split; [exact H2|].
  intros m Hm Hle. destruct (Z.eq_dec total 0) as [E|E]; [specialize (H4 E); lia|].
  specialize (H3 ltac:(lia)). nia.
Qed.

Lemma expected_eq total chunk i : sizes_fit total chunk -> 0 <= i < chunk_count total chunk ->
  expected_chunk_size i total chunk = Z.min chunk (total - i * chunk).
Proof.
  intros Hs Hi. destruct (chunk_count_bounds _ _ Hs) as (H1 & H2 & H3 & H4).
  destruct Hs as (H0 & Hc & _). unfold expected_chunk_size.
  set (n := chunk_count total chunk) in *.
  destruct (Z.ltb_spec i (n - 1)) as [Hlt|Hge].
  - assert (0 < total) by (destruct (Z.eq_dec total 0) as [E|E]; [specialize (H4 E); lia|lia]).
    specialize (H3 ltac:(lia)). nia.
  - assert (i = n - 1) as -> by lia.
    destruct (Z.eqb_spec total 0) as [E|E]; [specialize (H4 E); nia|].
    specialize (H3 ltac:(lia)).
    rewrite Z.rem_mod_nonneg by lia.
    pose proof (Z.div_mod total chunk ltac:(lia)) as Hdm.
    pose proof (Z.mod_pos_bound total chunk ltac:(lia)) as Hmb.
    destruct (Z.eqb_spec (total mod chunk) 0) as [Hz|Hnz].
    + assert (n = total / chunk) by nia. nia.
    + assert (n - 1 = total / chunk) by nia. nia.
Qed.

Lemma expected_is_slice (d : list byte) chunk i : sizes_fit (zlen d) chunk ->
  0 <= i < chunk_count (zlen d) chunk ->
  expected_chunk_size i (zlen d) chunk = zlen (chunk_of d chunk i).
Proof.
  intros Hs Hi. rewrite expected_eq by assumption. unfold chunk_of.
  destruct (chunk_count_bounds _ _ Hs) as (H1 & H2 & H3 & H4). destruct Hs as (H0 & Hc & _).
  assert (i * chunk <= zlen d).
  { destruct (Z.eq_dec (zlen d) 0) as [E|E]; [specialize (H4 E); nia|]. specialize (H3 ltac:(lia)). nia. }
  rewrite zslice_length by nia. lia.
Qed.

Lemma in_zrange k : forall i j, In j (zrange i k) <-> i <= j < i + Z.of_nat k.
Proof.
  induction k as [|k IH]; intros i j; cbn [zrange In]; [lia|]. rewrite IH. lia.
Qed.

Lemma length_zrange k : forall i, length (zrange i k) = k.
Proof. induction k; intros; cbn; auto. Qed.

Lemma nth_zrange k : forall i j, (j < k)%nat -> nth_error (zrange i k) j = Some (i + Z.of_nat j).
Proof.
  induction k as [|k IH]; intros i j Hj; [lia|]. destruct j as [|j]; cbn [zrange nth_error].
  - f_equal; lia.
  - rewrite IH by lia. f_equal; lia.
Qed.

Lemma concat_chunks (d : list byte) chunk k : 0 < chunk -> forall i, 0 <= i ->
  concat (map (chunk_of d chunk) (zrange i k)) = zslice d (i * chunk) (Z.of_nat k * chunk).
Proof.
  intros Hc. induction k as [|k IH]; intros i Hi; cbn [zrange map concat].
  - rewrite zslice_zero by lia; reflexivity.
  - rewrite IH by lia. unfold chunk_of.
    replace (Z.of_nat (S k) * chunk) with (chunk + Z.of_nat k * chunk) by lia.
    rewrite zslice_split by nia. f_equal. f_equal; lia.
Qed.

Lemma sum_map_zlen (ds : list (list byte)) : zsum (map zlen ds) = zlen (concat ds).
Proof. induction ds; cbn [map zsum concat]; [reflexivity|]. rewrite zlen_app; lia. Qed.

Lemma sum_expected total chunk : sizes_fit total chunk ->
  zsum (map (fun i => expected_chunk_size i total chunk)
          (zrange 0 (Z.to_nat (chunk_count total chunk)))) = total.
Proof.
  intros Hs. set (d := repeat 0%N (Z.to_nat total)).
  assert (zlen d = total) as Hd.
  { unfold d, zlen; rewrite repeat_length. destruct Hs; lia. }
  transitivity (zsum (map zlen (map (chunk_of d chunk) (zrange 0 (Z.to_nat (chunk_count total chunk)))))).
  - f_equal. rewrite map_map. apply map_ext_in. intros i Hi. apply in_zrange in Hi.
    rewrite <- Hd. apply expected_is_slice; rewrite Hd; [exact Hs|].
    destruct (chunk_count_bounds _ _ Hs); lia.
  - rewrite sum_map_zlen, concat_chunks by (destruct Hs; lia).
    destruct (chunk_count_bounds _ _ Hs) as (H1 & H2 & _).
    rewrite Z2Nat.id by lia. replace (0 * chunk) with 0 by lia.
    rewrite zslice_all by lia. exact Hd.
Qed.

Lemma expected_props total chunk i : sizes_fit total chunk -> 0 <= i < chunk_count total chunk ->
  expected_chunk_size i total chunk <= chunk /\
  (0 < total -> 0 < expected_chunk_size i total chunk) /\
  (i < chunk_count total chunk - 1 -> expected_chunk_size i total chunk = chunk).
Proof.
  intros Hs Hi. rewrite expected_eq by assumption.
  destruct (chunk_count_bounds _ _ Hs) as (H1 & H2 & H3 & H4). destruct Hs as (H0 & Hc & _).
  split; [lia|]. split.
  - intros Ht. specialize (H3 Ht). nia.
  - intros Hl. destruct (Z.eq_dec total 0) as [E|E]; [specialize (H4 E); lia|].
    specialize (H3 ltac:(lia)). nia.
Qed.

Lemma c13_overflow : exists total chunk, 0 <= total <= max_int64 /\ 0 < chunk <= max_int64 /\
  chunk_count total chunk <= 0.
Proof. exists max_int64, 2. vm_compute. repeat split; intro; discriminate. Qed.

(* ---------- ChunkedSource ---------- *)

Definition hd_of (ds : list (list byte)) (i : nat) : Z := zlen (concat (firstn i ds)).

Definition chunk_ok (p : source * seqr) (d : list byte) : Prop :=
  src_data (fst p) = d /\ stream_ok (fst p) /\ sinv (fst p) (snd p).

Record cinv (ds : list (list byte)) (st : cread) : Prop := {
  ci_seqs : Forall2 chunk_ok (cr_seqs st) ds;
  ci_off : 0 <= cr_off st <= zlen (concat ds);
  ci_idx : forall i d, nth_error ds i = Some d ->
    hd_of ds i <= cr_off st < hd_of ds i + zlen d -> (cr_idx st <= i)%nat
}.

Lemma seg_size_ok p d : chunk_ok p d -> sg_size (seg_of p) = zlen d.
Proof. intros (H1 & _ & H2 & _). cbn. congruence. Qed.

Lemma segs_head seqs ds i : Forall2 chunk_ok seqs ds -> head_of (map seg_of seqs) i = hd_of ds i.
Proof.
  intros H; revert i; induction H as [|p d seqs ds Hp H IH]; intros [|i]; try reflexivity.
  cbn [map]. rewrite head_of_cons, IH, (seg_size_ok p d) by exact Hp.
  unfold hd_of; cbn [firstn concat]. rewrite zlen_app; reflexivity.
Qed.

Lemma segs_sizes seqs ds : Forall2 chunk_ok seqs ds -> sizes_ok (map seg_of seqs).
Proof.
  induction 1 as [|p d seqs ds Hp H IH]; [constructor|]. constructor; [|exact IH].
  rewrite (seg_size_ok p d Hp). apply zlen_nonneg.
Qed.

Lemma segs_total seqs ds : Forall2 chunk_ok seqs ds -> declared_total (map seg_of seqs) = zlen (concat ds).
Proof.
  induction 1 as [|p d seqs ds Hp H IH]; [reflexivity|].
  cbn [map concat]. change (declared_total (seg_of p :: map seg_of seqs))
    with (sg_size (seg_of p) + declared_total (map seg_of seqs)).
  rewrite IH, (seg_size_ok p d Hp), zlen_app; reflexivity.
Qed.

Lemma Forall2_nth {A B} (R : A -> B -> Prop) l1 l2 i x :
  Forall2 R l1 l2 -> nth_error l1 i = Some x -> exists y, nth_error l2 i = Some y /\ R x y.
Proof.
  intros H; revert i; induction H as [|a b l1 l2 Hab H IH]; intros [|i] Hn; cbn in *; try discriminate.
  - apply some_inj in Hn; subst; eauto.
  - eauto.
Qed.

Lemma Forall2_update {A B} (R : A -> B -> Prop) f l1 l2 i x y :
  Forall2 R l1 l2 -> nth_error l1 i = Some x -> nth_error l2 i = Some y -> R (f x) y ->
  Forall2 R (update_nth i f l1) l2.
Proof.
  intros H; revert i; induction H as [|a b l1 l2 Hab H IH]; intros [|i] Hx Hy Hf; cbn in *; try discriminate.
  - apply some_inj in Hx, Hy; subst. constructor; auto.
  - constructor; eauto.
Qed.

Lemma nth_update_same {A} (f : A -> A) l i x :
  nth_error l i = Some x -> nth_error (update_nth i f l) i = Some (f x).
Proof. revert i; induction l; intros [|i] H; cbn in *; try discriminate; auto. congruence. Qed.

Lemma nth_update_other {A} (f : A -> A) l i j :
  i <> j -> nth_error (update_nth i f l) j = nth_error l j.
Proof. revert i j; induction l; intros [|i] [|j] H; cbn; auto; try contradiction. Qed.

Lemma hd_of_S ds i d : nth_error ds i = Some d -> hd_of ds (S i) = hd_of ds i + zlen d.
Proof.
  unfold hd_of. revert i; induction ds as [|a ds IH]; intros [|i] H; try discriminate.
  - apply some_inj in H; subst. change (firstn 1 (d :: ds)) with [d]. change (firstn 0 (d :: ds)) with (@nil (list N)).
    cbn [concat]. rewrite app_nil_r. change (zlen (@nil N)) with 0. lia.
  - specialize (IH i H). change (firstn (S (S i)) (a :: ds)) with (a :: firstn (S i) ds).
    change (firstn (S i) (a :: ds)) with (a :: firstn i ds).
    cbn [concat]. rewrite !zlen_app. lia.
Qed.

Lemma hd_of_le ds i j : (i <= j)%nat -> hd_of ds i <= hd_of ds j.
Proof.
  intros H; unfold hd_of. revert i j H; induction ds as [|a ds IH]; intros [|i] [|j] H; cbn [firstn concat];
    rewrite ?zlen_app; change (zlen (@nil N)) with 0; try lia; try (specialize (IH i j ltac:(lia)); lia).
  all: try (pose proof (zlen_nonneg a); pose proof (zlen_nonneg (concat (firstn j ds))); lia).
Qed.

Lemma hd_of_total ds i : hd_of ds i <= zlen (concat ds).
Proof.
  unfold hd_of. revert i; induction ds as [|a ds IH]; intros [|i]; cbn [firstn concat]; rewrite ?zlen_app;
    change (zlen (@nil N)) with 0; try lia; try (specialize (IH i); lia).
  all: try (pose proof (zlen_nonneg a); pose proof (zlen_nonneg (concat ds)); lia).
Qed.

Lemma concat_zslice ds i d o n : nth_error ds i = Some d -> 0 <= o -> o + n <= zlen d -> 0 <= n ->
  zslice (concat ds) (hd_of ds i + o) n = zslice d o n.
Proof.
  revert i; induction ds as [|a ds IH]; intros [|i] H Ho Hn H0; cbn in H; try discriminate.
  - apply some_inj in H; subst. unfold hd_of; cbn [firstn concat]. change (zlen (@nil N)) with 0.
    replace (0 + o) with o by lia. apply zslice_app_l; lia.
  - unfold hd_of; cbn [firstn concat]. rewrite zlen_app.
    pose proof (zlen_nonneg (concat (firstn i ds))).
    rewrite zslice_app_r by lia. rewrite <- (IH i H) by lia. f_equal. unfold hd_of; lia.
Qed.

(* The number of opens of one ReadAt, whatever the outcome. *)
Lemma seq_loop_opens w : forall fuel r len mx acc,
  q_opens (snd (seq_loop fuel w r len mx acc)) = q_opens r.
Proof.
  induction fuel as [|fuel IH]; intros r len mx acc; cbn [seq_loop].
  - destruct (len <=? 0); reflexivity.
  - destruct (len <=? 0); [reflexivity|]. destruct (q_cur r); [|reflexivity].
    destruct (src_read _ _ _ _) as [n e]; destruct e; try reflexivity. rewrite IH; reflexivity.
Qed.

Lemma seq_read_at_opens w r len off :
  (q_cur r = Some (q_off r) -> off = q_off r -> q_opens (snd (seq_read_at w r len off)) = q_opens r) /\
  (length (q_opens (snd (seq_read_at w r len off))) <= S (length (q_opens r)))%nat.
Proof.
  unfold seq_read_at. destruct (off <? 0); [cbn; auto|]. destruct (q_size r <=? off); [cbn; auto|].
  destruct (q_cur r) as [pos|] eqn:Ec.
  - destruct (Z.eqb_spec off (q_off r)) as [E|E].
    + rewrite seq_loop_opens; auto.
    + split; [congruence|]. destruct (src_close _ _); [cbn; lia|].
      destruct (src_open _ _ _); [cbn; lia|]. rewrite seq_loop_opens; cbn; lia.
  - split; [discriminate|]. destruct (src_open _ _ _); [cbn; lia|]. rewrite seq_loop_opens; cbn; lia.
Qed.

Definition some_fault (seqs : list (source * seqr)) : Prop := Exists (fun p => faults (fst p)) seqs.

(* What one Read does, with the chunk it hits. *)
Lemma cread_step ds st len : cinv ds st -> 0 <= len -> cr_off st < zlen (concat ds) ->
  exists data e st', cread_read st len = (MOk data e, st') /\ cinv ds st' /\
    cr_off st' = cr_off st + zlen data /\
    data = zslice (concat ds) (cr_off st) (zlen data) /\ zlen data <= len /\
    cr_off st + zlen data <= zlen (concat ds) /\
    (e = MEof -> cr_off st + zlen data = zlen (concat ds)) /\
    (e = MNil -> 0 < len -> 0 < zlen data) /\
    (e <> MNil -> e <> MEof -> some_fault (cr_seqs st)) /\
    (exists i p d, nth_error (cr_seqs st) i = Some p /\ nth_error ds i = Some d /\
       hd_of ds i <= cr_off st < hd_of ds i + zlen d /\
       cr_seqs st' = update_nth i
         (fun p => (fst p, snd (seq_read_at (fst p) (snd p) len (cr_off st - hd_of ds i)))) (cr_seqs st) /\
       cr_off st' <= hd_of ds i + zlen d /\
       (e = MNil -> cr_off st' < hd_of ds i + zlen d ->
          q_cur (snd (seq_read_at (fst p) (snd p) len (cr_off st - hd_of ds i))) = Some (cr_off st' - hd_of ds i))).
Proof.
  intros [Hseqs Hoff Hidx] Hlen Hlt.
  pose proof (segs_sizes _ _ Hseqs) as Hok.
  pose proof (segs_total _ _ Hseqs) as Htot.
  destruct (located_exists (map seg_of (cr_seqs st)) (cr_off st) Hok ltac:(lia)) as (i & s & Hn & Hr).
  rewrite nth_error_map in Hn. destruct (nth_error (cr_seqs st) i) as [p|] eqn:Hp; [|discriminate].
  cbn [option_map] in Hn. apply some_inj in Hn; subst s.
  destruct (Forall2_nth _ _ _ _ _ Hseqs Hp) as (d & Hd & Hpd).
  rewrite (segs_head _ ds) in Hr by exact Hseqs. rewrite (seg_size_ok p d Hpd) in Hr.
  specialize (Hidx i d Hd Hr) as Hi.
  assert (located (map seg_of (cr_seqs st)) i (seg_of p) (cr_off st)) as Hl.
  { split; [rewrite nth_error_map, Hp; reflexivity|].
    rewrite (segs_head _ ds), (seg_size_ok p d) by assumption. exact Hr. }
  assert (accum_sizes 0 (map seg_of (cr_seqs st)) = zlen (concat ds)) as Hup
    by (rewrite accum_sizes_total, Htot; lia).
  unfold cread_read, read, multi_of. cbn [m_upper m_off m_idx m_r m_t]. rewrite Hup.
  destruct (Z.leb_spec (zlen (concat ds)) (cr_off st)); [lia|].
  rewrite (search_skipn _ (cr_idx st) i (seg_of p) (cr_off st) Hok Hl Hi).
  rewrite nth_error_skipn'. replace (cr_idx st + (i - cr_idx st))%nat with i by lia.
  rewrite nth_translate, nth_error_map, Hp; cbn [option_map sz_head sz_seg].
  replace (0 + head_of (map seg_of (cr_seqs st)) i) with (hd_of ds i)
    by (rewrite (segs_head _ ds) by exact Hseqs; lia).
  cbn [seg_of sg_read].
  set (o := cr_off st - hd_of ds i) in *.
  destruct Hpd as (Hsd & Hsok & Hinv).
  destruct (seq_read_at_spec (fst p) (snd p) len o Hsok Hinv Hlen)
    as (data & e & q' & Hcall & Hinv' & Hspec & Hfault & Hnilopen).
  unfold seq_read_spec in Hspec. rewrite Hsd in Hspec.
  destruct (Z.ltb_spec o 0); [lia|]. destruct (Z.leb_spec (zlen d) o); [lia|].
  destruct Hspec as (Hdata & Hle & Hend & Hcase).
  pose proof (zlen_nonneg data) as Hnn.
  rewrite Hcall. cbn [fst seg_answer].
  assert (exists re, seg_answer (SOk data e) = (data, re) /\
            match e with SNil => re = RNil | SEof => re = REof | SErr c => re = ROther c | SNegOff => False end)
    as (re & Hre & Hree).
  { destruct e; cbn; try contradiction; eauto. }
  change (match e with SNil => (data, RNil) | SEof => (data, REof) | SErr c => (data, ROther c) | SNegOff => (data, ROther 0) end)
    with (seg_answer (SOk data e)). rewrite Hre.
  set (cond := (0 <? zlen data) || match re with REof => true | _ => false end).
  assert (concat_slice : data = zslice (concat ds) (cr_off st) (zlen data)).
  { rewrite Hdata at 1. replace (cr_off st) with (hd_of ds i + o) by lia.
    rewrite (concat_zslice ds i d) by (auto; lia). reflexivity. }
  assert (Hin : cr_off st + zlen data <= hd_of ds i + zlen d) by lia.
  assert (Htotal : hd_of ds i + zlen d <= zlen (concat ds)).
  { rewrite <- (hd_of_S ds i d Hd). apply hd_of_total. }
  assert (Hlast : i = (length (cr_seqs st) - 1)%nat -> hd_of ds i + zlen d = zlen (concat ds)).
  { intros ->. rewrite <- (hd_of_S ds _ d Hd). unfold hd_of. rewrite firstn_all2; [reflexivity|].
    rewrite <- (Forall2_length _ _ _ Hseqs). lia. }
  assert (Hilen : (i < length (cr_seqs st))%nat) by (apply nth_error_Some; congruence).
  set (m' := if cond
             then Multi i (cr_off st + zlen data) (zlen (concat ds)) (translate 0 (map seg_of (cr_seqs st))) 1
             else Multi (cr_idx st) (cr_off st) (zlen (concat ds)) (translate 0 (map seg_of (cr_seqs st))) 1).
  assert (Hm'off : m_off m' = cr_off st + zlen data).
  { unfold m', cond. destruct (Z.ltb_spec 0 (zlen data)); cbn [orb m_off]; [reflexivity|].
    destruct re; cbn [m_off]; lia. }
  assert (Hm'idx : m_idx m' = if cond then i else cr_idx st) by (unfold m'; destruct cond; reflexivity).
  assert (Hm'r : zlen (m_r m') = Z.of_nat (length (cr_seqs st))).
  { unfold m', zlen; destruct cond; cbn [m_r]; rewrite length_translate, map_length; reflexivity. }
  set (ce := classify m' (m_idx m') (m_idx m') {| sz_seg := seg_of p; sz_head := hd_of ds i |} o (cr_off st) len (zlen data) re).
  set (f := fun p0 : source * seqr => (fst p0, snd (seq_read_at (fst p0) (snd p0) len o))).
  exists data, ce, (CRead (m_idx m') (m_off m') (update_nth i f (cr_seqs st))).
  split; [reflexivity|].
  split; [|split; [|split; [|split; [|split; [|split; [|split; [|split]]]]]]]; cbn [cr_off cr_idx cr_seqs].
  - constructor; cbn [cr_off cr_idx cr_seqs].
    + apply (Forall2_update _ f _ _ i p d); auto. unfold f, chunk_ok; cbn [fst snd].
      rewrite Hcall; cbn [snd]. auto.
    + lia.
    + intros j dj Hdj Hj. rewrite Hm'off in Hj. rewrite Hm'idx.
      assert (i <= j)%nat.
      { destruct (Nat.le_gt_cases i j) as [|Hji]; [assumption|].
        pose proof (hd_of_le ds (S j) i Hji) as Hx. rewrite (hd_of_S ds j dj Hdj) in Hx. lia. }
      destruct cond; lia.
  - exact Hm'off.
  - exact concat_slice.
  - exact Hle.
  - lia.
  - (* EOF *)
    intros He. unfold ce, classify in He. cbn [sz_seg sz_head] in He.
    rewrite (seg_size_ok p d) in He by (repeat split; auto; apply Hinv).
    destruct re; try discriminate; [destruct (zlen d - o <? zlen data); cbn [andb] in He; discriminate He|].
    destruct (zlen d - o <? zlen data); [discriminate|].
    destruct (true && (zlen data =? 0) && (0 <? zlen d - o)); [discriminate|].
    rewrite Hm'idx in He. unfold cond in He. rewrite orb_true_r in He.
    rewrite Hm'r in He. cbn [andb] in He.
    destruct (Z.ltb_spec (Z.of_nat i) (Z.of_nat (length (cr_seqs st)) - 1)); [discriminate|].
    assert (i = length (cr_seqs st) - 1)%nat as Hil by lia. specialize (Hlast Hil).
    destruct e; try contradiction; [discriminate Hree| |discriminate Hree]; lia.
  - (* nil makes progress *)
    intros He Hpos. destruct e; try contradiction.
    + lia.
    + subst re. lia.
    + subst re. unfold ce, classify in He. discriminate.
  - (* an error is a fault of the source *)
    intros He1 He2. unfold some_fault. apply Exists_exists. exists p. split; [eapply nth_error_In; eauto|].
    destruct e as [| |c|]; try contradiction; [exfalso|exfalso|apply (Hfault c eq_refl)].
    + apply He1. unfold ce, classify; cbn [sz_seg sz_head].
      rewrite (seg_size_ok p d) by (repeat split; auto; apply Hinv). subst re.
      destruct (Z.ltb_spec (zlen d - o) (zlen data)); [lia|]. cbn [andb]. reflexivity.
    + subst re. unfold ce, classify in He1, He2; cbn [sz_seg sz_head] in He1, He2.
      rewrite (seg_size_ok p d) in He1, He2 by (repeat split; auto; apply Hinv).
      destruct (Z.ltb_spec (zlen d - o) (zlen data)); [lia|].
      destruct (Z.eqb_spec (zlen data) 0); [lia|]. cbn [andb] in He1, He2.
      destruct (Z.of_nat (m_idx m') <? zlen (m_r m') - 1); [apply He1|apply He2]; reflexivity.
  - exists i, p, d. split; [first [exact Hp|reflexivity]|]. split; [exact Hd|]. split; [exact Hr|].
    split; [reflexivity|]. rewrite Hm'off. split; [lia|].
    intros He Hlt2. destruct e as [| |c|]; try contradiction.
    + destruct (Hnilopen eq_refl ltac:(lia) ltac:(rewrite Hsd; lia)) as (Hcur & _).
      fold o. rewrite Hcall; cbn [snd]. rewrite Hcur. f_equal. lia.
    + lia.
    + subst re. unfold ce, classify in He. discriminate.
Qed.

Lemma cread_at_end ds st len : cinv ds st -> zlen (concat ds) <= cr_off st ->
  cread_read st len = (MOk [] MEof, st).
Proof.
  intros [Hseqs Hoff Hidx] Hend. unfold cread_read, read, multi_of. cbn [m_upper m_off].
  assert (accum_sizes 0 (map seg_of (cr_seqs st)) = zlen (concat ds)) as ->
    by (rewrite accum_sizes_total, (segs_total _ ds) by exact Hseqs; lia).
  destruct (Z.leb_spec (zlen (concat ds)) (cr_off st)); [|lia].
  cbn [m_idx m_off]. destruct st; reflexivity.
Qed.

Definition all_fault_free (st : cread) : Prop := Forall (fun p => fault_free (fst p)) (cr_seqs st).

Lemma no_some_fault seqs : Forall (fun p : source * seqr => fault_free (fst p)) seqs -> ~ some_fault seqs.
Proof.
  intros H Hx. unfold some_fault in Hx. rewrite Exists_exists in Hx. destruct Hx as (p & Hin & Hf).
  rewrite Forall_forall in H. exact (fault_free_no _ (H _ Hin) Hf).
Qed.

Lemma update_sources {A B} (f : A -> A) (g : A -> B) l i :
  (forall x, g (f x) = g x) -> map g (update_nth i f l) = map g l.
Proof. intros Hf. revert i; induction l; intros [|i]; cbn; congruence. Qed.

(* One GET per chunk: a chunk that was opened and is not yet behind the cursor has a
   live stream at the cursor. *)
Definition gets_ok (ds : list (list byte)) (st : cread) : Prop :=
  forall j p d, nth_error (cr_seqs st) j = Some p -> nth_error ds j = Some d ->
    (length (q_opens (snd p)) <= 1)%nat /\
    (q_opens (snd p) <> [] -> hd_of ds j <= cr_off st /\
       (cr_off st < hd_of ds j + zlen d -> q_cur (snd p) = Some (cr_off st - hd_of ds j))).

Lemma cread_run_spec ds : forall lens st, cinv ds st -> Forall (fun l => 0 <= l) lens ->
  reads_ok (concat ds) (cr_off st) lens (fst (cread_run st lens)) /\
  (all_fault_free st -> Forall no_error (fst (cread_run st lens)) /\
     (gets_ok ds st -> gets_ok ds (snd (cread_run st lens)))).
Proof.
  induction lens as [|l lens IH]; intros st Hinv Hl; cbn [cread_run]; [cbn; auto|].
  inversion Hl as [|? ? Hl1 Hl2]; subst.
  destruct (Z.lt_ge_cases (cr_off st) (zlen (concat ds))) as [Hlt|Hge].
  - destruct (cread_step ds st l Hinv Hl1 Hlt)
      as (data & e & st' & Hstep & Hinv' & Hoff & Hdata & Hle & Hb & Heof & Hnil & Herr &
          i & p & d & Hp & Hd & Hr & Hseqs & Hb2 & Hcur).
    rewrite Hstep. specialize (IH st' Hinv' Hl2). destruct (cread_run st' lens) as [xs st''].
    cbn [fst snd] in *. destruct IH as [IH1 IH2]. split.
    + cbn [reads_ok]. rewrite <- Hoff in Hb, Heof |- *. auto 10.
    + intros Hff. assert (all_fault_free st') as Hff'.
      { unfold all_fault_free in *. rewrite Hseqs. rewrite Forall_forall in *. intros x Hx.
        assert (In (fst x) (map fst (cr_seqs st))) as Hin.
        { erewrite <- (update_sources _ fst (cr_seqs st) i); [apply in_map; exact Hx|reflexivity]. }
        apply in_map_iff in Hin. destruct Hin as (y & Hy & Hin). rewrite <- Hy. apply Hff; exact Hin. }
      destruct (IH2 Hff') as [Hne Hg]. split.
      * constructor; [|exact Hne]. unfold no_error. destruct e; auto.
        apply (no_some_fault _ Hff). apply Herr; discriminate.
      * intros Hgo. apply Hg. clear Hg Hne IH2 IH1.
        intros j pj dj Hpj Hdj. rewrite Hseqs in Hpj.
        destruct (Nat.eq_dec i j) as [<-|Hij].
        -- rewrite Hd in Hdj. apply some_inj in Hdj; subst dj.
           rewrite (nth_update_same _ _ _ _ Hp) in Hpj. apply some_inj in Hpj; subst pj. cbn [snd].
           destruct (Hgo i p d Hp Hd) as [Hlen Hlive].
           destruct (seq_read_at_opens (fst p) (snd p) l (cr_off st - hd_of ds i)) as [Ho1 Ho2].
           destruct (Forall2_nth _ _ _ _ _ (ci_seqs _ _ Hinv) Hp) as (d' & Hd' & Hsd & _ & Hsinv).
           split.
           ++ destruct (q_opens (snd p)) eqn:Eq; [cbn in *; lia|].
              destruct (Hlive ltac:(discriminate)) as [_ Hc]. specialize (Hc ltac:(lia)).
              destruct Hsinv as [_ Hcc]. rewrite Hc in Hcc. destruct Hcc as [Hcc _].
              rewrite Ho1; [cbn in *; lia|congruence|congruence].
           ++ intros _. split; [pose proof (zlen_nonneg data); lia|]. intros Hlt2.
              assert (e = MNil) as He.
              { destruct e; auto; exfalso; [specialize (Heof eq_refl)|].
                - pose proof (hd_of_total ds (S i)) as Hx. rewrite (hd_of_S ds i d Hd) in Hx. lia.
                - apply (no_some_fault _ Hff). apply Herr; discriminate. }
              apply Hcur; auto.
        -- rewrite nth_update_other in Hpj by exact Hij.
           destruct (Hgo j pj dj Hpj Hdj) as [Hlen Hlive]. split; [exact Hlen|].
           intros Hne. destruct (Hlive Hne) as [Hh Hc].
           pose proof (zlen_nonneg data) as Hnn. split; [lia|]. intros Hlt2. exfalso.
           (* cursor was inside chunk i and chunk j <> i starts at or before it: j < i, so j is behind *)
           destruct (Nat.lt_trichotomy i j) as [Hc2|[Hc2|Hc2]]; [| lia |].
           ++ pose proof (hd_of_le ds (S i) j Hc2) as Hx. rewrite (hd_of_S ds i d Hd) in Hx. lia.
           ++ pose proof (hd_of_le ds (S j) i Hc2) as Hx. rewrite (hd_of_S ds j dj Hdj) in Hx. lia.
  - rewrite (cread_at_end ds st l Hinv Hge). specialize (IH st Hinv Hl2).
    destruct (cread_run st lens) as [xs st'']. cbn [fst snd] in *. destruct IH as [IH1 IH2]. split.
    + cbn [reads_ok]. change (zlen (@nil N)) with 0. rewrite zslice_zero by lia.
      destruct Hinv as [_ Hoff _]. repeat split; try lia; try discriminate.
      replace (cr_off st + 0) with (cr_off st) by lia. exact IH1.
    + intros Hff. destruct (IH2 Hff) as [Hne Hg]. split; [constructor; [exact I|exact Hne]|exact Hg].
Qed.

Lemma reads_shift (d : list byte) k : 0 <= k <= zlen d ->
  forall lens xs c, 0 <= c ->
  reads_ok (zslice d k (zlen d - k)) c lens xs -> reads_ok d (k + c) lens xs.
Proof.
  intros Hk. induction lens as [|l lens IH]; intros [|x xs] c Hc H; cbn [reads_ok] in *; auto.
  destruct x as [data e| |]; auto. destruct H as (H1 & H2 & H3 & H4 & H5 & H6).
  rewrite zslice_length in H3, H4 by lia.
  assert (Z.min (zlen d - k) (Z.max 0 (zlen d - k)) = zlen d - k) as E by lia. rewrite E in H3, H4.
  pose proof (zlen_nonneg data).
  split; [|split; [exact H2|split; [lia|split; [intros He; specialize (H4 He); lia|split; [exact H5|]]]]].
  - rewrite H1 at 1. apply zget_ext. intros i. destruct (Z.lt_ge_cases i 0) as [Hi|Hi].
    { rewrite !zget_out; auto. }
    destruct (Z.lt_ge_cases i (zlen data)) as [Hi2|Hi2].
    + rewrite !zget_zslice by lia. f_equal; lia.
    + rewrite !zget_out; auto; right; rewrite zslice_length; try lia; rewrite ?zslice_length; lia.
  - replace (k + c + zlen data) with (k + (c + zlen data)) by lia. apply IH; [lia|exact H6].
Qed.

Lemma map_Forall2 {A B C} (R : B -> C -> Prop) (f : A -> B) (g : A -> C) l :
  (forall x, In x l -> R (f x) (g x)) -> Forall2 R (map f l) (map g l).
Proof.
  induction l; intros H; cbn; constructor; [apply H; now left|apply IHl; intros; apply H; now right].
Qed.

Lemma chunked_open_spec srv d chunk offset :
  sizes_fit (zlen d) chunk -> srv_holds srv d chunk -> 0 <= offset < zlen d ->
  exists st, chunked_open srv (zlen d) chunk offset = COReader st /\
    let k := Z.quot offset chunk in
    let ds := map (chunk_of d chunk) (zrange k (Z.to_nat (chunk_count (zlen d) chunk - k))) in
    cinv ds st /\ cr_off st = offset - k * chunk /\ 0 <= k * chunk <= offset /\
    concat ds = zslice d (k * chunk) (zlen d - k * chunk) /\ gets_ok ds st /\
    (forall i p, nth_error (cr_seqs st) i = Some p -> fst p = srv (k + Z.of_nat i)).
Proof.
  intros Hs Hsrv Ho. pose proof Hs as (H0 & Hc & Hmax).
  destruct (chunk_count_bounds _ _ Hs) as (H1 & H2 & H3 & H4). specialize (H3 ltac:(lia)).
  unfold chunked_open.
  destruct (Z.ltb_spec offset 0); [lia|]. destruct (Z.ltb_spec (zlen d) offset); [lia|].
  destruct (Z.eqb_spec offset (zlen d)) as [Heq|Hneq]; [lia|].
  set (n := chunk_count (zlen d) chunk) in *.
  set (k := Z.quot offset chunk).
  assert (k = offset / chunk) as Hk by (unfold k; apply Z.quot_div_nonneg; lia).
  assert (Z.rem offset chunk = offset - k * chunk) as Hrem.
  { rewrite Z.rem_mod_nonneg by lia. pose proof (Z.div_mod offset chunk ltac:(lia)). nia. }
  pose proof (Z.mod_pos_bound offset chunk ltac:(lia)) as Hmb.
  pose proof (Z.div_mod offset chunk ltac:(lia)) as Hdm.
  assert (0 <= k) as Hk0 by (rewrite Hk; apply Z.div_pos; lia).
  assert (k < n) as Hkn by nia.
  assert (0 <= k * chunk <= offset) as Hkc by nia.
  set (idxs := zrange k (Z.to_nat (n - k))).
  set (seqs := map (fun i => (srv i, new_seq (expected_chunk_size i (zlen d) chunk))) idxs).
  set (ds := map (chunk_of d chunk) idxs).
  assert (Forall2 chunk_ok seqs ds) as Hfs.
  { unfold seqs, ds. apply map_Forall2. intros i Hi. apply in_zrange in Hi.
    rewrite Z2Nat.id in Hi by lia.
    destruct (Hsrv i ltac:(lia) ltac:(nia)) as [Hd Hok].
    unfold chunk_ok; cbn [fst snd]. split; [exact Hd|]. split; [exact Hok|].
    rewrite expected_is_slice by (auto; lia). rewrite <- Hd. apply seq_new_inv. }
  assert (concat ds = zslice d (k * chunk) (zlen d - k * chunk)) as Hcat.
  { unfold ds, idxs. rewrite concat_chunks by lia. rewrite Z2Nat.id by lia.
    rewrite (zslice_clip d (k * chunk) ((n - k) * chunk)) by lia. f_equal; nia. }
  assert (zlen (concat ds) = zlen d - k * chunk) as Hcl by (rewrite Hcat, zslice_length by lia; lia).
  assert (forall i p, nth_error seqs i = Some p ->
            fst p = srv (k + Z.of_nat i) /\ q_opens (snd p) = []) as Hnth.
  { intros i p Hp. unfold seqs in Hp. rewrite nth_error_map in Hp.
    destruct (nth_error idxs i) as [x|] eqn:Ex; [|discriminate]. apply some_inj in Hp; subst p.
    cbn [fst snd]. split; [|reflexivity]. f_equal.
    assert (i < Z.to_nat (n - k))%nat by (rewrite <- (length_zrange (Z.to_nat (n - k)) k); apply nth_error_Some; unfold idxs in Ex; congruence).
    unfold idxs in Ex. rewrite nth_zrange in Ex by assumption. congruence. }
  assert (forall st, cr_seqs st = seqs -> gets_ok ds st) as Hgets.
  { intros st Hst j p dj Hp Hdj. rewrite Hst in Hp. destruct (Hnth j p Hp) as [_ ->]. cbn; split; [lia|congruence]. }
  rewrite Hrem. destruct (Z.ltb_spec 0 (offset - k * chunk)) as [Hpos|Hzero].
  - unfold seek. destruct (Z.ltb_spec (offset - k * chunk) 0); [lia|].
    unfold multi_of at 1. cbn [m_upper cr_seqs].
    assert (accum_sizes 0 (map seg_of seqs) = zlen (concat ds)) as ->
      by (rewrite accum_sizes_total, (segs_total _ ds) by exact Hfs; lia).
    destruct (Z.leb_spec (zlen (concat ds)) (offset - k * chunk)); [lia|].
    pose proof (segs_sizes _ _ Hfs) as Hok.
    destruct (located_exists (map seg_of seqs) (offset - k * chunk) Hok) as (i & s & Hl);
      [rewrite (segs_total _ ds) by exact Hfs; lia|].
    pose proof (search_skipn _ 0 i s _ Hok Hl ltac:(lia)) as Hsearch.
    unfold multi_of. cbn [m_r cr_seqs skipn m_upper m_t]. cbn [skipn] in Hsearch. rewrite Hsearch.
    eexists; split; [reflexivity|]. cbn zeta. fold ds.
    split; [|cbn [cr_off m_off]; split; [reflexivity|]; split; [exact Hkc|]; split; [exact Hcat|]; split].
    + constructor; cbn [cr_seqs cr_off cr_idx m_off m_idx]; [exact Hfs|lia|].
      intros j dj Hdj Hj.
      destruct (nth_error seqs j) as [pj|] eqn:Epj.
      2:{ apply nth_error_None in Epj. rewrite (Forall2_length _ _ _ Hfs) in Epj.
          apply nth_error_None in Epj. congruence. }
      destruct (Forall2_nth _ _ _ _ _ Hfs Epj) as (dj' & Hdj' & Hok').
      rewrite Hdj in Hdj'. apply some_inj in Hdj'; subst dj'.
      assert (located (map seg_of seqs) j (seg_of pj) (offset - k * chunk)) as Hl2.
      { split; [rewrite nth_error_map, Epj; reflexivity|].
        rewrite (segs_head _ ds), (seg_size_ok pj dj) by assumption. exact Hj. }
      assert (i <= j)%nat by (eapply located_mono; eauto; lia). lia.
    + apply Hgets; reflexivity.
    + intros j p Hp. cbn [cr_seqs] in Hp. apply Hnth; exact Hp.
  - eexists; split; [reflexivity|]. cbn zeta. fold ds.
    split; [|cbn [cr_off]; split; [lia|]; split; [exact Hkc|]; split; [exact Hcat|]; split].
    + constructor; cbn [cr_seqs cr_off cr_idx]; [exact Hfs|lia|intros; lia].
    + apply Hgets; reflexivity.
    + intros j p Hp. cbn [cr_seqs] in Hp. apply Hnth; exact Hp.
Qed.

Lemma open_bounds srv total chunk offset :
  (offset < 0 \/ total < offset -> chunked_open srv total chunk offset = COErr) /\ (0 <= offset -> offset = total -> chunked_open srv total chunk offset = COEmpty) /\
  (chunked_open srv total chunk offset = COEmpty -> 0 <= offset /\ offset = total).
Proof.
  unfold chunked_open. destruct (Z.ltb_spec offset 0); [repeat split; intros; try lia; try reflexivity; discriminate|]. destruct (Z.ltb_spec total offset); [repeat split; intros; try lia; try reflexivity; discriminate|].
  destruct (Z.eqb_spec offset total); [repeat split; intros; try lia; reflexivity|]. split; [lia|]. split; [lia|]. destruct (0 <? Z.rem offset chunk); [|discriminate]. destruct (seek _ _ _) as [[|] ?]; discriminate.
Qed.
Lemma chunked_open_reads srv d chunk offset lens :
  sizes_fit (zlen d) chunk -> srv_holds srv d chunk -> 0 <= offset < zlen d ->
  Forall (fun l => 0 <= l) lens ->
  exists st, chunked_open srv (zlen d) chunk offset = COReader st /\
    reads_ok d offset lens (fst (cread_run st lens)) /\
    ((forall i, 0 <= i -> i * chunk < zlen d -> fault_free (srv i)) ->
       Forall no_error (fst (cread_run st lens)) /\
       Forall (fun p => (length (q_opens (snd p)) <= 1)%nat) (cr_seqs (snd (cread_run st lens)))).
Proof.
  intros Hs Hsrv Ho Hl.
  destruct (chunked_open_spec srv d chunk offset Hs Hsrv Ho)
    as (st & Hopen & Hinv & Hoff & Hk & Hcat & Hg & Hsrcs).
  exists st. split; [exact Hopen|].
  set (k := Z.quot offset chunk) in *.
  set (ds := map (chunk_of d chunk) (zrange k (Z.to_nat (chunk_count (zlen d) chunk - k)))) in *.
  destruct (cread_run_spec ds lens st Hinv Hl) as [H1 H2].
  split.
  - rewrite Hcat, Hoff in H1. replace offset with (k * chunk + (offset - k * chunk)) by lia.
    apply reads_shift; [lia|lia|exact H1].
  - intros Hff. destruct H2 as [Hne Hgets].
    { unfold all_fault_free. apply Forall_forall. intros p Hp.
      apply In_nth_error in Hp. destruct Hp as [i Hi].
      rewrite (Hsrcs i p Hi).
      assert (i < Z.to_nat (chunk_count (zlen d) chunk - k))%nat as Hin.
      { assert (length (cr_seqs st) = Z.to_nat (chunk_count (zlen d) chunk - k)) as <-.
        { rewrite (Forall2_length _ _ _ (ci_seqs _ _ Hinv)). unfold ds.
          rewrite map_length. apply length_zrange. }
        apply nth_error_Some. congruence. }
      destruct (chunk_count_bounds _ _ Hs) as (B1 & B2 & B3 & B4). destruct Hs as (S1 & S2 & S3).
      specialize (B3 ltac:(lia)).
      assert (0 <= k) by (unfold k; apply Z.quot_pos; lia).
      apply Hff; nia. }
    split; [exact Hne|]. apply Forall_forall. intros p Hp. apply In_nth_error in Hp. destruct Hp as [i Hi].
    specialize (Hgets Hg).
    destruct (nth_error ds i) as [d'|] eqn:Ed.
    + exact (proj1 (Hgets i p d' Hi Ed)).
    + exfalso. apply nth_error_None in Ed. unfold ds in Ed. rewrite map_length, length_zrange in Ed.
      (* the list of chunk readers keeps its length *)
      assert (forall l s, length (cr_seqs (snd (cread_run s l))) = length (cr_seqs s)) as Hlen.
      { clear. induction l as [|a l IH]; intros s; cbn [cread_run]; [reflexivity|].
        destruct (cread_read s a) as [x s'] eqn:E. specialize (IH s').
        destruct (cread_run s' l) as [xs s'']. cbn [snd] in *. rewrite IH.
        unfold cread_read in E. destruct (read (multi_of s) a) as [y m']. apply (f_equal snd) in E; cbn [snd] in E; subst s'.
        cbn [cr_seqs]. destruct (m_upper _ <=? _); [reflexivity|].
        destruct (search _ _); [|reflexivity]. destruct (nth_error _ _); [|reflexivity].
        assert (forall (f : source * seqr -> source * seqr) l0 j, length (update_nth j f l0) = length l0) as U.
        { intros f; induction l0; intros [|j]; cbn; auto. }
        apply U. }
      assert (nth_error (cr_seqs (snd (cread_run st lens))) i <> None) as Hn by congruence.
      apply nth_error_Some in Hn. rewrite Hlen in Hn.
      rewrite (Forall2_length _ _ _ (ci_seqs _ _ Hinv)) in Hn. unfold ds in Hn.
      rewrite map_length, length_zrange in Hn. lia.
Qed.

(* Bytes delivered and whether the end was announced. *)
Definition res_data (x : mres) : list byte := match x with MOk d _ => d | _ => [] end.
Definition is_eof (x : mres) : Prop := match x with MOk _ MEof => True | _ => False end.

Lemma reads_delivered (d : list byte) : forall lens xs c, 0 <= c <= zlen d ->
  reads_ok d c lens xs -> Forall no_error xs -> Forall (fun l => 0 < l) lens ->
  zlen d - c < zlen lens ->
  concat (map res_data xs) = zslice d c (zlen d - c) /\ Exists is_eof xs.
Proof.
  assert (forall lens xs, reads_ok d (zlen d) lens xs -> concat (map res_data xs) = []) as Hend.
  { induction lens as [|l lens IH]; intros xs H; destruct xs as [|x xs]; cbn [reads_ok] in H; try contradiction; [reflexivity|].
    destruct x as [data e| |]; try contradiction. destruct H as (H1 & H2 & H3 & H4 & H5 & H6).
    pose proof (zlen_nonneg data). assert (zlen data = 0) as Hz by lia.
    apply zlen_zero_nil in Hz. subst data. cbn [map concat res_data app]. apply IH.
    change (zlen (@nil N)) with 0 in H6. replace (zlen d + 0) with (zlen d) in H6 by lia. exact H6. }
  induction lens as [|l lens IH]; intros xs c Hc H Hne Hpos Hlen.
  - change (zlen (@nil Z)) with 0 in Hlen. lia.
  - destruct xs as [|x xs]; [contradiction|]. cbn [reads_ok] in H.
    destruct x as [data e| |]; try contradiction. destruct H as (H1 & H2 & H3 & H4 & H5 & H6).
    inversion Hne as [|? ? Hn1 Hn2]; subst. inversion Hpos as [|? ? Hp1 Hp2]; subst.
    rewrite zlen_cons in Hlen. pose proof (zlen_nonneg data). cbn [map concat res_data].
    destruct e; cbn in Hn1; try contradiction.
    + specialize (H5 eq_refl Hp1).
      destruct (IH xs (c + zlen data) ltac:(lia) H6 Hn2 Hp2 ltac:(lia)) as [E Ex].
      split; [|right; exact Ex]. rewrite E.
      replace (zlen d - c) with (zlen data + (zlen d - (c + zlen data))) by lia.
      rewrite zslice_split by lia. f_equal. exact H1.
    + specialize (H4 eq_refl). split; [|left; exact I].
      rewrite H4 in H6. rewrite (Hend _ _ H6), app_nil_r, H1 at 1. f_equal; lia.
Qed.

Lemma chunked_drain srv d chunk offset lens :
  sizes_fit (zlen d) chunk -> srv_holds srv d chunk -> 0 <= offset < zlen d ->
  (forall i, 0 <= i -> i * chunk < zlen d -> fault_free (srv i)) ->
  Forall (fun l => 0 < l) lens -> zlen d - offset < zlen lens ->
  exists st, chunked_open srv (zlen d) chunk offset = COReader st /\
    concat (map res_data (fst (cread_run st lens))) = zslice d offset (zlen d - offset) /\
    Exists is_eof (fst (cread_run st lens)) /\
    Forall (fun p => (length (q_opens (snd p)) <= 1)%nat) (cr_seqs (snd (cread_run st lens))).
Proof.
  intros Hs Hsrv Ho Hff Hl Hlen.
  destruct (chunked_open_reads srv d chunk offset lens Hs Hsrv Ho) as (st & Hopen & Hr & Hx).
  { eapply Forall_impl; [|exact Hl]. cbn; intros; lia. }
  destruct (Hx Hff) as [Hne Hg].
  destruct (reads_delivered d lens (fst (cread_run st lens)) offset ltac:(lia) Hr Hne Hl Hlen) as [H1 H2].
  exists st. auto.
Qed.

(* ---------- ChunkedSink ---------- *)

Definition exact_chunk (d : list byte) name chunk (s : objects) (i : Z) : Prop :=
  s (name i) = Some (chunk_of d chunk i).

Definition reader_ok (d : list byte) (pos : Z) (r : areader) : Prop :=
  prefix_of (ar_data r) (skipn (Z.to_nat pos) d).

(* Spooling a chunk takes a prefix of the chunk. *)
Lemma spool_prefix (d : list byte) chunk i r : sizes_fit (zlen d) chunk ->
  0 <= i < chunk_count (zlen d) chunk -> reader_ok d (i * chunk) r ->
  prefix_of (zslice (ar_data r) 0 (expected_chunk_size i (zlen d) chunk)) (chunk_of d chunk i).
Proof.
  intros Hs Hi (rest & Hr). rewrite expected_is_slice by assumption.
  set (c := chunk_of d chunk i). set (e := zlen c).
  assert (c = firstn (Z.to_nat e) (skipn (Z.to_nat (i * chunk)) d)) as Hc.
  { unfold e, c at 1, chunk_of, zslice. destruct Hs as (_ & Hcp & _).
    assert (Z.to_nat (zlen c) = length (firstn (Z.to_nat chunk) (skipn (Z.to_nat (i * chunk)) d))) as ->.
    { unfold c, chunk_of, zslice, zlen. lia. }
    rewrite firstn_length.
    destruct (Nat.le_ge_cases (Z.to_nat chunk) (length (skipn (Z.to_nat (i * chunk)) d))) as [H|H].
    - rewrite Nat.min_l by exact H. reflexivity.
    - rewrite Nat.min_r by exact H. rewrite !firstn_all2; auto. }
  unfold zslice. cbn [Z.to_nat skipn]. rewrite Hc, Hr.
  exists (firstn (Z.to_nat e - length (ar_data r)) rest). rewrite firstn_app. reflexivity.
Qed.

Lemma put_same s k v : put_obj s k v k = Some v.
Proof. unfold put_obj. rewrite Z.eqb_refl; reflexivity. Qed.

Lemma put_other s k v k' : k' <> k -> put_obj s k v k' = s k'.
Proof. intros H; unfold put_obj. destruct (Z.eqb_spec k' k); [contradiction|reflexivity]. Qed.

Lemma store_inv_put d name chunk n s i v : names_distinct name n -> 0 <= i < n ->
  store_inv d name chunk n s -> prefix_of v (chunk_of d chunk i) ->
  store_inv d name chunk n (put_obj s (name i) v).
Proof.
  intros Hnd Hi Hinv Hp j w Hj Hs Hlen.
  destruct (Z.eq_dec i j) as [<-|Hij].
  - rewrite put_same in Hs. apply some_inj in Hs; subst. now apply prefix_same_len.
  - rewrite put_other in Hs by (intros E; apply Hij; symmetry; apply Hnd; auto).
    eapply Hinv; eauto.
Qed.

(* Everything the loop of Append guarantees. *)
Lemma append_loop_spec d name env chunk : sizes_fit (zlen d) chunk ->
  let n := chunk_count (zlen d) chunk in names_distinct name n ->
  forall m k s r x s', 0 <= k -> k + Z.of_nat m = n ->
  reader_ok d (k * chunk) r -> store_inv d name chunk n s ->
  append_loop s name env (zlen d) chunk n (zrange k m) r = (x, s') ->
  store_inv d name chunk n s' /\
  (forall key, (forall i, k <= i < n -> key <> name i) -> s' key = s key) /\
  (x = AOk -> forall i, k <= i < n ->
     (i < n - 1 \/ ar_data r = skipn (Z.to_nat (k * chunk)) d -> exact_chunk d name chunk s' i) /\
     exists v, s' (name i) = Some v /\ prefix_of v (chunk_of d chunk i)) /\
  ((forall i, env i = ChunkEnv false false PutOk) -> ar_data r = skipn (Z.to_nat (k * chunk)) d -> x = AOk).
Proof.
  intros Hs n Hnd. induction m as [|m IH]; intros k s r x s' Hk Hkm Hr Hinv H; cbn [zrange append_loop] in H.
  - injection H as <- <-. split; [exact Hinv|]. split; [auto|]. split; [intros; lia|auto].
  - assert (0 <= k < n) as Hkn by lia.
    pose proof (spool_prefix d chunk k r Hs Hkn Hr) as Hpre.
    assert (zlen (chunk_of d chunk k) = expected_chunk_size k (zlen d) chunk) as Hexp
      by (symmetry; apply expected_is_slice; auto).
    set (e := expected_chunk_size k (zlen d) chunk) in *.
    set (v := zslice (ar_data r) 0 e) in *.
    assert (0 <= e) as He0 by (rewrite <- Hexp; apply zlen_nonneg).
    assert (zlen v = Z.min e (zlen (ar_data r))) as Hv
      by (unfold v; rewrite zslice_length by lia; pose proof (zlen_nonneg (ar_data r)); lia).
    (* a reader holding the whole rest is not short *)
    assert (ar_data r = skipn (Z.to_nat (k * chunk)) d -> (zlen v <? e) = false) as Hfull.
    { intros E. apply Z.ltb_ge. rewrite Hv, <- Hexp. rewrite E. unfold chunk_of, zslice, zlen.
      rewrite firstn_length. lia. }
    assert (forall i, k <= i < n -> name i = name k -> i = k) as Hnk
      by (intros i Hi E; apply Hnd; auto; lia).
    assert (forall w, prefix_of w (chunk_of d chunk k) ->
       store_inv d name chunk n (put_obj s (name k) w) /\
       (forall key, (forall i, k <= i < n -> key <> name i) -> put_obj s (name k) w key = s key)) as Hput.
    { intros w Hw. split; [apply store_inv_put; auto|]. intros key Hkey. apply put_other. apply Hkey; lia. }
    destruct (ce_tmp (env k)) eqn:Etmp.
    { injection H as <- <-. repeat split; auto; try (intros; discriminate).
      intros Henv; rewrite Henv in Etmp; discriminate. }
    destruct (if zlen v <? e then ar_err r else None) as [c|] eqn:Eerr.
    { injection H as <- <-. repeat split; auto; try (intros; discriminate).
      intros _ E. rewrite (Hfull E) in Eerr. discriminate. }
    destruct ((zlen v <? e) && (k <? n - 1)) eqn:Eshort.
    { injection H as <- <-. repeat split; auto; try (intros; discriminate).
      intros _ E. rewrite (Hfull E) in Eshort. discriminate. }
    destruct (ce_seek (env k)) eqn:Eseek.
    { injection H as <- <-. repeat split; auto; try (intros; discriminate).
      intros Henv; rewrite Henv in Eseek; discriminate. }
    destruct (ce_put (env k)) as [|lft] eqn:Eput.
    2:{ destruct lft as [j|].
        - destruct (Hput (firstn j v) (prefix_firstn _ _ _ Hpre)) as [P1 P2].
          injection H as <- <-. repeat split; auto; try (intros; discriminate).
          intros Henv; rewrite Henv in Eput; discriminate.
        - injection H as <- <-. repeat split; auto; try (intros; discriminate).
          intros Henv; rewrite Henv in Eput; discriminate. }
    destruct (Hput v Hpre) as [P1 P2].
    destruct (Z.eq_dec k (n - 1)) as [Hlast|Hnl].
    + (* last chunk *)
      assert (m = O) as -> by lia. cbn [zrange append_loop] in H. injection H as <- <-.
      split; [exact P1|]. split; [exact P2|]. split; [|auto].
      intros _ i Hi. assert (i = k) as -> by lia. split.
      * intros [Hi2|E]; [lia|]. unfold exact_chunk. rewrite put_same. f_equal.
        apply prefix_same_len; [exact Hpre|]. specialize (Hfull E). apply Z.ltb_ge in Hfull. lia.
      * exists v. rewrite put_same; auto.
    + assert (zlen v = e) as Hve.
      { destruct (Z.ltb_spec (zlen v) e); [|lia]. destruct (Z.ltb_spec k (n - 1)); [discriminate|lia]. }
      assert (v = chunk_of d chunk k) as Hvc by (apply prefix_same_len; [exact Hpre|lia]).
      assert (e = chunk) as Hec by (apply expected_props; auto; fold n; lia).
      assert (skipn (Z.to_nat e) (skipn (Z.to_nat (k * chunk)) d) = skipn (Z.to_nat ((k + 1) * chunk)) d) as Hsk.
      { rewrite skipn_skipn'. f_equal. destruct Hs as (_ & Hc & _). rewrite Hec.
        rewrite <- Z2Nat.inj_add by nia. f_equal. lia. }
      destruct Hr as (rest & Hrest).
      assert (Z.to_nat e <= length (ar_data r))%nat as Hele by (unfold zlen in *; lia).
      assert (reader_ok d ((k + 1) * chunk) (AReader (skipn (Z.to_nat e) (ar_data r)) (ar_err r))) as Hr'.
      { exists rest. cbn [ar_data]. rewrite <- Hsk, Hrest, skipn_app.
        replace (Z.to_nat e - length (ar_data r))%nat with O by lia. reflexivity. }
      destruct (IH (k + 1) _ _ _ _ ltac:(lia) ltac:(lia) Hr' P1 H) as (I1 & I2 & I3 & I4).
      cbn [ar_data] in *.
      assert (s' (name k) = Some v) as Hk'.
      { rewrite I2; [apply put_same|]. intros i Hi E. specialize (Hnk i ltac:(lia) (eq_sym E)). lia. }
      split; [exact I1|]. split.
      { intros key Hkey. rewrite I2 by (intros i Hi; apply Hkey; lia). apply P2. exact Hkey. }
      split.
      * intros Hx i Hi. destruct (Z.eq_dec i k) as [->|Hik].
        -- split; [intros _; unfold exact_chunk; congruence|]. exists v; auto.
        -- destruct (I3 Hx i ltac:(lia)) as [J1 J2]. split; [|exact J2].
           intros [Hl|E]; apply J1; [left; exact Hl|right]. rewrite E. exact Hsk.
      * intros Henv E. apply I4; [exact Henv|]. rewrite E. exact Hsk.
Qed.

(* State reads off the longest run of exact chunks. *)
Definition nofail : Z -> option N := fun _ => None.

Lemma state_loop_spec d name fail chunk : sizes_fit (zlen d) chunk ->
  let n := chunk_count (zlen d) chunk in
  forall m k s, 0 <= k -> k + Z.of_nat m = n -> store_inv d name chunk n s ->
  match state_loop s name fail (zlen d) chunk (zrange k m) with
  | StErr c => exists i, k <= i < n /\ fail i = Some c
  | StOk off true => off = zlen d /\ forall i, k <= i < n -> exact_chunk d name chunk s i
  | StOk off false => exists j, off = j * chunk /\ k <= j < n /\
      (forall i, k <= i < j -> exact_chunk d name chunk s i) /\ ~ exact_chunk d name chunk s j
  end.
Proof.
  intros Hs n. induction m as [|m IH]; intros k s Hk Hkm Hinv; cbn [zrange state_loop].
  - split; [reflexivity|intros; lia].
  - destruct (fail k) as [c|] eqn:Ef; [exists k; split; [lia|exact Ef]|].
    assert (zlen (chunk_of d chunk k) = expected_chunk_size k (zlen d) chunk) as Hexp
      by (symmetry; apply expected_is_slice; auto; fold n; lia).
    destruct (s (name k)) as [v|] eqn:Ev.
    + rewrite <- Hexp. destruct (Z.eqb_spec (zlen v) (zlen (chunk_of d chunk k))) as [El|Nl]; cbn [negb].
      * assert (exact_chunk d name chunk s k) as Hex
          by (unfold exact_chunk; rewrite Ev; f_equal; eapply Hinv; eauto; lia).
        specialize (IH (k + 1) s ltac:(lia) ltac:(lia) Hinv).
        destruct (state_loop s name fail (zlen d) chunk (zrange (k + 1) m)) as [c|off [|]].
        -- destruct IH as (i & Hi & Hc). exists i; split; [lia|exact Hc].
        -- destruct IH as [-> IH]. split; [reflexivity|]. intros i Hi.
           destruct (Z.eq_dec i k) as [->|]; [exact Hex|apply IH; lia].
        -- destruct IH as (j & Hj & Hj2 & H1 & H2). exists j. split; [exact Hj|]. split; [lia|].
           split; [|exact H2]. intros i Hi. destruct (Z.eq_dec i k) as [->|]; [exact Hex|apply H1; lia].
      * exists k. split; [reflexivity|]. split; [lia|]. split; [intros; lia|].
        unfold exact_chunk. rewrite Ev. intros E. apply some_inj in E. congruence.
    + exists k. split; [reflexivity|]. split; [lia|]. split; [intros; lia|].
      unfold exact_chunk. congruence.
Qed.

Lemma state_spec d name fail chunk s : sizes_fit (zlen d) chunk ->
  let n := chunk_count (zlen d) chunk in store_inv d name chunk n s ->
  match sink_state s name fail (zlen d) chunk with
  | StErr c => exists i, 0 <= i < n /\ fail i = Some c
  | StOk off true => off = zlen d /\ forall i, 0 <= i < n -> exact_chunk d name chunk s i
  | StOk off false => exists j, off = j * chunk /\ 0 <= j < n /\
      (forall i, 0 <= i < j -> exact_chunk d name chunk s i) /\ ~ exact_chunk d name chunk s j
  end.
Proof.
  intros Hs n Hinv. unfold sink_state. fold n.
  destruct (chunk_count_bounds _ _ Hs) as (H1 & _).
  apply state_loop_spec; auto; lia.
Qed.

Lemma session_spec d name chunk s se x s' : sizes_fit (zlen d) chunk ->
  let n := chunk_count (zlen d) chunk in names_distinct name n ->
  store_inv d name chunk n s -> run_session d name chunk s se = (x, s') ->
  store_inv d name chunk n s' /\
  (forall key, (forall i, 0 <= i < n -> key <> name i) -> s' key = s key) /\
  (forall j, 0 <= j <= n -> (forall i, 0 <= i < j -> exact_chunk d name chunk s i) ->
      (forall i, 0 <= i < j -> exact_chunk d name chunk s' i)) /\
  (x = SeComplete -> s' = s /\ forall i, 0 <= i < n -> exact_chunk d name chunk s i) /\
  (x = SeAppend AOk -> (length d <= se_len se)%nat -> forall i, 0 <= i < n -> exact_chunk d name chunk s' i) /\
  (se_stat se = nofail -> se_env se = clean_env -> (length d <= se_len se)%nat ->
     x = SeComplete \/ x = SeAppend AOk).
Proof.
  intros Hs n Hnd Hinv H. unfold run_session in H.
  pose proof (state_spec d name (se_stat se) chunk s Hs Hinv) as Hst. fold n in Hst.
  destruct (sink_state s name (se_stat se) (zlen d) chunk) as [c|off [|]] eqn:Est.
  - injection H as <- <-. split; [exact Hinv|]. split; [auto|]. split; [auto|].
    split; [intros; discriminate|]. split; [intros; discriminate|].
    intros E. destruct Hst as (i & _ & Hi). rewrite E in Hi. discriminate.
  - injection H as <- <-. destruct Hst as [_ Hall].
    split; [exact Hinv|]. split; [auto|]. split; [auto|]. split; [auto|]. split; [intros; discriminate|auto].
  - destruct Hst as (j & -> & Hj & Hex & Hnex).
    destruct (sink_append s name (se_env se) (zlen d) chunk (j * chunk) _) as [ax as_] eqn:Ea.
    injection H as <- <-. unfold sink_append in Ea.
    pose proof Hs as (_ & Hc & _).
    rewrite Z.rem_mul, Z.quot_mul in Ea by lia. cbn [Z.eqb negb] in Ea. fold n in Ea.
    set (r := AReader (firstn (se_len se) (skipn (Z.to_nat (j * chunk)) d)) (se_err se)) in *.
    assert (reader_ok d (j * chunk) r) as Hr.
    { exists (skipn (se_len se) (skipn (Z.to_nat (j * chunk)) d)). cbn [ar_data r]. symmetry; apply firstn_skipn. }
    assert ((length d <= se_len se)%nat -> ar_data r = skipn (Z.to_nat (j * chunk)) d) as Hfull.
    { intros Hle. cbn [ar_data r]. apply firstn_all2. rewrite skipn_length. lia. }
    destruct (append_loop_spec d name (se_env se) chunk Hs Hnd (Z.to_nat (n - j)) j s r ax as_
                ltac:(lia) ltac:(fold n; lia) Hr Hinv Ea) as (A1 & A2 & A3 & A4).
    fold n in A1, A2, A3, A4.
    assert (forall i, 0 <= i < j -> exact_chunk d name chunk as_ i) as Hkeep.
    { intros i Hi. unfold exact_chunk. rewrite A2; [apply Hex; exact Hi|].
      intros i' Hi' E. assert (i = i') by (apply Hnd; auto; lia). lia. }
    split; [exact A1|]. split; [intros key Hkey; apply A2; intros i Hi; apply Hkey; lia|].
    split.
    { intros j' Hj' Hall i Hi. destruct (Z.lt_ge_cases i j) as [Hlt|Hge]; [apply Hkeep; lia|].
      exfalso. apply Hnex. apply Hall. lia. }
    split; [intros; discriminate|]. split.
    + intros E Hle i Hi. injection E as ->. destruct (Z.lt_ge_cases i j) as [Hlt|Hge]; [apply Hkeep; lia|].
      apply A3; [reflexivity|lia|right; apply Hfull; exact Hle].
    + intros _ He Hle. right. f_equal. apply A4; [intros i; rewrite He; reflexivity|apply Hfull; exact Hle].
Qed.

Lemma sessions_inv d name chunk : sizes_fit (zlen d) chunk ->
  let n := chunk_count (zlen d) chunk in names_distinct name n ->
  forall ses s, store_inv d name chunk n s ->
  let s' := run_sessions d name chunk s ses in
  store_inv d name chunk n s' /\
  (forall key, (forall i, 0 <= i < n -> key <> name i) -> s' key = s key) /\
  (forall j, 0 <= j <= n -> (forall i, 0 <= i < j -> exact_chunk d name chunk s i) ->
      (forall i, 0 <= i < j -> exact_chunk d name chunk s' i)).
Proof.
  intros Hs n Hnd. induction ses as [|se ses IH]; intros s Hinv; cbn [run_sessions fold_left].
  - auto.
  - destruct (run_session d name chunk s se) as [x s1] eqn:E. cbn [snd].
    destruct (session_spec d name chunk s se x s1 Hs Hnd Hinv E) as (S1 & S2 & S3 & _).
    fold n in S1, S2, S3.
    destruct (IH s1 S1) as (I1 & I2 & I3). unfold run_sessions in I1, I2, I3.
    split; [exact I1|]. split.
    + intros key Hk. rewrite I2 by exact Hk. apply S2; exact Hk.
    + intros j Hj Hall. apply I3; [exact Hj|]. apply S3; auto.
Qed.

Lemma store_inv_empty d name chunk n : store_inv d name chunk n (fun _ => None).
Proof. intros i v _ H. discriminate. Qed.

(* The claims of C15. *)
Lemma c15_state d name chunk ses fail s0 : sizes_fit (zlen d) chunk ->
  let n := chunk_count (zlen d) chunk in names_distinct name n -> store_inv d name chunk n s0 ->
  let s := run_sessions d name chunk s0 ses in
  match sink_state s name fail (zlen d) chunk with
  | StErr c => exists i, 0 <= i < n /\ fail i = Some c
  | StOk off true => off = zlen d /\ forall i, 0 <= i < n -> s (name i) = Some (chunk_of d chunk i)
  | StOk off false => exists j, off = j * chunk /\ 0 <= j < n /\
      (forall i, 0 <= i < j -> s (name i) = Some (chunk_of d chunk i)) /\
      s (name j) <> Some (chunk_of d chunk j)
  end.
Proof.
  intros Hs n Hnd Hinv s. apply (state_spec d name fail chunk s Hs).
  apply (sessions_inv d name chunk Hs Hnd ses s0 Hinv).
Qed.

Lemma c15_final d name chunk ses se s0 : sizes_fit (zlen d) chunk ->
  let n := chunk_count (zlen d) chunk in names_distinct name n -> store_inv d name chunk n s0 ->
  se_stat se = nofail -> se_env se = clean_env -> (length d <= se_len se)%nat ->
  forall x s', run_session d name chunk (run_sessions d name chunk s0 ses) se = (x, s') ->
  (x = SeComplete \/ x = SeAppend AOk) /\
  (forall i, 0 <= i < n -> s' (name i) = Some (chunk_of d chunk i)) /\
  concat (map (chunk_of d chunk) (zrange 0 (Z.to_nat n))) = d.
Proof.
  intros Hs n Hnd Hinv He1 He2 Hlen x s' E.
  destruct (sessions_inv d name chunk Hs Hnd ses s0 Hinv) as (I1 & _).
  destruct (session_spec d name chunk _ se x s' Hs Hnd I1 E) as (_ & _ & _ & S4 & S5 & S6).
  fold n in S4, S5. destruct (S6 He1 He2 Hlen) as [Hx|Hx]; (split; [auto|]).
  - destruct (S4 Hx) as [-> Hall]. split; [exact Hall|].
    destruct (chunk_count_bounds _ _ Hs) as (H1 & H2 & _). fold n in H1, H2.
    rewrite concat_chunks by (destruct Hs; lia). rewrite Z2Nat.id by lia. apply zslice_all. lia.
  - split; [exact (S5 Hx Hlen)|].
    destruct (chunk_count_bounds _ _ Hs) as (H1 & H2 & _). fold n in H1, H2.
    rewrite concat_chunks by (destruct Hs; lia). rewrite Z2Nat.id by lia. apply zslice_all. lia.
Qed.

Lemma c15_progress d name chunk ses ses2 s0 o c o' c' : sizes_fit (zlen d) chunk ->
  let n := chunk_count (zlen d) chunk in names_distinct name n -> store_inv d name chunk n s0 ->
  sink_state (run_sessions d name chunk s0 ses) name nofail (zlen d) chunk = StOk o c ->
  sink_state (run_sessions d name chunk (run_sessions d name chunk s0 ses) ses2) name nofail (zlen d) chunk
    = StOk o' c' ->
  o <= o' /\ (c = true -> c' = true).
Proof.
  intros Hs n Hnd Hinv E1 E2.
  destruct (sessions_inv d name chunk Hs Hnd ses s0 Hinv) as (I1 & _).
  destruct (sessions_inv d name chunk Hs Hnd ses2 _ I1) as (J1 & _ & J3). fold n in J1, J3.
  pose proof (state_spec d name nofail chunk _ Hs I1) as P1. rewrite E1 in P1.
  pose proof (state_spec d name nofail chunk _ Hs J1) as P2. rewrite E2 in P2.
  fold n in P1, P2. destruct (chunk_count_bounds _ _ Hs) as (B1 & B2 & B3 & B4). fold n in B1, B2, B3, B4.
  destruct Hs as (S1 & S2 & S3).
  destruct c.
  - destruct P1 as [-> P1]. destruct c'.
    + destruct P2 as [-> _]. split; [lia|auto].
    + destruct P2 as (j & -> & Hj & _ & Hn). exfalso. apply Hn. apply (J3 n); try lia. exact P1.
  - destruct P1 as (j & -> & Hj & P1 & _). destruct c'.
    + destruct P2 as [-> _]. split; [|auto].
      destruct (Z.eq_dec (zlen d) 0) as [E|E]; [specialize (B4 E); nia|]. specialize (B3 ltac:(lia)). nia.
    + destruct P2 as (j' & -> & Hj' & _ & Hn). split; [|discriminate].
      destruct (Z.le_gt_cases j j') as [|Hgt]; [nia|]. exfalso. apply Hn. apply (J3 j); try lia. exact P1.
Qed.

(* A source that ends early inside the last chunk, and one with surplus bytes, are not
   reported by Append. *)
Lemma c15_short_refuted : exists d chunk r s',
  sizes_fit (zlen d) chunk /\ ar_err r = None /\ zlen (ar_data r) < zlen d /\
  sink_append (fun _ => None) (fun i => i) clean_env (zlen d) chunk 0 r = (AOk, s') /\
  s' 1 <> Some (chunk_of d chunk 1).
Proof.
  exists [1;2;3;4;5]%N, 3, (AReader [1;2;3;4]%N None). eexists.
  split; [unfold sizes_fit, max_int64; cbn; lia|]. split; [reflexivity|].
  split; [vm_compute; reflexivity|]. split; [vm_compute; reflexivity|].
  vm_compute. discriminate.
Qed.

Lemma c15_long_refuted : exists (d : list byte) chunk r,
  sizes_fit (zlen d) chunk /\ zlen d < zlen (ar_data r) /\
  fst (sink_append (fun _ => None) (fun i => i) clean_env (zlen d) chunk 0 r) = AOk.
Proof.
  exists [1;2;3;4;5]%N, 3, (AReader [1;2;3;4;5;6]%N None).
  split; [unfold sizes_fit, max_int64; cbn; lia|].
  split; vm_compute; reflexivity.
Qed.
