From Verif Require Import Common CommonLemmas MultiRead_Model MultiRead_Spec MultiRead_Proofs TarNum_Spec TarNum_Proofs TarSparse_Model TarSparse_Spec.
Open Scope Z_scope.

(* The content as one list. *)
Fixpoint expand (pos : Z) (stored : list byte) (spd : list (Z * Z)) (size : Z) : list byte :=
  match spd with
  | [] => zeros (size - pos)
  | (off, len) :: spd => zeros (off - pos) ++ zslice stored 0 len ++ expand (off + len) (skipn (Z.to_nat len) stored) spd size
  end.

Lemma legal_le pos spd size : legal_from pos spd size -> pos <= size.
Proof. revert pos. induction spd as [|[off len] spd IH]; intros pos H; [exact H|]. destruct H as (H1 & H2 & H3). specialize (IH _ H3). lia. Qed.

Lemma stored_len_nonneg pos spd size : legal_from pos spd size -> 0 <= stored_len spd.
Proof. revert pos. induction spd as [|[off len] spd IH]; intros pos H; [cbn; lia|]. destruct H as (H1 & H2 & H3). specialize (IH _ H3). cbn [stored_len fold_right snd] in *. fold (stored_len spd) in *. lia. Qed.

Lemma zlen_skipn {A} n (l : list A) : 0 <= n <= zlen l -> zlen (skipn (Z.to_nat n) l) = zlen l - n.
Proof. intros H. unfold zlen in *. rewrite skipn_length. lia. Qed.

Lemma expand_len spd : forall pos stored size, legal_from pos spd size -> zlen stored = stored_len spd -> zlen (expand pos stored spd size) = size - pos.
Proof.
  induction spd as [|[off len] spd IH]; intros pos stored size H Hs; cbn [expand].
  - cbn in H. apply zeros_len. lia.
  - destruct H as (H1 & H2 & H3). cbn [stored_len fold_right snd] in Hs. fold (stored_len spd) in Hs. pose proof (stored_len_nonneg _ _ _ H3).
    rewrite !zlen_app, zeros_len by lia. rewrite IH; [|exact H3|rewrite zlen_skipn by lia; lia].
    assert (zlen (zslice stored 0 len) = len) as ->; [|lia]. unfold zslice, zlen in *. cbn [Z.to_nat skipn]. rewrite firstn_length. lia.
Qed.

Lemma zget_zeros n i : 0 <= i < n -> zget (zeros n) i = Some 0%N.
Proof.
  intros H. unfold zget. destruct (i <? 0) eqn:E; [lia|]. unfold zeros.
  assert (Z.to_nat i < Z.to_nat n)%nat as Hl by lia. revert Hl. generalize (Z.to_nat n) (Z.to_nat i). intros a b. revert b. induction a as [|a IH]; intros b Hl; [lia|]. destruct b; [reflexivity|]. cbn. apply IH. lia.
Qed.

Lemma zslice_mid {A} (a b c : list A) off len : zlen a = off -> zlen b = len -> zslice (a ++ b ++ c) off len = b.
Proof.
  intros Ha Hb. rewrite zslice_app_r by lia. rewrite Ha, Z.sub_diag. pose proof (zlen_nonneg b). rewrite zslice_app_l by lia. apply zslice_all. lia.
Qed.

Lemma expand_fragment spd : forall pos stored size pre off len post, legal_from pos spd size -> 0 <= pos -> zlen stored = stored_len spd ->
  spd = pre ++ (off, len) :: post -> pos <= off /\ zslice (expand pos stored spd size) (off - pos) len = zslice stored (stored_len pre) len.
Proof.
  induction spd as [|[o l] spd IH]; intros pos stored size pre off len post H Hpos Hs E; [destruct pre; discriminate|].
  destruct H as (H1 & H2 & H3). cbn [stored_len fold_right snd] in Hs. fold (stored_len spd) in Hs. pose proof (stored_len_nonneg _ _ _ H3) as Hn.
  assert (zlen (zslice stored 0 l) = l) as Hl by (unfold zslice, zlen in *; cbn [Z.to_nat skipn]; rewrite firstn_length; lia).
  destruct pre as [|[o' l'] pre].
  - cbn [app] in E. assert (o = off /\ l = len) as [-> ->] by (split; congruence). split; [exact H1|]. cbn [expand stored_len fold_right].
    apply zslice_mid; [apply zeros_len; lia|exact Hl].
  - cbn [app] in E. assert (o = o' /\ l = l' /\ spd = pre ++ (off, len) :: post) as (-> & -> & E2) by (repeat split; congruence).
    destruct (IH (o' + l') (skipn (Z.to_nat l') stored) size pre off len post H3) as [I1 I2]; [lia|rewrite zlen_skipn by lia; lia|exact E2|].
    split; [lia|]. cbn [expand]. rewrite zslice_app_r by (rewrite zeros_len by lia; lia). rewrite zeros_len by lia.
    rewrite zslice_app_r by lia. rewrite Hl. replace (off - pos - (o' - pos) - l') with (off - (o' + l')) by ring. rewrite I2.
    cbn [stored_len fold_right snd]. fold (stored_len pre).
    assert (0 <= stored_len pre) as Hp0.
    { clear -H3 E2. subst spd. revert H3. generalize (o' + l'). induction pre as [|[a b] pre IHp]; intros z H; [cbn; lia|]. cbn [app legal_from] in H. destruct H as (_ & Hb & H).
      specialize (IHp _ H). cbn [stored_len fold_right snd]. fold (stored_len pre). lia. }
    unfold zslice. rewrite skipn_skipn'. rewrite Z2Nat.inj_add by lia. reflexivity.
Qed.

Lemma expand_hole spd : forall pos stored size i, legal_from pos spd size -> 0 <= pos -> zlen stored = stored_len spd -> pos <= i < size ->
  (forall off len, In (off, len) spd -> ~ off <= i < off + len) -> zget (expand pos stored spd size) (i - pos) = Some 0%N.
Proof.
  induction spd as [|[o l] spd IH]; intros pos stored size i H Hpos Hs Hi Hno; cbn [expand].
  - apply zget_zeros. lia.
  - destruct H as (H1 & H2 & H3). cbn [stored_len fold_right snd] in Hs. fold (stored_len spd) in Hs. pose proof (stored_len_nonneg _ _ _ H3) as Hn.
    assert (zlen (zslice stored 0 l) = l) as Hl by (unfold zslice, zlen in *; cbn [Z.to_nat skipn]; rewrite firstn_length; lia).
    destruct (Z_lt_dec i o) as [Hlt|Hge].
    + rewrite zget_app_l by (rewrite zeros_len by lia; lia). apply zget_zeros. lia.
    + assert (o + l <= i) as Hge2 by (specialize (Hno o l (or_introl eq_refl)); lia).
      rewrite zget_app_r by (rewrite zeros_len by lia; lia). rewrite zeros_len by lia. rewrite zget_app_r by lia. rewrite Hl.
      replace (i - pos - (o - pos) - l) with (i - (o + l)) by ring. apply IH; [exact H3|lia|rewrite zlen_skipn by lia; lia|lia|].
      intros off len Hin. apply Hno. right. exact Hin.
Qed.

Lemma expand_is_file spd stored size : legal spd size -> zlen stored = stored_len spd -> is_sparse_file spd stored size (expand 0 stored spd size).
Proof.
  intros H Hs. split; [rewrite expand_len by assumption; lia|]. split.
  - intros pre off len post E. destruct (expand_fragment spd 0 stored size pre off len post H ltac:(lia) Hs E) as [_ E2]. rewrite Z.sub_0_r in E2. exact E2.
  - intros i Hi Hno. rewrite <- (Z.sub_0_r i). apply expand_hole; auto; lia.
Qed.

(* The specification determines the content. *)
Lemma sparse_file_unique spd stored size c1 c2 : is_sparse_file spd stored size c1 -> is_sparse_file spd stored size c2 ->
  0 <= size -> Forall (fun e => 0 <= fst e) spd -> c1 = c2.
Proof.
  intros (L1 & F1 & Z1) (L2 & F2 & Z2) Hsz Hnn. apply zget_ext. intros i.
  destruct (Z_lt_dec i 0) as [Hi|Hi]; [rewrite !zget_out by lia; reflexivity|].
  destruct (Z_lt_dec i size) as [Hi2|Hi2]; [|rewrite !zget_out by lia; reflexivity].
  destruct (existsb (fun e => (fst e <=? i) && (i <? fst e + snd e)) spd) eqn:E.
  - apply existsb_exists in E. destruct E as ([off len] & Hin & Hb). cbn [fst snd] in Hb. apply andb_true_iff in Hb. rewrite Z.leb_le, Z.ltb_lt in Hb.
    rewrite Forall_forall in Hnn. specialize (Hnn _ Hin). cbn in Hnn.
    apply in_split in Hin. destruct Hin as (pre & post & Es).
    assert (zslice c1 off len = zslice c2 off len) as Ez by (rewrite (F1 _ _ _ _ Es), (F2 _ _ _ _ Es); reflexivity).
    replace i with (off + (i - off)) by ring. rewrite <- (zget_zslice c1 off len (i - off)) by lia. rewrite <- (zget_zslice c2 off len (i - off)) by lia. rewrite Ez. reflexivity.
  - assert (forall off len, In (off, len) spd -> ~ off <= i < off + len) as Hno.
    { intros off len Hin Hr. assert (existsb (fun e => (fst e <=? i) && (i <? fst e + snd e)) spd = true) as Et; [|congruence].
      apply existsb_exists. exists (off, len). split; [exact Hin|]. cbn [fst snd]. apply andb_true_iff. rewrite Z.leb_le, Z.ltb_lt. exact Hr. }
    rewrite Z1, Z2 by (try lia; exact Hno). reflexivity.
Qed.

(* ---- the segments ---- *)

Lemma section_exact arch base n : 0 <= base -> 0 <= n -> base + n <= zlen arch -> exact (section arch base n) (zslice arch base n).
Proof.
  intros Hb Hn Hl. assert (zlen (zslice arch base n) = n) as El by (unfold zslice, zlen in *; rewrite firstn_length, skipn_length; lia).
  split; [|cbn; congruence]. intros t len off Hlen Hoff. cbn [section sg_read].
  assert ((off <? 0) = false) as -> by lia. cbn [orb]. destruct (n <=? off) eqn:E1.
  - exists REof. rewrite (zslice_past (zslice arch base n)) by lia. split; [reflexivity|]. right. right. lia.
  - assert (forall k, 0 <= k -> off + k <= n -> zslice (zslice arch base n) off k = zslice arch (base + off) k) as Ezz.
    { intros k Hk Hok. unfold zslice. rewrite skipn_firstn_comm, firstn_firstn, Nat.min_l by lia. rewrite skipn_skipn', <- Z2Nat.inj_add by lia. reflexivity. }
    destruct (n - off <? len) eqn:E2.
    + exists REof. split.
      * f_equal. rewrite <- Ezz by lia. rewrite (zslice_clip (zslice arch base n) off len) by lia. rewrite El. reflexivity.
      * left. rewrite zslice_length by lia. lia.
    + assert (zslice (zslice arch base n) off len = zslice arch (base + off) len) as Ez by (apply Ezz; lia).
      rewrite <- Ez. assert (zlen (zslice (zslice arch base n) off len) = len) as Elen.
      { rewrite zslice_length by lia. lia. }
      exists RNil. rewrite Elen, Z.ltb_irrefl. split; reflexivity.
Qed.

Lemma zero_section_exact n : 0 <= n -> exact (zero_section n) (zeros n).
Proof.
  intros Hn. assert (zlen (zeros n) = n) as El by (apply zeros_len; exact Hn). split; [|cbn; congruence].
  assert (forall k off, 0 <= k -> 0 <= off -> off + k <= n -> zslice (zeros n) off k = repeat 0%N (Z.to_nat k)) as Ezz.
  { intros k off Hk Hoff Hok. apply zget_ext. intros i. destruct (Z_lt_dec i 0) as [Hi|Hi]; [rewrite !zget_out by lia; reflexivity|].
    destruct (Z_lt_dec i k) as [Hi2|Hi2].
    - rewrite zget_zslice by lia. rewrite zget_zeros by lia. symmetry. apply (zget_zeros k). lia.
    - rewrite !zget_out; [reflexivity|unfold zlen; rewrite repeat_length; lia|rewrite zslice_length by lia; lia]. }
  intros t len off Hlen Hoff. cbn [zero_section sg_read].
  assert ((off <? 0) = false) as -> by lia. cbn [orb]. destruct (n <=? off) eqn:E1.
  - exists REof. rewrite (zslice_past (zeros n)) by lia. split; [reflexivity|]. right. right. lia.
  - destruct (n - off <? len) eqn:E2.
    + exists REof. split.
      * f_equal. rewrite <- (Ezz (n - off) off) by lia. rewrite (zslice_clip (zeros n) off len) by lia. rewrite El. reflexivity.
      * left. rewrite zslice_length by lia. lia.
    + exists RNil. rewrite Ezz by lia. split; [reflexivity|]. unfold zlen. rewrite repeat_length. lia.
Qed.

Lemma zeros_split a b : 0 <= a -> 0 <= b -> zeros (a + b) = zeros a ++ zeros b.
Proof. intros Ha Hb. unfold zeros. rewrite Z2Nat.inj_add by lia. apply repeat_app. Qed.

Lemma skipn_zslice {A} (l : list A) a b : 0 <= a -> 0 <= b -> skipn (Z.to_nat b) (skipn (Z.to_nat a) l) = skipn (Z.to_nat (a + b)) l.
Proof. intros Ha Hb. rewrite skipn_skipn', Z2Nat.inj_add by lia. reflexivity. Qed.

Lemma legal_mono a b spd size : b <= a -> legal_from a spd size -> legal_from b spd size.
Proof. destruct spd as [|[off len] spd]; cbn [legal_from]; [lia|]. intros H (H1 & H2 & H3). split; [lia|]. split; assumption. Qed.

Lemma expand_shift a b stored spd size : b <= a -> legal_from a spd size -> zeros (a - b) ++ expand a stored spd size = expand b stored spd size.
Proof.
  intros H Hl. destruct spd as [|[off len] spd]; cbn [expand].
  - cbn in Hl. rewrite <- zeros_split by lia. f_equal. lia.
  - destruct Hl as (H1 & _). rewrite app_assoc, <- zeros_split by lia. f_equal. f_equal. lia.
Qed.

Lemma make_segs_hole arch body stored o l holes prev cur : 0 <= body -> 0 <= cur -> 0 <= prev <= o -> 0 <= l ->
  body + zlen stored <= zlen arch -> zslice arch body (zlen stored) = stored -> cur + (o - prev) <= zlen stored ->
  exists segs ds, exact_all segs ds /\ concat ds = zslice stored cur (o - prev) ++ zeros l /\ make_segs arch body ((o, l) :: holes) prev cur prev =
      (segs ++ fst (make_segs arch body holes (o + l) (cur + (o - prev)) (o + l)), snd (make_segs arch body holes (o + l) (cur + (o - prev)) (o + l))).
Proof.
  intros Hb Hc Hp Hl Hfit Hst Hcur. cbn [make_segs]. cbv zeta. destruct (o - prev =? 0) eqn:E.
  - exists [zero_section l], [zeros l]. split; [constructor; [apply zero_section_exact; exact Hl|constructor]|].
    rewrite zslice_zero by lia. cbn [concat app]. rewrite app_nil_r. split; [reflexivity|].
    replace (cur + (o - prev)) with cur by lia. replace (prev + l) with (o + l) by lia. destruct (make_segs arch body holes (o + l) cur (o + l)). reflexivity.
  - exists [section arch (body + cur) (o - prev); zero_section l], [zslice stored cur (o - prev); zeros l]. split; [|split].
    + constructor; [|constructor; [apply zero_section_exact; exact Hl|constructor]].
      assert (zslice stored cur (o - prev) = zslice arch (body + cur) (o - prev)) as ->; [|apply section_exact; lia].
      rewrite <- Hst. unfold zslice. rewrite skipn_firstn_comm, firstn_firstn, Nat.min_l by lia. rewrite skipn_skipn', <- Z2Nat.inj_add by lia. reflexivity.
    + cbn [concat]. rewrite app_nil_r. reflexivity.
    + replace (prev + (o - prev) + l) with (o + l) by lia. destruct (make_segs arch body holes (o + l) (cur + (o - prev)) (o + l)). reflexivity.
Qed.

(* [prev] is the end of the last hole made, [pos] the end of the data seen, [cur] the
   stored bytes already handed out: stored bytes for prev..pos are pending. *)
Lemma make_segs_spec arch body size stored spd : 0 <= body -> body + zlen stored <= zlen arch -> zslice arch body (zlen stored) = stored ->
  forall pos prev cur, 0 <= cur -> 0 <= prev <= pos -> legal_from pos spd size -> zlen stored = cur + (pos - prev) + stored_len spd ->
  exists segs ds, make_segs arch body (invert_loop pos spd size) prev cur prev = (segs, size) /\ exact_all segs ds /\ concat ds = zslice stored cur (pos - prev) ++ expand pos (skipn (Z.to_nat (cur + (pos - prev))) stored) spd size.
Proof.
  intros Hb Hfit Hst. induction spd as [|[off len] spd IH]; intros pos prev cur Hc Hp H Hs; cbn [invert_loop].
  - cbn in H, Hs. destruct (make_segs_hole arch body stored pos (size - pos) [] prev cur) as (segs & ds & He & Ec & Em); try lia; [exact Hst|].
    exists segs, ds. rewrite Em. cbn [make_segs fst snd]. rewrite app_nil_r. split; [f_equal; lia|]. split; [exact He|exact Ec].
  - destruct H as (H1 & H2 & H3). cbn [stored_len fold_right snd] in Hs. fold (stored_len spd) in Hs. pose proof (stored_len_nonneg _ _ _ H3) as Hn.
    destruct (len =? 0) eqn:E0.
    + apply Z.eqb_eq in E0. subst len. rewrite Z.add_0_r in H3. destruct (IH pos prev cur) as (segs & ds & Em & He & Ec); [lia|lia|apply (legal_mono off); assumption|lia|].
      exists segs, ds. split; [exact Em|]. split; [exact He|]. rewrite Ec. f_equal. cbn [expand]. rewrite zslice_zero by lia. cbn [app Z.to_nat skipn]. rewrite Z.add_0_r.
      symmetry. apply expand_shift; assumption.
    + apply Z.eqb_neq in E0. set (cur' := cur + (pos - prev)) in *.
      assert (zslice (skipn (Z.to_nat cur') stored) 0 len = zslice stored cur' len) as Ezs by reflexivity.
      destruct (0 <? off - pos) eqn:E1.
      * destruct (make_segs_hole arch body stored pos (off - pos) (invert_loop (off + len) spd size) prev cur) as (segs & ds & He & Ec & Em); try lia; [exact Hst|].
        rewrite Em. fold cur'. replace (pos + (off - pos)) with off by lia.
        destruct (IH (off + len) off cur') as (segs2 & ds2 & Em2 & He2 & Ec2); [lia|lia|exact H3|unfold cur' in *; lia|].
        rewrite Em2. cbn [fst snd]. exists (segs ++ segs2), (ds ++ ds2). split; [reflexivity|]. split; [apply Forall2_app; assumption|].
        rewrite concat_app, Ec, Ec2. replace (off + len - off) with len by lia. cbn [expand]. rewrite Ezs, skipn_zslice by lia. rewrite <- !app_assoc. reflexivity.
      * assert (off = pos) as -> by lia.
        destruct (IH (pos + len) prev cur) as (segs & ds & Em & He & Ec); [lia|lia|exact H3|unfold cur' in *; lia|].
        exists segs, ds. split; [exact Em|]. split; [exact He|]. rewrite Ec. cbn [expand]. rewrite Ezs, skipn_zslice by lia. rewrite Z.sub_diag. change (zeros 0) with (@nil N). cbn [app].
        replace (pos + len - prev) with ((pos - prev) + len) by lia. rewrite zslice_split by lia. fold cur'. rewrite <- app_assoc. f_equal. f_equal. f_equal. f_equal. unfold cur'. f_equal. lia.
Qed.

Lemma make_reader_spec pre stored post spd size : legal spd size -> zlen stored = stored_len spd ->
  exists ds, exact_all (make_reader (pre ++ stored ++ post) (zlen pre) (invert spd size) size) ds /\ concat ds = expand 0 stored spd size.
Proof.
  intros H Hs. set (arch := pre ++ stored ++ post).
  assert (zslice arch (zlen pre) (zlen stored) = stored) as Hst by (apply zslice_mid; reflexivity).
  assert (zlen pre + zlen stored <= zlen arch) as Hfit by (unfold arch; rewrite !zlen_app; pose proof (zlen_nonneg post); lia).
  destruct (make_segs_spec arch (zlen pre) size stored spd (zlen_nonneg pre) Hfit Hst 0 0 0) as (segs & ds & Em & He & Ec); [lia|lia|exact H|lia|].
  unfold make_reader, invert. rewrite Em. rewrite Z.ltb_irrefl. exists ds. split; [exact He|]. rewrite Ec. rewrite zslice_zero by lia. reflexivity.
Qed.

Lemma holes_sum spd : forall pos size a, legal_from pos spd size ->
  fold_left (fun a h => a + snd h) (invert_loop pos spd size) a = a + size - pos - stored_len spd.
Proof.
  induction spd as [|[off len] spd IH]; intros pos size a H; cbn [invert_loop stored_len fold_right snd].
  - cbn. lia.
  - fold (stored_len spd). destruct H as (H1 & H2 & H3). destruct (len =? 0) eqn:E0.
    + assert (len = 0) as -> by lia. rewrite Z.add_0_r in H3. rewrite IH by (apply (legal_mono off); assumption). lia.
    + destruct (0 <? off - pos) eqn:E1; [cbn [fold_left snd]|]; rewrite IH by exact H3; lia.
Qed.

Lemma body_end_spec spd size he : legal spd size -> body_end he size (invert spd size) = he + stored_len spd.
Proof. intros H. unfold body_end, invert. rewrite holes_sum by exact H. lia. Qed.

(* Reading the sparse file through any history of Read, ReadAt and Seek. *)
Lemma sparse_history pre stored post spd size ops : legal spd size -> zlen stored = stored_len spd -> size <= max_int64 -> Forall op_ok ops ->
  exists content, is_sparse_file spd stored size content /\ let m := new_multi (make_reader (pre ++ stored ++ post) (zlen pre) (invert spd size) size) in
  exists outs, fst (mrun m ops) = outs /\ cur_run content 0 ops outs (m_off (snd (mrun m ops))).
Proof.
  intros H Hs Hsz Hops. exists (expand 0 stored spd size). split; [apply expand_is_file; assumption|]. cbv zeta.
  destruct (make_reader_spec pre stored post spd size H Hs) as (ds & He & Ec).
  destruct (multi_history _ ds ops He) as (outs & c & E1 & E2 & E3); [rewrite Ec, expand_len by assumption; lia|exact Hops|].
  exists outs. split; [rewrite E1; reflexivity|]. rewrite <- Ec. rewrite E2. exact E3.
Qed.
