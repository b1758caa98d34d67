From Verif Require Import Common CommonLemmas MultiRead_Model MultiRead_Spec.
Open Scope Z_scope.

(* ---------- layout of the translated list ---------- *)

Definition sizes_ok (segs : list segment) : Prop := Forall (fun s => 0 <= sg_size s) segs.

Lemma total_nonneg segs : sizes_ok segs -> 0 <= declared_total segs.
Proof.
  unfold declared_total; induction 1 as [|s segs Hs _ IH]; cbn [fold_right]; lia.
Qed.

Lemma accum_sizes_total segs a : accum_sizes a segs = a + declared_total segs.
Proof.
  revert a; induction segs as [|s segs IH]; intros a; unfold declared_total; cbn [accum_sizes fold_right].
  - lia.
  - rewrite IH; unfold declared_total; lia.
Qed.

Lemma total_app s1 s2 : declared_total (s1 ++ s2) = declared_total s1 + declared_total s2.
Proof.
  unfold declared_total; induction s1 as [|s s1 IH]; cbn [fold_right app]; lia.
Qed.

Lemma sizes_ok_firstn n segs : sizes_ok segs -> sizes_ok (firstn n segs).
Proof.
  unfold sizes_ok; intros H; revert n; induction H as [|s segs Hs H IH]; intros [|n];
    cbn [firstn]; constructor; auto.
Qed.

Lemma sizes_ok_skipn n segs : sizes_ok segs -> sizes_ok (skipn n segs).
Proof.
  unfold sizes_ok; intros H; revert n; induction H as [|s segs Hs H IH]; intros [|n];
    cbn [skipn]; auto; constructor; auto.
Qed.

(* Head offset of segment i. *)
Definition head_of (segs : list segment) (i : nat) : Z := declared_total (firstn i segs).

Lemma head_of_0 segs : head_of segs 0 = 0.
Proof. reflexivity. Qed.

Lemma head_of_cons s segs i : head_of (s :: segs) (S i) = sg_size s + head_of segs i.
Proof. reflexivity. Qed.

Lemma nth_translate segs a i :
  nth_error (translate a segs) i =
  option_map (fun s => Sized s (a + head_of segs i)) (nth_error segs i).
Proof.
  revert a i; induction segs as [|s segs IH]; intros a [|i]; cbn [translate nth_error option_map]; auto.
  - rewrite head_of_0; do 2 f_equal; lia.
  - rewrite IH, head_of_cons. destruct (nth_error segs i); cbn [option_map]; [|reflexivity].
    do 2 f_equal; lia.
Qed.

Lemma length_translate segs a : length (translate a segs) = length segs.
Proof. revert a; induction segs as [|s segs IH]; intros a; cbn [translate length]; auto. Qed.

Lemma skipn_translate k segs a :
  skipn k (translate a segs) = translate (a + head_of segs k) (skipn k segs).
Proof.
  revert a segs; induction k as [|k IH]; intros a segs.
  - rewrite head_of_0. replace (a + 0) with a by lia. reflexivity.
  - destruct segs as [|s segs]; [reflexivity|]. cbn [skipn translate].
    rewrite IH, head_of_cons; f_equal; lia.
Qed.

Lemma head_of_le segs i j : sizes_ok segs -> (i <= j)%nat -> head_of segs i <= head_of segs j.
Proof.
  unfold head_of; intros H Hij.
  replace (firstn j segs) with (firstn i segs ++ skipn i (firstn j segs)).
  - rewrite total_app.
    pose proof (total_nonneg _ (sizes_ok_skipn i _ (sizes_ok_firstn j _ H))). lia.
  - rewrite <- (firstn_skipn i (firstn j segs)) at 2. rewrite firstn_firstn.
    now replace (Nat.min i j) with i by lia.
Qed.

Lemma head_of_S segs i s : nth_error segs i = Some s -> head_of segs (S i) = head_of segs i + sg_size s.
Proof.
  revert i; induction segs as [|s0 segs IH]; intros [|i] H; cbn [nth_error] in H; try discriminate.
  - injection H as ->. unfold head_of, declared_total; cbn [firstn fold_right]; lia.
  - rewrite (head_of_cons s0 segs (S i)), (head_of_cons s0 segs i), (IH i H); lia.
Qed.

Lemma head_of_all segs i : (length segs <= i)%nat -> head_of segs i = declared_total segs.
Proof. intros H; unfold head_of; now rewrite firstn_all2. Qed.

(* [located segs i s off]: absolute offset [off] lies in segment [i]. *)
Definition located (segs : list segment) (i : nat) (s : segment) (off : Z) : Prop :=
  nth_error segs i = Some s /\ head_of segs i <= off < head_of segs i + sg_size s.

Lemma located_exists segs off :
  sizes_ok segs -> 0 <= off < declared_total segs -> exists i s, located segs i s off.
Proof.
  intros H; revert off; induction H as [|s segs Hs H IH]; intros off Hoff.
  - unfold declared_total in Hoff; cbn in Hoff; lia.
  - assert (declared_total (s :: segs) = sg_size s + declared_total segs) as Ht by reflexivity.
    destruct (Z.ltb_spec off (sg_size s)) as [Hlt|Hge].
    + exists 0%nat, s; split; [reflexivity|]. rewrite head_of_0; lia.
    + destruct (IH (off - sg_size s)) as (i & s' & Hn & Hr); [lia|].
      exists (S i), s'; split; [exact Hn|]. rewrite head_of_cons; lia.
Qed.

Lemma located_mono segs i s j s' off off' :
  sizes_ok segs -> located segs i s off -> located segs j s' off' -> off <= off' -> (i <= j)%nat.
Proof.
  intros Hok [Hn Hr] [Hn' Hr'] Hle.
  destruct (Nat.leb_spec i j) as [|Hlt]; [assumption|].
  pose proof (head_of_S _ _ _ Hn') as HS.
  pose proof (head_of_le segs (S j) i Hok ltac:(lia)). lia.
Qed.

Lemma located_unique segs i s j s' off :
  sizes_ok segs -> located segs i s off -> located segs j s' off -> i = j.
Proof.
  intros Hok H1 H2.
  pose proof (located_mono _ _ _ _ _ _ _ Hok H1 H2 (Z.le_refl _)).
  pose proof (located_mono _ _ _ _ _ _ _ Hok H2 H1 (Z.le_refl _)). lia.
Qed.

(* ---------- search ---------- *)

Lemma linear_spec segs a off i s k :
  sizes_ok segs -> located segs i s (off - a) ->
  linear_search k off (translate a segs) = Some (k + i)%nat.
Proof.
  intros Hok; revert a i k; induction Hok as [|s0 segs Hs0 Hok IH]; intros a i k [Hn Hr].
  - destruct i; discriminate.
  - cbn [translate linear_search sz_head sz_seg].
    destruct i as [|i]; cbn [nth_error] in Hn.
    + injection Hn as ->. rewrite head_of_0 in Hr.
      destruct (Z.leb_spec a off); [|lia].
      destruct (Z.ltb_spec off (a + sg_size s)); [|lia]. cbn [andb]. f_equal; lia.
    + rewrite head_of_cons in Hr.
      assert (0 <= head_of segs i) by (apply total_nonneg, sizes_ok_firstn, Hok).
      destruct (Z.ltb_spec off (a + sg_size s0)); [lia|].
      rewrite andb_false_r.
      rewrite (IH (a + sg_size s0) i (S k)); [f_equal; lia|].
      split; [exact Hn|lia].
Qed.

Lemma bs_loop_spec x off p :
  (p <= length x)%nat ->
  (forall k r, nth_error x k = Some r -> (k < p)%nat -> cmp_off r off < 0) ->
  (forall k r, nth_error x k = Some r -> (p <= k)%nat -> 0 <= cmp_off r off) ->
  forall fuel i j, (i <= p <= j)%nat -> (j <= length x)%nat -> (j - i <= fuel)%nat ->
  bs_loop fuel off x i j = Some p.
Proof.
  intros Hp Hlo Hhi; induction fuel as [|fuel IH]; intros i j Hij Hj Hf; cbn [bs_loop].
  - destruct (Nat.ltb_spec i j); [lia|]. f_equal; lia.
  - destruct (Nat.ltb_spec i j) as [Hlt|Hge]; [|f_equal; lia].
    assert (i <= (i + j) / 2 < j)%nat as Hh.
    { split; [apply Nat.div_le_lower_bound; lia|apply Nat.div_lt_upper_bound; lia]. }
    destruct (nth_error x ((i + j) / 2)) as [r|] eqn:Er.
    2:{ apply nth_error_None in Er; lia. }
    destruct (Z.ltb_spec (cmp_off r off) 0) as [Hc|Hc].
    + apply IH; try lia. split; [|lia].
      destruct (Nat.leb_spec p ((i + j) / 2)) as [Hle|]; [|lia].
      specialize (Hhi _ _ Er Hle); lia.
    + apply IH; try lia. split; [lia|].
      destruct (Nat.leb_spec p ((i + j) / 2)) as [Hle|Hle]; [lia|].
      specialize (Hlo _ _ Er Hle); lia.
Qed.

Lemma binary_spec segs a off i s :
  sizes_ok segs -> located segs i s (off - a) ->
  binary_search off (translate a segs) = Some i.
Proof.
  intros Hok [Hn Hr]; unfold binary_search.
  assert (i < length segs)%nat as Hi by (apply nth_error_Some; congruence).
  rewrite (bs_loop_spec (translate a segs) off i).
  - rewrite nth_translate, Hn; cbn [option_map]. unfold cmp_off; cbn [sz_head sz_seg].
    destruct (Z.ltb_spec off (a + head_of segs i)); [lia|].
    destruct (Z.leb_spec (a + head_of segs i) off); [|lia].
    destruct (Z.ltb_spec off (a + head_of segs i + sg_size s)); [|lia]. reflexivity.
  - rewrite length_translate; lia.
  - intros k r Hk Hlt. rewrite nth_translate in Hk.
    destruct (nth_error segs k) as [sk|] eqn:Ek; [|discriminate]. injection Hk as <-.
    unfold cmp_off; cbn [sz_head sz_seg].
    pose proof (head_of_S _ _ _ Ek). pose proof (head_of_le segs (S k) i Hok ltac:(lia)).
    assert (0 <= sg_size sk) by (eapply Forall_forall in Hok; [exact Hok|eapply nth_error_In; eassumption]).
    destruct (Z.ltb_spec off (a + head_of segs k)); [lia|].
    destruct (Z.ltb_spec off (a + head_of segs k + sg_size sk)); [lia|].
    rewrite andb_false_r; lia.
  - intros k r Hk Hle. rewrite nth_translate in Hk.
    destruct (nth_error segs k) as [sk|] eqn:Ek; [|discriminate]. injection Hk as <-.
    unfold cmp_off; cbn [sz_head sz_seg].
    destruct (Z.ltb_spec off (a + head_of segs k)) as [|Hge]; [lia|].
    destruct (Nat.eq_dec k i) as [->|Hne].
    + rewrite Hn in Ek; injection Ek as <-.
      destruct (Z.leb_spec (a + head_of segs i) off); [|lia].
      destruct (Z.ltb_spec off (a + head_of segs i + sg_size s)); [|lia]. cbn; lia.
    + pose proof (head_of_S _ _ _ Hn). pose proof (head_of_le segs (S i) k Hok ltac:(lia)). lia.
  - rewrite length_translate; lia.
  - lia.
  - rewrite length_translate; lia.
Qed.

(* Both search strategies find the segment containing the offset. *)
Lemma search_spec segs a off i s :
  sizes_ok segs -> located segs i s (off - a) -> search off (translate a segs) = Some i.
Proof.
  intros Hok Hl; unfold search. destruct (_ <? _)%nat.
  - eapply binary_spec; eassumption.
  - rewrite (linear_spec _ _ _ _ _ 0%nat Hok Hl); reflexivity.
Qed.

Lemma located_skipn segs k i s off :
  located segs i s off -> (k <= i)%nat ->
  located (skipn k segs) (i - k) s (off - head_of segs k).
Proof.
  intros [Hn Hr] Hk; split.
  - rewrite nth_error_skipn'. rewrite <- Hn. f_equal; lia.
  - assert (head_of segs i = head_of segs k + head_of (skipn k segs) (i - k)) as E.
    { unfold head_of. rewrite <- total_app. f_equal.
      rewrite <- (firstn_skipn k (firstn i segs)). rewrite firstn_firstn.
      replace (Nat.min k i) with k by lia. f_equal.
      rewrite skipn_firstn_comm. reflexivity. }
    lia.
Qed.

Lemma search_skipn segs k i s off :
  sizes_ok segs -> located segs i s off -> (k <= i)%nat ->
  search off (skipn k (translate 0 segs)) = Some (i - k)%nat.
Proof.
  intros Hok Hl Hk. rewrite skipn_translate.
  apply search_spec with (s := s); [now apply sizes_ok_skipn|].
  replace (off - (0 + head_of segs k)) with (off - head_of segs k) by lia.
  now apply located_skipn.
Qed.

(* ---------- content ---------- *)

Lemma serves_sizes segs ds : serves_all segs ds -> sizes_ok segs.
Proof. induction 1 as [|s d segs ds [_ Hs] H IH]; constructor; auto. Qed.

Lemma serves_nth segs ds i s :
  serves_all segs ds -> nth_error segs i = Some s ->
  exists d, nth_error ds i = Some d /\ serves s d /\ 0 <= sg_size s.
Proof.
  intros H; revert i; induction H as [|s0 d0 segs ds H0 H IH]; intros [|i] Hn; cbn [nth_error] in *;
    try discriminate; [|eauto].
  injection Hn as <-. eauto.
Qed.

Lemma vbyte_located segs ds i s d off :
  sizes_ok segs -> located segs i s off -> nth_error ds i = Some d -> length ds = length segs ->
  vbyte segs ds off = zget d (off - head_of segs i).
Proof.
  intros Hok; revert ds i off; induction Hok as [|s0 segs Hs0 Hok IH]; intros ds i off [Hn Hr] Hd Hlen.
  - destruct i; discriminate.
  - destruct ds as [|d0 ds]; [discriminate|]. cbn [vbyte].
    destruct i as [|i]; cbn [nth_error] in *.
    + injection Hn as ->. injection Hd as ->. rewrite head_of_0 in *.
      destruct (Z.ltb_spec off (sg_size s)); [|lia]. f_equal; lia.
    + rewrite head_of_cons in *.
      assert (0 <= head_of segs i) by (apply total_nonneg, sizes_ok_firstn, Hok).
      destruct (Z.ltb_spec off (sg_size s0)); [lia|].
      rewrite (IH ds i (off - sg_size s0)); [f_equal; lia|split; [exact Hn|lia]|exact Hd|].
      cbn [length] in Hlen; lia.
Qed.

(* The last segment holds fewer bytes than it declares, and [stop] is where its data ends. *)
Definition last_short (segs : list segment) (ds : list (list byte)) (stop : Z) : Prop :=
  exists s d, nth_error segs (length segs - 1) = Some s /\ nth_error ds (length segs - 1) = Some d /\
    zlen d < sg_size s /\ stop = declared_total segs - sg_size s + zlen d.

Definition misdeclared (segs : list segment) (ds : list (list byte)) : Prop :=
  exists i s d, nth_error segs i = Some s /\ nth_error ds i = Some d /\ sg_size s <> zlen d.

(* What one call into the located segment gives, after classification. *)
Lemma one_call segs ds i s off r len t data e idx hd :
  serves_all segs ds -> located segs i s off -> m_r r = translate 0 segs ->
  0 <= len -> hd = head_of segs i ->
  sg_read s t len (off - hd) = (data, e) ->
  let c := classify r idx i (Sized s hd) (off - hd) off len (zlen data) e in
  0 <= zlen data <= len /\
  (e = REof \/ zlen data = len) /\
  (c = MNil \/ c = MEof ->
     off + zlen data <= hd + sg_size s /\
     forall j, 0 <= j < zlen data -> vbyte segs ds (off + j) = zget data j) /\
  (c = MNil -> zlen data = len \/
     (0 < zlen data /\ exists d, nth_error ds i = Some d /\ off + zlen data = hd + zlen d)) /\
  (c = MEof -> off + zlen data = declared_total segs \/ last_short segs ds (off + zlen data)) /\
  (c <> MNil -> c <> MEof ->
     misdeclared segs ds /\ exists x, c = MErr idx (off - hd) off len x) /\
  (0 < len -> zlen data = 0 -> c <> MNil /\ c <> MEof).
Proof.
  intros Hs Hl Hr Hlen -> Hcall c.
  pose proof (serves_sizes _ _ Hs) as Hok.
  destruct Hl as [Hn Hrange].
  destruct (serves_nth _ _ _ _ Hs Hn) as (d & Hd & Hserve & Hsz).
  destruct (Hserve t len (off - head_of segs i) Hlen ltac:(lia)) as (e' & Hcall' & He').
  rewrite Hcall in Hcall'. injection Hcall' as -> ->.
  set (dat := zslice d (off - head_of segs i) len) in *.
  assert (zlen dat = Z.min len (Z.max 0 (zlen d - (off - head_of segs i)))) as Hzl
    by (unfold dat; apply zslice_length; lia).
  assert (length ds = length segs) as Hlds by (symmetry; eapply Forall2_length; exact Hs).
  assert (i < length segs)%nat as Hi by (apply nth_error_Some; congruence).
  assert (forall j, 0 <= j < zlen dat -> off + zlen dat <= head_of segs i + sg_size s ->
            vbyte segs ds (off + j) = zget dat j) as Hbytes.
  { intros j Hj Hle. rewrite (vbyte_located segs ds i s d); auto.
    - unfold dat; rewrite zget_zslice by lia. f_equal; lia.
    - split; [exact Hn|lia]. }
  assert (zlen (m_r r) = Z.of_nat (length segs)) as Hzr
    by (unfold zlen; rewrite Hr, length_translate; reflexivity).
  subst c. unfold classify; cbn [sz_head sz_seg]. rewrite Hzr.
  destruct e' as [| |code]; [| |contradiction].
  - (* nil *)
    destruct (Z.ltb_spec (sg_size s - (off - head_of segs i)) (zlen dat)) as [Hmore|Hok2]; cbn [andb].
    + repeat split; try lia; intros; try discriminate; try (destruct H; discriminate); try congruence.
      * exists i, s, d; repeat split; auto. lia.
      * eexists; reflexivity.
    + repeat split; try lia; intros; try discriminate; auto; try congruence; try lia; try (apply Hbytes; lia).
  - (* eof *)
    destruct (Z.ltb_spec (sg_size s - (off - head_of segs i)) (zlen dat)) as [Hmore|Hok2]; cbn [andb].
    + repeat split; try lia; auto; intros; try discriminate; try (destruct H; discriminate); try congruence.
      * exists i, s, d; repeat split; auto. lia.
      * eexists; reflexivity.
    + destruct (Z.eqb_spec (zlen dat) 0) as [Hz|Hnz].
      * destruct (Z.ltb_spec 0 (sg_size s - (off - head_of segs i))) as [Hrem|]; [|lia]. cbn [andb].
        repeat split; try lia; auto; intros; try discriminate; try (destruct H; discriminate); try congruence.
        -- exists i, s, d; repeat split; auto. lia.
        -- eexists; reflexivity.
      * cbn [andb].
        assert (off + zlen dat = head_of segs i + zlen d) as Hend by lia.
        destruct (Z.ltb_spec (Z.of_nat i) (Z.of_nat (length segs) - 1)) as [Hnl|Hlast].
        -- repeat split; try lia; auto; intros; try discriminate; auto; try congruence; try lia; try (apply Hbytes; lia).
           right; split; [lia|]. exists d; split; [exact Hd|lia].
        -- assert (i = length segs - 1)%nat as Hil by lia.
           repeat split; try lia; auto; intros; try discriminate; auto; try congruence; try lia; try (apply Hbytes; lia).
           pose proof (head_of_S _ _ _ Hn) as HS.
           rewrite head_of_all in HS by lia.
           destruct (Z.eq_dec (zlen d) (sg_size s)) as [E|E]; [left; lia|right].
           exists s, d. rewrite <- Hil. repeat split; auto; lia.
Qed.

(* ---------- ReadAt ---------- *)

Record minv (segs : list segment) (r : multi) : Prop := {
  inv_r : m_r r = translate 0 segs;
  inv_upper : m_upper r = declared_total segs;
  inv_off : 0 <= m_off r <= max_int64 \/ 0 <= m_off r;
  inv_idx : forall i s, located segs i s (m_off r) -> (m_idx r <= i)%nat
}.

Lemma minv_new segs : minv segs (new_multi segs).
Proof.
  constructor; cbn [new_multi m_r m_upper m_off m_idx]; auto; try lia.
  rewrite accum_sizes_total; lia.
Qed.

(* The result of ReadAt for honest-content readers with arbitrary declared sizes. *)
Definition readat_post segs ds (len off : Z) (data : list byte) (e : merr) : Prop :=
  zlen data <= len /\
  (e = MNil \/ e = MEof -> forall j, 0 <= j < zlen data -> vbyte segs ds (off + j) = zget data j) /\
  (e = MNil -> zlen data = len) /\
  (e = MEof -> off + zlen data = declared_total segs \/ last_short segs ds (off + zlen data)) /\
  (e <> MNil -> e <> MEof -> misdeclared segs ds).

Lemma read_at1_spec segs ds r t len off i s :
  serves_all segs ds -> m_r r = translate 0 segs -> m_upper r = declared_total segs ->
  located segs i s off -> 0 <= off < declared_total segs ->
  read_at1 r t len off =
  (let (data, e) := sg_read s t len (off - head_of segs i) in
   (data, classify r i i (Sized s (head_of segs i)) (off - head_of segs i) off len (zlen data) e)).
Proof.
  intros Hs Hr Hu Hl Hoff. unfold read_at1.
  destruct (Z.ltb_spec off 0); [lia|]. destruct (Z.leb_spec (m_upper r) off); [lia|]. cbn [orb].
  pose proof (serves_sizes _ _ Hs) as Hok.
  rewrite Hr.
  rewrite (search_spec segs 0 off i s Hok) by (replace (off - 0) with off by lia; exact Hl).
  destruct Hl as [Hn Hrange].
  rewrite nth_translate, Hn; cbn [option_map sz_head sz_seg].
  replace (0 + head_of segs i) with (head_of segs i) by lia. reflexivity.
Qed.

Lemma last_short_le segs ds x : serves_all segs ds -> last_short segs ds x -> x < declared_total segs.
Proof. intros _ (s & d & _ & _ & H1 & H2); lia. Qed.

Lemma read_at_loop_spec segs ds r :
  serves_all segs ds -> m_r r = translate 0 segs -> m_upper r = declared_total segs ->
  forall fuel t len off acc maxE i s d,
  located segs i s off -> nth_error ds i = Some d ->
  0 <= off -> 0 <= len -> off + len <= declared_total segs ->
  (length segs - i + 1 <= fuel)%nat \/ ((0 < fuel)%nat /\ zlen d <= off - head_of segs i) ->
  (maxE = true -> off + len = declared_total segs) ->
  exists data e, read_at_loop fuel r t len off maxE acc = MOk (acc ++ data) e /\
    zlen data <= len /\
    (e = MNil \/ e = MEof -> forall j, 0 <= j < zlen data -> vbyte segs ds (off + j) = zget data j) /\
    (e = MNil -> zlen data = len /\ maxE = false) /\
    (e = MEof -> off + zlen data = declared_total segs \/ last_short segs ds (off + zlen data)) /\
    (e <> MNil -> e <> MEof -> misdeclared segs ds).
Proof.
  intros Hs Hr Hu.
  pose proof (serves_sizes _ _ Hs) as Hok.
  assert (length ds = length segs) as Hlds by (symmetry; eapply Forall2_length; exact Hs).
  induction fuel as [|fuel IH]; intros t len off acc maxE i s d Hl Hd Hoff Hlen Hbound Hfuel HmaxE.
  { assert (i < length segs)%nat by (apply nth_error_Some; destruct Hl; congruence). lia. }
  cbn [read_at_loop].
  assert (i < length segs)%nat as Hi by (apply nth_error_Some; destruct Hl; congruence).
  assert (off < declared_total segs) as Hlt.
  { destruct Hl as [Hn Hrange]. pose proof (head_of_S _ _ _ Hn).
    pose proof (head_of_le segs (S i) (length segs) Hok ltac:(lia)).
    rewrite (head_of_all segs (length segs)) in * by lia. lia. }
  rewrite (read_at1_spec segs ds r t len off i s Hs Hr Hu Hl) by lia.
  destruct (sg_read s t len (off - head_of segs i)) as [data e] eqn:Hcall.
  pose proof (one_call segs ds i s off r len t data e i (head_of segs i) Hs Hl Hr Hlen eq_refl Hcall) as H.
  cbn zeta in H.
  set (c := classify r i i (Sized s (head_of segs i)) (off - head_of segs i) off len (zlen data) e) in *.
  destruct H as (Hzl & He & Hgood & Hnil & Heof & Herr & Hzero).
  destruct (Z.eqb_spec (zlen data) len) as [Hfull|Hpart]; cbn [orb].
  - (* buffer filled *)
    exists data. destruct c as [| |a b cc dd x] eqn:Ec.
    + exists (if maxE then MEof else MNil).
      split; [rewrite andb_true_r; reflexivity|].
      specialize (Hgood (or_introl eq_refl)). destruct Hgood as [Hle Hby].
      destruct maxE.
      * split; [lia|]. split; [intros _; exact Hby|]. split; [discriminate|].
        split; [intros _; left; specialize (HmaxE eq_refl); lia|congruence].
      * split; [lia|]. split; [intros _; exact Hby|]. split; [auto|].
        split; [discriminate|congruence].
    + exists MEof. split; [rewrite andb_false_r; reflexivity|].
      specialize (Hgood (or_intror eq_refl)). destruct Hgood as [Hle Hby].
      split; [lia|]. split; [intros _; exact Hby|]. split; [discriminate|].
      split; [intros _; apply Heof; reflexivity|congruence].
    + eexists. split; [rewrite andb_false_r; reflexivity|].
      split; [lia|]. split; [intros [|]; discriminate|]. split; [discriminate|].
      split; [discriminate|]. intros _ _. apply Herr; congruence.
  - destruct c as [| |a b cc dd x] eqn:Ec; cbn [negb].
    + (* continue with the next segment *)
      destruct (Hnil eq_refl) as [|(Hpos & d' & Hd' & Hend)]; [lia|].
      rewrite Hd in Hd'; injection Hd' as <-.
      specialize (Hgood (or_introl eq_refl)). destruct Hgood as [Hle Hby].
      assert (0 <= off + zlen data < declared_total segs) as Hin by lia.
      destruct (located_exists segs (off + zlen data) Hok Hin) as (i' & s' & Hl').
      destruct (nth_error ds i') as [d'|] eqn:Hd'.
      2:{ apply nth_error_None in Hd'. destruct Hl' as [Hn' _].
          assert (i' < length segs)%nat by (apply nth_error_Some; congruence). lia. }
      assert (i <= i')%nat as Hii by (eapply located_mono; eauto; lia).
      destruct (IH (S t) (len - zlen data) (off + zlen data) (acc ++ data) maxE i' s' d' Hl' Hd')
        as (data' & e' & Hrun & Hp1 & Hp2 & Hp3 & Hp4 & Hp5); try lia.
      * (* fuel *)
        destruct (Nat.eq_dec i i') as [Heq|Hne].
        -- right. subst i'. rewrite Hd in Hd'; injection Hd' as <-.
           split; [|lia].
           destruct Hfuel as [Hf|[_ Hbad]]; [lia|].
           exfalso. lia.
        -- left. destruct Hfuel as [Hf|[_ Hbad]]; [lia|exfalso; lia].
      * exists (data ++ data'), e'. split; [rewrite Hrun, app_assoc; reflexivity|].
        rewrite zlen_app.
        split; [lia|]. split.
        { intros Hee j Hj. destruct (Z.ltb_spec j (zlen data)) as [Hjl|Hjg].
          - rewrite zget_app_l by lia. apply Hby; lia.
          - rewrite zget_app_r by lia. rewrite <- Hp2; [f_equal; lia|exact Hee|lia]. }
        split; [intros Hee; destruct (Hp3 Hee); split; [lia|assumption]|].
        split; [intros Hee; rewrite Z.add_assoc; apply Hp4; exact Hee|exact Hp5].
    + exists data, MEof. split; [rewrite andb_false_r; reflexivity|].
      specialize (Hgood (or_intror eq_refl)). destruct Hgood as [Hle Hby].
      split; [lia|]. split; [intros _; exact Hby|]. split; [discriminate|].
      split; [intros _; apply Heof; reflexivity|congruence].
    + exists data. eexists. split; [rewrite andb_false_r; reflexivity|].
      split; [lia|]. split; [intros [|]; discriminate|]. split; [discriminate|].
      split; [discriminate|]. intros _ _. apply Herr; congruence.
Qed.

Lemma read_at_general segs ds r len off :
  serves_all segs ds -> minv segs r -> 0 <= len -> 0 <= off < declared_total segs ->
  exists data e, read_at (S (length (m_r r))) r len off = MOk data e /\
    readat_post segs ds len off data e.
Proof.
  intros Hs Hinv Hlen Hoff. destruct Hinv as [Hr Hu _ _].
  pose proof (serves_sizes _ _ Hs) as Hok.
  destruct (located_exists segs off Hok Hoff) as (i & s & Hl).
  destruct Hl as [Hn Hrange].
  destruct (serves_nth _ _ _ _ Hs Hn) as (d & Hd & _ & _).
  unfold read_at. destruct (Z.ltb_spec off 0); [lia|]. destruct (Z.leb_spec (m_upper r) off); [lia|].
  cbn [orb]. rewrite Hu.
  replace (length (m_r r)) with (length segs) by (rewrite Hr, length_translate; reflexivity).
  destruct (Z.ltb_spec (declared_total segs - off) len) as [Hmax|Hmax].
  - destruct (read_at_loop_spec segs ds r Hs Hr Hu (S (length segs)) (m_t r)
                (declared_total segs - off) off [] true i s d)
      as (data & e & Hrun & Hp1 & Hp2 & Hp3 & Hp4 & Hp5); try lia.
    + split; assumption.
    + assumption.
    + exists data, e. split; [exact Hrun|]. unfold readat_post.
      split; [lia|]. split; [exact Hp2|]. split; [intros Hee; destruct (Hp3 Hee); discriminate|].
      split; assumption.
  - destruct (read_at_loop_spec segs ds r Hs Hr Hu (S (length segs)) (m_t r) len off [] false i s d)
      as (data & e & Hrun & Hp1 & Hp2 & Hp3 & Hp4 & Hp5); try lia; try assumption.
    + split; assumption.
    + exists data, e. split; [exact Hrun|]. unfold readat_post.
      split; [lia|]. split; [exact Hp2|]. split; [intros Hee; apply Hp3; exact Hee|].
      split; assumption.
Qed.

(* ---------- exact segments ---------- *)

Lemma exact_serves segs ds : exact_all segs ds -> serves_all segs ds.
Proof.
  induction 1 as [|s d segs ds [H1 H2] H IH]; constructor; auto. split; [exact H1|].
  rewrite H2; apply zlen_nonneg.
Qed.

Lemma exact_total segs ds : exact_all segs ds -> declared_total segs = zlen (concat ds).
Proof.
  induction 1 as [|s d segs ds [H1 H2] H IH]; [reflexivity|].
  cbn [concat]. rewrite zlen_app. unfold declared_total in *; cbn [fold_right]. lia.
Qed.

Lemma exact_vbyte segs ds x : exact_all segs ds -> 0 <= x -> vbyte segs ds x = zget (concat ds) x.
Proof.
  intros H; revert x; induction H as [|s d segs ds [H1 H2] H IH]; intros x Hx; cbn [vbyte concat].
  - now rewrite zget_nil.
  - rewrite H2. destruct (Z.ltb_spec x (zlen d)).
    + now rewrite zget_app_l.
    + rewrite zget_app_r by lia. apply IH; lia.
Qed.

Lemma exact_not_mis segs ds : exact_all segs ds -> ~ misdeclared segs ds.
Proof.
  intros H (i & s & d & Hs & Hd & Hne); apply Hne; clear Hne; revert i Hs Hd.
  induction H as [|s0 d0 segs ds [H1 H2] H IH]; intros [|i] Hs Hd; cbn [nth_error] in *; try discriminate.
  - injection Hs as <-; injection Hd as <-; exact H2.
  - eapply IH; eassumption.
Qed.

Lemma exact_not_short segs ds x : exact_all segs ds -> ~ last_short segs ds x.
Proof.
  intros H (s & d & Hs & Hd & Hlt & _); apply (exact_not_mis _ _ H).
  exists (length segs - 1)%nat, s, d; repeat split; auto; lia.
Qed.

Lemma bytes_zslice (content data : list byte) off :
  0 <= off -> (forall j, 0 <= j < zlen data -> zget content (off + j) = zget data j) ->
  data = zslice content off (zlen data).
Proof.
  intros Ho H. apply zget_ext; intros i.
  destruct (Z.ltb_spec i 0) as [Hi|Hi]; [rewrite !zget_out by lia; reflexivity|].
  destruct (Z.ltb_spec i (zlen data)) as [Hl|Hl].
  - rewrite zget_zslice by lia. symmetry; apply H; lia.
  - rewrite (zget_out data) by lia. rewrite zget_out; [reflexivity|].
    rewrite zslice_length by (try lia; apply zlen_nonneg). pose proof (zlen_nonneg data); lia.
Qed.

Lemma readat_exact segs ds r len off :
  exact_all segs ds -> minv segs r -> 0 <= len ->
  exists data e, read_at (S (length (m_r r))) r len off = MOk data e /\
    spec_read_at (concat ds) len off data e.
Proof.
  intros Hx Hinv Hlen. pose proof (exact_total _ _ Hx) as Ht.
  unfold spec_read_at. rewrite <- Ht.
  destruct ((off <? 0) || (declared_total segs <=? off)) eqn:Eb.
  - exists [], MEof; split; [|auto]. unfold read_at. rewrite (inv_upper _ _ Hinv), Eb. reflexivity.
  - assert (0 <= off < declared_total segs) as Hoff by lia.
    destruct (read_at_general segs ds r len off (exact_serves _ _ Hx) Hinv Hlen Hoff)
      as (data & e & Hrun & Hp1 & Hp2 & Hp3 & Hp4 & Hp5).
    exists data, e; split; [exact Hrun|].
    assert (e = MNil \/ e = MEof) as He.
    { destruct e as [| |a b c d x]; auto. exfalso. apply (exact_not_mis _ _ Hx), Hp5; discriminate. }
    assert (data = zslice (concat ds) off (zlen data)) as Hdata.
    { apply bytes_zslice; [lia|]. intros j Hj. rewrite <- exact_vbyte with (segs := segs) by (auto; lia).
      apply Hp2; assumption. }
    assert (e = MEof -> off + zlen data = declared_total segs) as Hend.
    { intros Hee; destruct (Hp4 Hee) as [|Hsh]; [assumption|]. now apply exact_not_short in Hsh. }
    pose proof (zlen_nonneg data).
    split; [|split].
    + destruct He as [He|He].
      * rewrite (Hp3 He) in Hdata. exact Hdata.
      * specialize (Hend He). destruct (Z.eq_dec (zlen data) len) as [E|E]; [rewrite E in Hdata; exact Hdata|].
        rewrite Hdata. replace (zlen data) with (zlen (concat ds) - off) by lia.
        symmetry. apply zslice_clip; lia.
    + intros Hlt. destruct He as [He|He]; [|exact He]. specialize (Hp3 He); lia.
    + intros Heq. destruct He as [He|He]; [left; exact He|right; split; [exact He|]].
      specialize (Hend He); lia.
Qed.

(* ---------- Read ---------- *)

Lemma read_general segs ds r len :
  serves_all segs ds -> minv segs r -> 0 <= len -> m_off r < declared_total segs ->
  exists data e r', read r len = (MOk data e, r') /\ minv segs r' /\
    m_off r' = m_off r + zlen data /\ zlen data <= len /\
    (e = MNil \/ e = MEof ->
       m_off r' <= declared_total segs /\
       (0 < len -> 0 < zlen data) /\
       forall j, 0 <= j < zlen data -> vbyte segs ds (m_off r + j) = zget data j) /\
    (e = MEof -> m_off r' = declared_total segs \/ last_short segs ds (m_off r')) /\
    (e <> MNil -> e <> MEof -> misdeclared segs ds).
Proof.
  intros Hs Hinv Hlen Hlt. destruct Hinv as [Hr Hu Ho Hidx].
  pose proof (serves_sizes _ _ Hs) as Hok.
  destruct (located_exists segs (m_off r) Hok ltac:(lia)) as (i & s & Hl).
  specialize (Hidx _ _ Hl) as Hi.
  unfold read. destruct (Z.leb_spec (m_upper r) (m_off r)); [lia|].
  rewrite Hr. rewrite (search_skipn segs (m_idx r) i s (m_off r) Hok Hl Hi).
  rewrite nth_error_skipn'. replace (m_idx r + (i - m_idx r))%nat with i by lia.
  rewrite nth_translate. pose proof (proj1 Hl) as Hn. rewrite Hn; cbn [option_map sz_head sz_seg].
  replace (0 + head_of segs i) with (head_of segs i) by lia.
  destruct (sg_read s (m_t r) len (m_off r - head_of segs i)) as [data e] eqn:Hcall.
  set (r' := if (0 <? zlen data) || match e with REof => true | _ => false end
             then Multi i (m_off r + zlen data) (m_upper r) (translate 0 segs) (S (m_t r))
             else Multi (m_idx r) (m_off r) (m_upper r) (translate 0 segs) (S (m_t r))).
  pose proof (zlen_nonneg data) as Hnn.
  assert (m_r r' = translate 0 segs) as Hr' by (unfold r'; destruct (_ || _); reflexivity).
  assert (m_upper r' = m_upper r) as Hu' by (unfold r'; destruct (_ || _); reflexivity).
  assert (m_off r' = m_off r + zlen data) as Ho'.
  { unfold r'. destruct (Z.ltb_spec 0 (zlen data)); cbn [orb]; [reflexivity|].
    destruct e; cbn [m_off]; lia. }
  assert (minv segs r') as Hinv'.
  { constructor; [exact Hr'|congruence|lia|].
    intros i2 s2 Hl2. rewrite Ho' in Hl2.
    assert (i <= i2)%nat by (eapply located_mono; eauto; lia).
    unfold r'; destruct (_ || _); cbn [m_idx]; lia. }
  exists data, (classify r' (m_idx r') (m_idx r') (Sized s (head_of segs i)) (m_off r - head_of segs i)
             (m_off r) len (zlen data) e), r'.
  split; [reflexivity|]. split; [exact Hinv'|]. split; [exact Ho'|].
  (* the index used for "is it the last one" is i whenever err is EOF *)
  assert (classify r' (m_idx r') (m_idx r') (Sized s (head_of segs i)) (m_off r - head_of segs i)
             (m_off r) len (zlen data) e =
          classify r' (m_idx r') i (Sized s (head_of segs i)) (m_off r - head_of segs i)
             (m_off r) len (zlen data) e) as Ecl.
  { unfold classify. destruct e; try reflexivity.
    unfold r'; rewrite orb_true_r; reflexivity. }
  rewrite Ecl.
  pose proof (one_call segs ds i s (m_off r) r' len (m_t r) data e (m_idx r') (head_of segs i)
                Hs Hl Hr' Hlen eq_refl Hcall) as Hone.
  cbn zeta in Hone.
  set (c := classify r' (m_idx r') i (Sized s (head_of segs i)) (m_off r - head_of segs i)
             (m_off r) len (zlen data) e) in *.
  destruct Hone as (Hzl & He & Hgood & Hnil & Heof & Herr & Hzero).
  split; [lia|]. split; [|split].
  - intros Hc. destruct (Hgood Hc) as [Hle Hby].
    split; [|split; [|exact Hby]].
    + rewrite Ho'. pose proof (head_of_S _ _ _ Hn) as HS.
      assert (i < length segs)%nat by (apply nth_error_Some; congruence).
      pose proof (head_of_le segs (S i) (length segs) Hok ltac:(lia)).
      rewrite (head_of_all segs (length segs)) in * by lia. lia.
    + intros Hpos. destruct (Z.eq_dec (zlen data) 0) as [Hz|]; [|lia].
      destruct (Hzero Hpos Hz) as [Z1 Z2]. destruct Hc; contradiction.
  - intros Hc. rewrite Ho'. apply Heof; exact Hc.
  - intros H1 H2. apply Herr; assumption.
Qed.

Lemma read_end segs r len : minv segs r -> declared_total segs <= m_off r -> read r len = (MOk [] MEof, r).
Proof.
  intros Hinv H; unfold read. rewrite (inv_upper _ _ Hinv).
  destruct (Z.leb_spec (declared_total segs) (m_off r)); [reflexivity|lia].
Qed.

(* ---------- history ---------- *)

Lemma seek_step segs ds r offset w :
  exact_all segs ds -> minv segs r -> m_off r <= max_int64 -> declared_total segs <= max_int64 ->
  in_int64 offset ->
  exists x r', seek r offset w = (x, r') /\ minv segs r' /\ m_off r' <= max_int64 /\
    cur_step (concat ds) (m_off r) (OSeek offset w) (OutSeek x) (m_off r').
Proof.
  intros Hx Hinv Hm Htot Hoff64. pose proof (exact_total _ _ Hx) as Ht.
  pose proof (serves_sizes _ _ (exact_serves _ _ Hx)) as Hok.
  pose proof (total_nonneg _ Hok) as Htn.
  destruct Hinv as [Hr Hu Ho Hidx].
  (* moving to an in-range target *)
  assert (forall target, 0 <= target <= max_int64 ->
    exists r', (if target <? 0 then (SeekErr, r)
      else if m_upper r <=? target
      then (SeekOk target, Multi (length (m_r r)) target (m_upper r) (m_r r) (m_t r))
      else match search target (m_r r) with
        | None => (SeekOk target, Multi (S (length (m_r r))) target (m_upper r) (m_r r) (m_t r))
        | Some i => (SeekOk target, Multi i target (m_upper r) (m_r r) (m_t r)) end)
      = (SeekOk target, r') /\ minv segs r' /\ m_off r' = target) as Hmove.
  { intros target Htg. destruct (Z.ltb_spec target 0); [lia|].
    destruct (Z.leb_spec (m_upper r) target) as [Hge|Hlt].
    - eexists; split; [reflexivity|]. split; [|reflexivity].
      constructor; cbn [m_r m_upper m_off m_idx]; auto; try lia.
      intros i s [Hn Hrange]. pose proof (head_of_S _ _ _ Hn).
      assert (i < length segs)%nat by (apply nth_error_Some; congruence).
      pose proof (head_of_le segs (S i) (length segs) Hok ltac:(lia)).
      rewrite (head_of_all segs (length segs)) in * by lia. lia.
    - destruct (located_exists segs target Hok ltac:(lia)) as (i & s & Hl).
      rewrite Hr.
      rewrite (search_spec segs 0 target i s Hok) by (replace (target - 0) with target by lia; exact Hl).
      eexists; split; [reflexivity|]. split; [|reflexivity].
      constructor; cbn [m_r m_upper m_off m_idx]; auto; try lia.
      intros i2 s2 Hl2. rewrite (located_unique _ _ _ _ _ _ Hok Hl Hl2). lia. }
  unfold seek. unfold in_int64 in Hoff64.
  destruct w as [| | |w].
  - destruct (Z.lt_ge_cases offset 0) as [Hneg|Hpos].
    + exists SeekErr, r. destruct (Z.ltb_spec offset 0); [|lia].
      repeat split; auto. apply CSeekErr; exact Hneg.
    + destruct (Hmove offset ltac:(lia)) as (r' & Hr' & Hi' & Hot).
      exists (SeekOk offset), r'. rewrite Hr', Hot.
      split; [reflexivity|]. split; [assumption|]. split; [lia|].
      replace offset with (0 + offset) at 2 3 by lia. apply CSeekOk; lia.
  - destruct (Z.leb_spec (m_off r + offset) max_int64) as [Hle|Hgt].
    + assert (wrap64 (offset + m_off r) = m_off r + offset) as ->.
      { rewrite wrap64_id; [lia|]. unfold in_int64, min_int64, max_int64 in *; lia. }
      destruct (Z.lt_ge_cases (m_off r + offset) 0) as [Hneg|Hpos].
      * exists SeekErr, r. destruct (Z.ltb_spec (m_off r + offset) 0); [|lia].
        repeat split; auto. apply CSeekErr; lia.
      * destruct (Hmove (m_off r + offset) ltac:(lia)) as (r' & Hr' & Hi' & Hot).
        exists (SeekOk (m_off r + offset)), r'. rewrite Hr', Hot.
        split; [reflexivity|]. split; [assumption|]. split; [lia|]. apply CSeekOk; lia.
    + assert (wrap64 (offset + m_off r) < 0) as Hw by (apply wrap64_over; lia).
      exists SeekErr, r. destruct (Z.ltb_spec (wrap64 (offset + m_off r)) 0); [|lia].
      repeat split; auto. apply CSeekErr; lia.
  - destruct (Z.leb_spec (declared_total segs + offset) max_int64) as [Hle|Hgt].
    + assert (wrap64 (offset + m_upper r) = declared_total segs + offset) as ->.
      { rewrite Hu, wrap64_id; [lia|]. unfold in_int64, min_int64, max_int64 in *; lia. }
      destruct (Z.lt_ge_cases (declared_total segs + offset) 0) as [Hneg|Hpos].
      * exists SeekErr, r. destruct (Z.ltb_spec (declared_total segs + offset) 0); [|lia].
        repeat split; auto. apply CSeekErr; lia.
      * destruct (Hmove (declared_total segs + offset) ltac:(lia)) as (r' & Hr' & Hi' & Hot).
        exists (SeekOk (declared_total segs + offset)), r'. rewrite Hr', Hot.
        split; [reflexivity|]. split; [assumption|]. split; [lia|]. apply CSeekOk; lia.
    + assert (wrap64 (offset + m_upper r) < 0) as Hw by (rewrite Hu; apply wrap64_over; lia).
      exists SeekErr, r. destruct (Z.ltb_spec (wrap64 (offset + m_upper r)) 0); [|lia].
      repeat split; auto. apply CSeekErr; lia.
  - exists SeekErr, r. repeat split; auto. apply CSeekErr; exact I.
Qed.

Lemma mstep_spec segs ds r o :
  exact_all segs ds -> minv segs r -> m_off r <= max_int64 -> declared_total segs <= max_int64 ->
  op_ok o ->
  exists x r', mstep r o = (x, r') /\ minv segs r' /\ m_off r' <= max_int64 /\
    cur_step (concat ds) (m_off r) o x (m_off r').
Proof.
  intros Hx Hinv Hm Htot Hop. pose proof (exact_total _ _ Hx) as Ht.
  pose proof (zlen_nonneg (concat ds)) as Hcn.
  destruct o as [len|len off|offset w]; cbn [mstep op_ok] in *.
  - destruct (Z.leb_spec (declared_total segs) (m_off r)) as [Hend|Hlt].
    + rewrite (read_end segs r len Hinv Hend). eexists; eexists; split; [reflexivity|].
      split; [assumption|]. split; [assumption|]. apply CReadEnd; lia.
    + destruct (read_general segs ds r len (exact_serves _ _ Hx) Hinv Hop Hlt)
        as (data & e & r' & Hrun & Hinv' & Ho' & Hle & Hgood & Heof & Herr).
      rewrite Hrun. eexists; eexists; split; [reflexivity|]. split; [assumption|].
      assert (e = MNil \/ e = MEof) as He.
      { destruct e as [| |a b c d x]; auto. exfalso. apply (exact_not_mis _ _ Hx), Herr; discriminate. }
      destruct (Hgood He) as (Hle2 & Hpos & Hby).
      split; [lia|].
      assert (0 <= m_off r) as Ho0 by (destruct Hinv as [_ _ Ho _]; lia).
      assert (data = zslice (concat ds) (m_off r) (zlen data)) as Hdata.
      { apply bytes_zslice; [lia|]. intros j Hj.
        rewrite <- exact_vbyte with (segs := segs) by (auto; lia). apply Hby; assumption. }
      rewrite Ho'. rewrite Hdata at 1. pose proof (zlen_nonneg data).
      apply CRead; try lia.
      destruct He as [He|He]; [left; exact He|right; split; [exact He|]].
      destruct (Heof He) as [|Hsh]; [lia|]. now apply exact_not_short in Hsh.
  - destruct Hop as [Hlen Hoff64].
    destruct (readat_exact segs ds r len off Hx Hinv Hlen) as (data & e & Hrun & Hspec).
    rewrite Hrun. eexists; eexists; split; [reflexivity|].
    split; [destruct Hinv; constructor; assumption|]. cbn [m_off]. split; [assumption|].
    apply CReadAt; exact Hspec.
  - destruct (seek_step segs ds r offset w Hx Hinv Hm Htot Hop) as (x & r' & Hrun & H1 & H2 & H3).
    rewrite Hrun. eexists; eexists; split; [reflexivity|]. auto.
Qed.

Lemma mrun_spec segs ds r ops :
  exact_all segs ds -> minv segs r -> m_off r <= max_int64 -> declared_total segs <= max_int64 ->
  Forall op_ok ops ->
  cur_run (concat ds) (m_off r) ops (fst (mrun r ops)) (m_off (snd (mrun r ops))).
Proof.
  intros Hx Hinv Hm Htot Hops; revert r Hinv Hm.
  induction Hops as [|o ops Ho Hops IH]; intros r Hinv Hm; cbn [mrun].
  - constructor.
  - destruct (mstep_spec segs ds r o Hx Hinv Hm Htot Ho) as (x & r' & Hrun & Hi' & Hm' & Hstep).
    rewrite Hrun. specialize (IH r' Hi' Hm').
    destruct (mrun r' ops) as [xs r''] eqn:Er. cbn [fst snd] in *.
    econstructor; eassumption.
Qed.

Lemma multi_history segs ds ops :
  exact_all segs ds -> zlen (concat ds) <= max_int64 -> Forall op_ok ops ->
  exists outs c, mrun (new_multi segs) ops = (outs, snd (mrun (new_multi segs) ops)) /\
    m_off (snd (mrun (new_multi segs) ops)) = c /\ cur_run (concat ds) 0 ops outs c.
Proof.
  intros Hx Htot Hops.
  exists (fst (mrun (new_multi segs) ops)), (m_off (snd (mrun (new_multi segs) ops))).
  split; [destruct (mrun (new_multi segs) ops); reflexivity|]. split; [reflexivity|].
  apply (mrun_spec segs ds (new_multi segs) ops Hx (minv_new segs)); auto.
  - cbn; unfold max_int64; lia.
  - now rewrite (exact_total _ _ Hx).
Qed.

Lemma multi_readat segs ds len off :
  exact_all segs ds -> 0 <= len ->
  exists data e, read_at (S (length segs)) (new_multi segs) len off = MOk data e /\
    spec_read_at (concat ds) len off data e.
Proof.
  intros Hx Hlen.
  pose proof (readat_exact segs ds (new_multi segs) len off Hx (minv_new segs) Hlen) as H.
  cbn [new_multi m_r] in H. rewrite length_translate in H. exact H.
Qed.

(* ---------- draining with wrong sizes ---------- *)

Lemma drain_spec segs ds lens r data :
  serves_all segs ds -> minv segs r -> m_off r <= declared_total segs ->
  Forall (fun l => 0 < l) lens ->
  drain r lens = (data, Some MEof) ->
  (forall j, 0 <= j < zlen data -> vbyte segs ds (m_off r + j) = zget data j) /\
  (m_off r + zlen data = declared_total segs \/ last_short segs ds (m_off r + zlen data)).
Proof.
  intros Hs Hinv Hle Hl; revert r data Hinv Hle.
  induction Hl as [|l lens Hl0 Hl IH]; intros r data Hinv Hle Hd; cbn [drain] in Hd; [discriminate|].
  destruct (Z.leb_spec (declared_total segs) (m_off r)) as [Hend|Hlt].
  - rewrite (read_end segs r l Hinv Hend) in Hd. injection Hd as <-.
    change (zlen (@nil byte)) with 0. split; [intros; lia|left; lia].
  - destruct (read_general segs ds r l Hs Hinv ltac:(lia) Hlt)
      as (dat & e & r' & Hrun & Hinv' & Ho' & Hle' & Hgood & Heof & Herr).
    rewrite Hrun in Hd. destruct e as [| |a b c d x].
    + destruct (Hgood (or_introl eq_refl)) as (Hle2 & Hpos & Hby).
      destruct (drain r' lens) as [dd ee] eqn:Edr. injection Hd as <- ->.
      destruct (IH r' dd Hinv' Hle2 Edr) as [Hb Hend].
      rewrite zlen_app. split.
      * intros j Hj. destruct (Z.ltb_spec j (zlen dat)) as [Hjl|Hjg].
        -- rewrite zget_app_l by lia. apply Hby; lia.
        -- rewrite zget_app_r by lia. rewrite <- Hb by lia. f_equal; lia.
      * rewrite Z.add_assoc, <- Ho'. exact Hend.
    + injection Hd as <-. destruct (Hgood (or_intror eq_refl)) as (_ & _ & Hby).
      split; [exact Hby|]. rewrite <- Ho'. apply Heof; reflexivity.
    + discriminate.
Qed.

Lemma drain_new segs ds lens data :
  serves_all segs ds -> Forall (fun l => 0 < l) lens ->
  drain (new_multi segs) lens = (data, Some MEof) ->
  (forall j, 0 <= j < zlen data -> vbyte segs ds j = zget data j) /\
  (zlen data = declared_total segs \/ last_short segs ds (zlen data)).
Proof.
  intros Hs Hl Hd.
  destruct (drain_spec segs ds lens (new_multi segs) data Hs (minv_new segs)
     (total_nonneg _ (serves_sizes _ _ Hs)) Hl Hd) as [H1 H2].
  cbn [new_multi m_off] in *. split; [|exact H2]. intros j Hj; rewrite <- H1 by lia. f_equal; lia.
Qed.

(* A segment that is not the last one and holds less than declared. *)
Lemma drain_short_nonlast segs ds lens data k s d :
  serves_all segs ds -> Forall (fun l => 0 < l) lens ->
  nth_error segs k = Some s -> nth_error ds k = Some d -> zlen d < sg_size s ->
  (S k < length segs)%nat ->
  drain (new_multi segs) lens <> (data, Some MEof).
Proof.
  intros Hs Hl Hk Hd Hshort Hnl Hdr.
  pose proof (serves_sizes _ _ Hs) as Hok.
  assert (length ds = length segs) as Hlds by (symmetry; eapply Forall2_length; exact Hs).
  destruct (drain_new segs ds lens data Hs Hl Hdr) as [Hby Hend].
  pose proof (zlen_nonneg d) as Hdn.
  assert (located segs k s (head_of segs k + zlen d)) as Hloc by (split; [exact Hk|lia]).
  assert (0 <= head_of segs k) as Hhn by (apply total_nonneg, sizes_ok_firstn, Hok).
  assert (head_of segs k + zlen d < zlen data) as Hin.
  { pose proof (head_of_S _ _ _ Hk) as HS.
    destruct Hend as [E|(sl & dl & Hsl & Hdl & Hlt & E)].
    - pose proof (head_of_le segs (S k) (length segs) Hok ltac:(lia)).
      rewrite (head_of_all segs (length segs)) in * by lia. lia.
    - pose proof (head_of_S _ _ _ Hsl) as HSl.
      pose proof (head_of_le segs (S k) (length segs - 1) Hok ltac:(lia)).
      rewrite (head_of_all segs (S (length segs - 1))) in HSl by lia.
      pose proof (zlen_nonneg dl). lia. }
  specialize (Hby (head_of segs k + zlen d) ltac:(lia)).
  rewrite (vbyte_located segs ds k s d _ Hok Hloc Hd Hlds) in Hby.
  rewrite (zget_out d) in Hby by lia.
  destruct (zget_in_range data (head_of segs k + zlen d)) as [x Hx]; [lia|]. congruence.
Qed.

(* Draining ends with an error only if some declared size is wrong. *)
Lemma drain_err segs ds lens r data e :
  serves_all segs ds -> minv segs r -> m_off r <= declared_total segs ->
  Forall (fun l => 0 < l) lens ->
  drain r lens = (data, Some e) -> e <> MEof -> misdeclared segs ds.
Proof.
  intros Hs Hinv Hle Hl; revert r data Hinv Hle.
  induction Hl as [|l lens Hl0 Hl IH]; intros r data Hinv Hle Hd Hne; cbn [drain] in Hd; [discriminate|].
  destruct (Z.leb_spec (declared_total segs) (m_off r)) as [Hend|Hlt].
  - rewrite (read_end segs r l Hinv Hend) in Hd. injection Hd as <- <-. congruence.
  - destruct (read_general segs ds r l Hs Hinv ltac:(lia) Hlt)
      as (dat & e0 & r' & Hrun & Hinv' & Ho' & Hle' & Hgood & Heof & Herr).
    rewrite Hrun in Hd. destruct e0 as [| |a b c d x].
    + destruct (Hgood (or_introl eq_refl)) as (Hle2 & _ & _).
      destruct (drain r' lens) as [dd ee] eqn:Edr. injection Hd as <- ->.
      eapply (IH r' dd); eauto.
    + injection Hd as <- <-. congruence.
    + apply Herr; discriminate.
Qed.

(* ---------- concrete segments for the examples ---------- *)

(* A reader over [d] that reports io.EOF only when short, declared with size [size]. *)
Definition over (d : list byte) (size : Z) : segment :=
  Seg (fun _ len off => let s := zslice d off len in (s, if zlen s <? len then REof else RNil)) size.

Lemma over_serves d size : serves (over d size) d.
Proof.
  intros t len off Hlen Hoff. cbn [over sg_read]. eexists; split; [reflexivity|].
  pose proof (zslice_length d off len Hoff Hlen).
  destruct (Z.ltb_spec (zlen (zslice d off len)) len); [left; assumption|lia].
Qed.

Lemma over_exact d : exact (over d (zlen d)) d.
Proof. split; [apply over_serves|reflexivity]. Qed.

(* A reader that fails outright, with nothing delivered. *)
Definition failing (size : Z) (code : N) : segment := Seg (fun _ _ _ => ([], ROther code)) size.

(* ---------- which reader an error blames ---------- *)

(* ReadAt's errors carry the index and in-segment offset of the segment asked. *)
Lemma read_at1_index segs r t len off data idx ro to bl x :
  sizes_ok segs -> m_r r = translate 0 segs -> m_upper r = declared_total segs ->
  read_at1 r t len off = (data, MErr idx ro to bl x) ->
  exists s e, nth_error segs idx = Some s /\ sg_read s t len ro = (data, e) /\
    to = off /\ bl = len /\ off = head_of segs idx + ro /\ 0 <= ro < sg_size s.
Proof.
  intros Hok Hr Hu. unfold read_at1.
  destruct (Z.ltb_spec off 0); cbn [orb]; [discriminate|].
  destruct (Z.leb_spec (m_upper r) off); [discriminate|].
  destruct (located_exists segs off Hok ltac:(lia)) as (i & s & Hl).
  rewrite Hr.
  rewrite (search_spec segs 0 off i s Hok) by (replace (off - 0) with off by lia; exact Hl).
  destruct Hl as [Hn Hrange]. rewrite nth_translate, Hn; cbn [option_map sz_head sz_seg].
  replace (0 + head_of segs i) with (head_of segs i) by lia.
  destruct (sg_read s t len (off - head_of segs i)) as [dat e] eqn:Hcall.
  intros Heq. injection Heq as -> Hc.
  assert (idx = i /\ ro = off - head_of segs i /\ to = off /\ bl = len) as (-> & -> & -> & ->).
  { unfold classify in Hc. destruct e; cbn [andb] in Hc.
    - destruct (_ <? _); [injection Hc; intros; subst; auto|discriminate].
    - destruct (_ <? _); [injection Hc; intros; subst; auto|].
      destruct (_ && _) in Hc; [injection Hc; intros; subst; auto|].
      destruct (_ <? _) in Hc; discriminate.
    - injection Hc; intros; subst; auto. }
  exists s, e; repeat split; auto; lia.
Qed.

Lemma read_at_loop_index segs r fuel :
  sizes_ok segs -> m_r r = translate 0 segs -> m_upper r = declared_total segs ->
  forall t len off mx acc data idx ro to bl x,
  read_at_loop fuel r t len off mx acc = MOk data (MErr idx ro to bl x) ->
  exists s t' dat e, nth_error segs idx = Some s /\ sg_read s t' bl ro = (dat, e) /\
    to = head_of segs idx + ro /\ 0 <= ro < sg_size s.
Proof.
  intros Hok Hr Hu; induction fuel as [|fuel IH]; intros t len off mx acc data idx ro to bl x;
    cbn [read_at_loop]; [discriminate|].
  destruct (read_at1 r t len off) as [dat e] eqn:E1.
  destruct ((zlen dat =? len) || negb match e with MNil => true | _ => false end).
  - intros H; injection H as _ He.
    assert (e = MErr idx ro to bl x) as ->.
    { destruct e; destruct mx; cbn [andb] in He; congruence. }
    destruct (read_at1_index segs r t len off dat idx ro to bl x Hok Hr Hu E1)
      as (s & e' & Hn & Hcall & -> & -> & Hoff & Hro).
    exists s, t, dat, e'; repeat split; auto; lia.
  - apply IH.
Qed.

Lemma read_at_index segs fuel len off data idx ro to bl x :
  sizes_ok segs ->
  read_at fuel (new_multi segs) len off = MOk data (MErr idx ro to bl x) ->
  exists s t dat e, nth_error segs idx = Some s /\ sg_read s t bl ro = (dat, e) /\
    to = head_of segs idx + ro /\ 0 <= ro < sg_size s.
Proof.
  intros Hok H. unfold read_at in H.
  destruct (_ || _); [discriminate|]. destruct (_ <? _);
    (eapply read_at_loop_index in H; [exact H|exact Hok|reflexivity|]);
    cbn [new_multi m_upper]; rewrite accum_sizes_total; lia.
Qed.

Lemma c54_refuted :
  exists segs lens r1 d1 r2 d2 ro to bl c,
    sizes_ok segs /\ lens = 3 /\
    read (new_multi segs) lens = (MOk d1 MNil, r1) /\
    read r1 lens = (MOk d2 (MErr 0 ro to bl (IReader c)), r2) /\
    (exists s, nth_error segs 0 = Some s /\ forall t l o, snd (sg_read s t l o) <> ROther c) /\
    (exists s, nth_error segs 1 = Some s /\ forall t l o, sg_read s t l o = ([], ROther c)).
Proof.
  exists [over [1;2;3]%N 3; failing 4 9], 3.
  eexists; eexists; eexists; eexists; eexists; eexists; eexists; exists 9%N.
  split; [repeat constructor; cbn; lia|]. split; [reflexivity|].
  split; [vm_compute; reflexivity|]. split; [vm_compute; reflexivity|].
  split; eexists; (split; [reflexivity|]); intros t l o.
  - cbn [over sg_read snd]. destruct (_ <? _); discriminate.
  - reflexivity.
Qed.

Lemma c03_refuted :
  exists segs ds lens data,
    serves_all segs ds /\ Forall (fun l => 0 < l) lens /\
    drain (new_multi segs) lens = (data, Some MEof) /\ zlen data < declared_total segs.
Proof.
  exists [over [1;2]%N 2; over [3;4]%N 10], [[1;2]%N; [3;4]%N], [8; 8], [1;2;3;4]%N.
  split; [|split; [|split]].
  - repeat constructor; try apply over_serves; cbn; lia.
  - repeat constructor; lia.
  - vm_compute; reflexivity.
  - vm_compute; reflexivity.
Qed.
