From Coq Require Import Permutation.
From Verif Require Import Common CommonLemmas Views_Model MemBuf_Model MemBuf_Spec.
Open Scope Z_scope.


Lemma byt_app l1 l2 k : byt (l1 ++ l2) k = if k <? zlen l1 then byt l1 k else byt l2 (k - zlen l1).
Proof. unfold byt. destruct (Z.ltb_spec k (zlen l1)); [rewrite zget_app_l by assumption|rewrite zget_app_r by assumption]; reflexivity. Qed.
Lemma byt_zero n k : byt (repeat 0%N n) k = 0%N.
Proof.
  unfold byt, zget. destruct (k <? 0); [reflexivity|]. destruct (nth_error (repeat 0%N n) (Z.to_nat k)) as [x|] eqn:E; [|reflexivity].
  apply nth_error_In, repeat_spec in E. exact E.
Qed.
Lemma byt_out l k : k < 0 \/ zlen l <= k -> byt l k = 0%N.
Proof. intros H. unfold byt. rewrite zget_out by exact H. reflexivity. Qed.
Lemma zlen_repeat (x : byte) n : zlen (repeat x n) = Z.of_nat n.
Proof. unfold zlen. rewrite repeat_length. reflexivity. Qed.

Lemma byt_zslice l n k : 0 <= n <= zlen l -> byt (zslice l 0 n) k = if k <? n then byt l k else 0%N.
Proof.
  intros Hn. destruct (Z.ltb_spec k 0); [rewrite !byt_out by (left; assumption); destruct (k <? n); reflexivity|].
  destruct (Z.ltb_spec k n).
  - unfold byt. rewrite zget_zslice by lia. replace (0 + k) with k by lia. reflexivity.
  - apply byt_out. right. rewrite zslice_length by lia. lia.
Qed.


Lemma bytes_len b : clean_buf b -> zlen (s_bytes b) = s_len b.
Proof. intros (H & _). unfold s_bytes, s_cap in *. rewrite zslice_length by lia. lia. Qed.
Lemma bytes_byt b k : clean_buf b -> byt (s_bytes b) k = byt (s_arr b) k.
Proof.
  intros (H & _ & Hz). unfold s_bytes. rewrite byt_zslice by exact H. destruct (Z.ltb_spec k (s_len b)); [reflexivity|]. symmetry. apply Hz. assumption.
Qed.

Lemma grow_spec g b by_ b1 : clean_buf b -> 0 <= by_ -> s_len b + by_ <= max_int64 -> grow g b by_ = Some b1 ->
  clean_buf b1 /\ s_len b1 = s_len b + by_ /\ forall k, byt (s_arr b1) k = byt (s_arr b) k.
Proof.
  intros Hc Hby Hm H. unfold grow in H. destruct (by_ <=? s_cap b - s_len b) eqn:E.
  - apply some_inj in H. subst b1. destruct Hc as (H1 & H2 & H3). repeat split; cbn; unfold s_cap in *; cbn; try lia. intros k Hk. apply H3. lia.
  - destruct (max_alloc g <? s_len b + by_); [discriminate|]. apply some_inj in H. subst b1.
    assert (forall k, byt (s_bytes b ++ repeat 0%N (Z.to_nat by_) ++ repeat 0%N (spare g (s_len b + by_))) k = byt (s_arr b) k) as Hb.
    { intros k. rewrite byt_app. destruct (Z.ltb_spec k (zlen (s_bytes b))); [apply bytes_byt; exact Hc|]. rewrite byt_app, !byt_zero. rewrite bytes_len in H by exact Hc.
      destruct Hc as (_ & _ & H3). rewrite H3 by assumption. destruct (_ <? _); reflexivity. }
    repeat split; cbn [s_len s_arr]; try lia; try exact Hb.
    + destruct Hc as (H1 & _). lia.
    + unfold s_cap. cbn [s_arr]. rewrite !zlen_app, !zlen_repeat, bytes_len by exact Hc. lia.
    + intros k Hk. rewrite Hb. destruct Hc as (_ & _ & H3). apply H3. lia.
Qed.
Lemma grow_none g b by_ : grow g b by_ = None -> max_alloc g < s_len b + by_.
Proof. unfold grow. destruct (by_ <=? _); [discriminate|]. destruct (max_alloc g <? s_len b + by_) eqn:E; [lia|discriminate]. Qed.

Lemma zslice_id {A} (p : list A) : zslice p 0 (zlen p) = p.
Proof. apply zslice_all. lia. Qed.

Lemma zlen_skipn {A} (l : list A) n : zlen (skipn n l) = Z.max 0 (zlen l - Z.of_nat n).
Proof. unfold zlen. rewrite skipn_length. lia. Qed.
Lemma byt_skipn l n k : 0 <= k -> byt (skipn n l) k = byt l (k + Z.of_nat n).
Proof.
  intros Hk. unfold byt, zget. assert ((k <? 0) = false) as -> by lia. assert ((k + Z.of_nat n <? 0) = false) as -> by lia. rewrite nth_error_skipn'.
  replace (n + Z.to_nat k)%nat with (Z.to_nat (k + Z.of_nat n)) by lia. reflexivity.
Qed.

Lemma copy_spec b off p : clean_buf b -> 0 <= off -> off + zlen p <= s_len b ->
  clean_buf (copy_at b off p) /\ s_len (copy_at b off p) = s_len b /\
  forall k, byt (s_arr (copy_at b off p)) k = match zget p (k - off) with Some x => x | None => byt (s_arr b) k end.
Proof.
  intros Hc Ho Hf. pose proof (zlen_nonneg p) as Hp. unfold copy_at. assert (Z.min (zlen p) (s_len b - off) = zlen p) as -> by lia. rewrite zslice_id.
  destruct Hc as (H1 & H2 & H3).
  assert (forall k, byt (zslice (s_arr b) 0 off ++ p ++ skipn (Z.to_nat (off + zlen p)) (s_arr b)) k = match zget p (k - off) with Some x => x | None => byt (s_arr b) k end) as Hb.
  { intros k. unfold s_cap in H1. assert (zlen (zslice (s_arr b) 0 off) = off) as El by (rewrite zslice_length by lia; lia). rewrite byt_app, El, byt_zslice by lia.
    destruct (Z.ltb_spec k off).
    - rewrite zget_out by (left; lia). reflexivity.
    - rewrite byt_app. destruct (Z.ltb_spec (k - off) (zlen p)).
      + unfold byt. destruct (zget_in_range p (k - off)) as (x & ->); [lia|reflexivity].
      + rewrite zget_out by (right; assumption). rewrite byt_skipn by lia. f_equal. lia. }
  cbn [s_len s_arr]. split; [|split; [reflexivity|exact Hb]]. repeat split; cbn [s_len s_arr]; try lia.
  - unfold s_cap in *. cbn [s_arr]. rewrite !zlen_app, zlen_skipn, zslice_length by lia. lia.
  - intros k Hk. rewrite Hb. rewrite zget_out by (right; lia). apply H3. exact Hk.
Qed.


Lemma shows_iff s f : minv s -> (shows s f <-> s_len (m_buf s) = a_len f /\ m_handles s = a_handles f /\ forall k, a_at f k = byt (s_arr (m_buf s)) k).
Proof.
  intros [Hc _]. unfold shows. split; intros (H1 & H2 & H3); repeat split; auto; intros k; specialize (H3 k).
  - rewrite <- bytes_byt by exact Hc. exact H3.
  - rewrite <- bytes_byt in H3 by exact Hc. exact H3.
Qed.

Lemma a_range_zget f off n k : zget (a_range f off n) k = if (0 <=? k) && (k <? n) then Some (a_at f (off + k)) else None.
Proof.
  unfold a_range, zget. destruct (Z.ltb_spec k 0); [assert ((0 <=? k) = false) as -> by lia; reflexivity|]. assert ((0 <=? k) = true) as -> by lia. cbn [andb].
  destruct (Z.ltb_spec k n).
  - rewrite nth_error_map. rewrite (nth_error_nth' _ 0%nat) by (rewrite seq_length; lia). rewrite seq_nth by lia. cbn. rewrite Z2Nat.id by lia. reflexivity.
  - apply nth_error_None. rewrite map_length, seq_length. lia.
Qed.

Lemma read_spec s f n off : minv s -> shows s f -> 0 <= n -> read_at (m_buf s) n off = a_read f n off.
Proof.
  intros Hm Hs Hn. pose proof Hs as (Hl & _ & Ha). unfold read_at, a_read. rewrite Hl. destruct (Z.ltb_spec off 0); [reflexivity|]. destruct (Z.leb_spec (a_len f) off); [reflexivity|].
  destruct Hm as [Hc _]. assert (zlen (s_bytes (m_buf s)) = a_len f) as Hbl by (rewrite bytes_len by exact Hc; exact Hl).
  assert (zslice (s_bytes (m_buf s)) off n = a_range f off (a_count f n off)) as ->.
  { apply zget_ext. intros k. rewrite a_range_zget. unfold a_count. destruct ((0 <=? k) && (k <? Z.max 0 (Z.min n (a_len f - off)))) eqn:E.
    - rewrite zget_zslice by lia. specialize (Ha (off + k)). destruct (zget_in_range (s_bytes (m_buf s)) (off + k)) as (x & Hx); [lia|]. rewrite Hx in *. congruence.
    - apply zget_out. rewrite zslice_length by lia. lia. }
  assert (zlen (a_range f off (a_count f n off)) = a_count f n off) as ->.
  { unfold a_range, zlen. rewrite map_length, seq_length. unfold a_count. lia. }
  reflexivity.
Qed.

Lemma write_spec g s f p off : minv s -> shows s f -> in_int64 off ->
  let '(b, r) := write_at g (m_buf s) p off in
  (r = MPanic /\ b = m_buf s /\ max_alloc g < off + zlen p) \/
  (writes_at p off = false /\ b = m_buf s /\ r = MOk 0 [] e_inval) \/
  (writes_at p off = true /\ r = MOk (zlen p) [] e_nil /\ clean_buf b /\ s_len b = a_len (put_bytes f p off) /\ forall k, a_at (put_bytes f p off) k = byt (s_arr b) k).
Proof.
  intros Hm Hs Ho. pose proof (proj1 (shows_iff _ _ Hm) Hs) as (Hl & _ & Ha). destruct Hm as [Hc _]. unfold write_at, writes_at. pose proof (zlen_nonneg p) as Hp.
  destruct (Z.ltb_spec off 0); [right; left; repeat split; lia|]. destruct (Z.ltb_spec (max_int64 - off) (zlen p)); [right; left; repeat split; lia|].
  destruct p as [|x p]; [right; right; cbn [put_bytes]; repeat split; auto; try apply Hc; change (zlen (@nil N)) with 0 in *; lia|].
  set (q := x :: p) in *. destruct (if s_len (m_buf s) <? off + zlen q then grow g (m_buf s) (off + zlen q - s_len (m_buf s)) else Some (m_buf s)) as [b1|] eqn:E.
  - right. right. assert (clean_buf b1 /\ s_len b1 = Z.max (s_len (m_buf s)) (off + zlen q) /\ forall k, byt (s_arr b1) k = byt (s_arr (m_buf s)) k) as (Hc1 & Hl1 & Hb1).
    { destruct (Z.ltb_spec (s_len (m_buf s)) (off + zlen q)).
      - apply grow_spec in E; [|exact Hc|lia|lia]. destruct E as (E1 & E2 & E3). repeat split; auto; try apply E1. lia.
      - apply some_inj in E. subst b1. repeat split; auto; try apply Hc. lia. }
    destruct (copy_spec b1 off q Hc1) as (Hc2 & Hl2 & Hb2); [lia|lia|]. split; [lia|]. split; [f_equal; lia|]. split; [exact Hc2|]. split.
    + rewrite Hl2. cbn [put_bytes a_len q]. fold q. lia.
    + intros k. rewrite Hb2, Hb1, <- Ha. reflexivity.
  - left. split; [reflexivity|]. split; [reflexivity|]. destruct (s_len (m_buf s) <? off + zlen q); [|discriminate]. apply grow_none in E. lia.
Qed.

Lemma trunc_spec g s f size : minv s -> shows s f -> in_int64 size ->
  let '(b, r) := truncate g (m_buf s) size in
  (r = MPanic /\ b = m_buf s /\ max_alloc g < size) \/
  (size < 0 /\ b = m_buf s /\ r = MOk 0 [] e_inval) \/
  (0 <= size /\ r = MOk 0 [] e_nil /\ clean_buf b /\ s_len b = size /\ forall k, a_at (set_size f size) k = byt (s_arr b) k).
Proof.
  intros Hm Hs Ho. pose proof (proj1 (shows_iff _ _ Hm) Hs) as (Hl & _ & Ha). destruct Hm as [Hc _]. unfold truncate. unfold in_int64 in Ho.
  destruct (Z.ltb_spec size 0); [right; left; auto|].
  destruct (if 0 <? size - s_len (m_buf s) then grow g (m_buf s) (size - s_len (m_buf s)) else Some (m_buf s)) as [b1|] eqn:E.
  - right. right. assert (clean_buf b1 /\ s_len b1 = Z.max (s_len (m_buf s)) size /\ forall k, byt (s_arr b1) k = byt (s_arr (m_buf s)) k) as (Hc1 & Hl1 & Hb1).
    { destruct (Z.ltb_spec 0 (size - s_len (m_buf s))).
      - apply grow_spec in E; [|exact Hc|lia|lia]. destruct E as (E1 & E2 & E3). repeat split; auto; try apply E1. lia.
      - apply some_inj in E. subst b1. repeat split; auto; try apply Hc. lia. }
    pose proof Hc1 as (Hcap & Hmax & Hz). unfold s_cap in Hcap.
    assert (forall k, byt (zslice (s_arr b1) 0 size) k = if k <? size then byt (s_arr b1) k else 0%N) as Hb by (intros k; apply byt_zslice; lia).
    repeat split; cbn [s_len s_arr]; try lia.
    + unfold s_cap. cbn [s_arr]. rewrite zslice_length by lia. lia.
    + intros k Hk. rewrite Hb. assert ((k <? size) = false) as -> by lia. reflexivity.
    + intros k. rewrite Hb, Hb1, <- Ha. reflexivity.
  - left. repeat split. destruct (0 <? size - s_len (m_buf s)); [|discriminate]. apply grow_none in E. lia.
Qed.

Lemma set_nth_same {A} (l : list A) i x : nth_error l i = Some x -> set_nth l i x = l.
Proof. revert i. induction l as [|y l IH]; intros [|i] H; cbn in *; try congruence. f_equal. apply IH. exact H. Qed.
Lemma set_nth_Forall {A} (P : A -> Prop) l i x : Forall P l -> P x -> Forall P (set_nth l i x).
Proof. revert i. induction l as [|y l IH]; intros [|i] H Hx; cbn; inversion H; subst; constructor; auto. Qed.

Lemma same_handle f i h : nth_error (a_handles f) i = Some h -> a_handles (set_handle f i h) = a_handles f.
Proof. intros H. cbn. apply set_nth_same. exact H. Qed.
Lemma moved_same h : moved h (h_off h) = h.
Proof. destruct h; reflexivity. Qed.


Lemma step_spec fl g s f c : minv s -> shows s f -> op_fits c ->
  let '(s1, r) := mstep fl g s c in
  let '(f1, r') := a_step fl f c in
  minv s1 /\ ((r = Some MPanic /\ max_alloc g < wants fl f c /\ m_buf s1 = m_buf s) \/ (r = r' /\ shows s1 f1)).
Proof.
  intros Hm Hs Hf. pose proof (proj1 (shows_iff _ _ Hm) Hs) as (Hl & Hh & Ha). pose proof Hm as [Hc Hr]. destruct c as [i o]. destruct Hf as [Hf1 Hf2]. cbn [snd] in Hf1, Hf2.
  destruct o as [flag|n|n off|p|p off|off whence|size| |]; cbn [mstep a_step].
  1: { split.
       - split; [exact Hc|]. cbn. apply Forall_app. split; [exact Hr|]. constructor; [|constructor]. split; cbn; unfold max_int64; lia.
       - right. split; [reflexivity|]. unfold shows in *. cbn. rewrite Hh. destruct Hs as (H1 & _ & H3). auto. }
  all: rewrite <- Hh; destruct (nth_error (m_handles s) i) as [h|] eqn:Eh; [|split; [exact Hm|right; auto]].
  all: assert (in_range h) as Hih by (rewrite Forall_forall in Hr; apply Hr; eapply nth_error_In; exact Eh).
  all: assert (set_nth (m_handles s) i h = m_handles s) as Hsame by (apply set_nth_same; exact Eh).
  all: assert ({| m_buf := m_buf s; m_handles := set_nth (m_handles s) i h |} = s) as Hid by (rewrite Hsame; destruct s; reflexivity).
  all: cbn [mem_step].
  (* a handle moves *)
  all: assert (forall h1 f0, in_range h1 -> a_len f0 = a_len f -> a_at f0 = a_at f -> a_handles f0 = set_nth (a_handles f) i h1 ->
         minv {| m_buf := m_buf s; m_handles := set_nth (m_handles s) i h1 |} /\ shows {| m_buf := m_buf s; m_handles := set_nth (m_handles s) i h1 |} f0) as Hmove.
  1,3,5,7,9,11,13,15: intros h1 f0 Hih1 H1 H2 H3; split; [split; [exact Hc|apply set_nth_Forall; assumption]|]; destruct Hs as (S1 & S2 & S3); unfold shows; cbn [m_buf m_handles]; rewrite H1, H2, H3, Hh; auto.
  - (* Read *)
    destruct (readable fl (h_flag h)); cbn [negb]; [|rewrite Hid; split; [exact Hm|right; auto]].
    rewrite (read_spec s f n (h_off h) Hm Hs) by lia. destruct (a_read f n (h_off h)) as [k d e|] eqn:Er.
    + destruct (Hmove (moved h (h_off h + k)) (set_handle f i (moved h (h_off h + k)))) as [M1 M2]; [|reflexivity|reflexivity|reflexivity|split; [exact M1|right; split; [reflexivity|exact M2]]].
      unfold a_read in Er. destruct Hih as [Hi1 Hi2]. destruct Hc as (_ & Hcm & _). unfold in_range. cbn [moved h_off].
      destruct (h_off h <? 0); [assert (k = 0) as -> by congruence; lia|]. destruct (Z.leb_spec (a_len f) (h_off h)); [assert (k = 0) as -> by congruence; lia|].
      assert (k = a_count f n (h_off h)) as -> by congruence. unfold a_count. lia.
    + unfold a_read in Er. destruct (_ <? _); [discriminate|]. destruct (_ <=? _); discriminate.
  - (* ReadAt *)
    destruct (readable fl (h_flag h)); cbn [negb]; rewrite Hid; (split; [exact Hm|right; split; [|exact Hs]]); [|reflexivity]. rewrite (read_spec s f n off Hm Hs) by lia. reflexivity.
  - (* Write *)
    destruct (writable fl (h_flag h)); cbn [negb]; [|rewrite Hid; split; [exact Hm|right; auto]].
    set (at_ := if appends fl (h_flag h) then a_len f else h_off h).
    assert ((if appends fl (h_flag h) then moved h (s_len (m_buf s)) else h) = moved h at_) as -> by (unfold at_; rewrite Hl; destruct (appends fl (h_flag h)); [reflexivity|symmetry; apply moved_same]).
    cbn [moved h_off h_flag]. assert (0 <= at_ <= max_int64) as Hat by (unfold at_; destruct (appends fl (h_flag h)); [rewrite <- Hl; destruct Hc as (? & ? & _); lia|exact Hih]).
    pose proof (write_spec g s f p at_ Hm Hs) as Hw. destruct (write_at g (m_buf s) p at_) as [b r] eqn:Ew.
    destruct Hw as [(-> & -> & Hbig)|[(Hno & -> & ->)|(Hyes & -> & Hcb & Hlb & Hab)]]; [unfold in_int64, min_int64; lia| | |].
    + assert (exists f0 r', (if writes_at p at_ then (set_handle (put_bytes f p at_) i (moved h (at_ + zlen p)), Some (MOk (zlen p) [] e_nil)) else (set_handle f i (moved h at_), Some (MOk 0 [] e_inval))) = (f0, r')) as (f0 & r' & ->)
        by (destruct (writes_at p at_); eauto).
      split; [split; [exact Hc|apply set_nth_Forall; [exact Hr|exact Hat]]|]. left. split; [reflexivity|]. split; [|reflexivity]. unfold wants. cbn [fst snd]. rewrite <- Hh, Eh. fold at_. lia.
    + rewrite Hno. destruct (Hmove (moved h at_) (set_handle f i (moved h at_))) as [M1 M2]; [exact Hat|reflexivity|reflexivity|reflexivity|].
      replace (at_ + 0) with at_ by lia. change {| h_flag := h_flag (moved h at_); h_off := at_ |} with (moved h at_). split; [exact M1|]. right. split; [reflexivity|exact M2].
    + rewrite Hyes. unfold writes_at in Hyes. pose proof (zlen_nonneg p) as Hp. assert (Forall in_range (set_nth (m_handles s) i (moved h (at_ + zlen p)))) as Hr2 by (apply set_nth_Forall; [exact Hr|unfold in_range; cbn; lia]).
      split; [split; [exact Hcb|exact Hr2]|]. right. split; [reflexivity|]. apply (proj2 (shows_iff _ _ (conj Hcb Hr2 : minv {| m_buf := b; m_handles := _ |}))). cbn [m_buf m_handles set_handle a_len a_at a_handles].
      split; [exact Hlb|]. split; [|exact Hab]. rewrite Hh. destruct p; reflexivity.
  - (* WriteAt *)
    destruct (appends fl (h_flag h)); [rewrite Hid; split; [exact Hm|right; auto]|]. destruct (writable fl (h_flag h)); cbn [negb]; [|rewrite Hid; split; [exact Hm|right; auto]].
    pose proof (write_spec g s f p off Hm Hs Hf2) as Hw. destruct (write_at g (m_buf s) p off) as [b r] eqn:Ew.
    destruct Hw as [(-> & -> & Hbig)|[(Hno & -> & ->)|(Hyes & -> & Hcb & Hlb & Hab)]].
    + assert (exists f0 r', (if writes_at p off then (put_bytes f p off, Some (MOk (zlen p) [] e_nil)) else (f, Some (MOk 0 [] e_inval))) = (f0, r')) as (f0 & r' & ->)
        by (destruct (writes_at p off); eauto).
      rewrite Hid. split; [exact Hm|]. left. split; [reflexivity|]. split; [|reflexivity]. unfold wants. cbn [fst snd]. rewrite <- Hh, Eh. lia.
    + rewrite Hno, Hid. split; [exact Hm|]. right. auto.
    + rewrite Hyes, Hsame. split; [split; [exact Hcb|exact Hr]|]. right. split; [reflexivity|]. apply (proj2 (shows_iff _ _ (conj Hcb Hr : minv {| m_buf := b; m_handles := m_handles s |}))). cbn [m_buf m_handles].
      split; [exact Hlb|]. split; [|exact Hab]. rewrite Hh. destruct p; reflexivity.
  - (* Seek *)
    unfold mem_seek. destruct Hih as [Hi1 Hi2]. destruct Hc as (Hcl & Hcm & _). unfold in_int64, max_int64, min_int64 in *.
    assert (forall b, 0 <= b <= 9223372036854775807 -> (wrap64 (off + b) <? 0) = negb ((0 <=? b + off) && (b + off <=? 9223372036854775807)) /\
              ((0 <=? b + off) && (b + off <=? 9223372036854775807) = true -> wrap64 (off + b) = b + off)) as Hwrap.
    { intros b Hb. destruct (Z.leb_spec (off + b) 9223372036854775807).
      - rewrite wrap64_id by (unfold in_int64, max_int64, min_int64; lia). split; [lia|intros _; lia].
      - assert (wrap64 (off + b) < 0) by (unfold wrap64; rewrite <- (Z.mod_unique (off + b + 9223372036854775808) 18446744073709551616 1 (off + b + 9223372036854775808 - 18446744073709551616)) by lia; lia). split; lia. }
    assert (forall o : Z, 0 <= o <= 9223372036854775807 -> in_range (moved h o)) as Hmr by (intros o H; exact H).
    destruct (whence =? 0).
    { destruct (Z.ltb_spec off 0).
      - assert ((0 <=? 0 + off) && (0 + off <=? 9223372036854775807) = false) as -> by lia. rewrite Hid. split; [exact Hm|right; auto].
      - assert ((0 <=? 0 + off) && (0 + off <=? 9223372036854775807) = true) as -> by lia. replace (0 + off) with off by lia.
        destruct (Hmove (moved h off) (set_handle f i (moved h off))) as [M1 M2]; [apply Hmr; lia|reflexivity|reflexivity|reflexivity|]. split; [exact M1|right; split; [reflexivity|exact M2]]. }
    assert (forall b, 0 <= b <= 9223372036854775807 ->
       let '(s1, r) := let '(b0, h1, r) := let '(h1, r) := if wrap64 (off + b) <? 0 then (h, MOk 0 [] e_inval) else (moved h (wrap64 (off + b)), MOk (wrap64 (off + b)) [] e_nil) in (m_buf s, h1, r) in
                       ({| m_buf := b0; m_handles := set_nth (m_handles s) i h1 |}, Some r) in
       let '(f1, r') := if (0 <=? b + off) && (b + off <=? 9223372036854775807) then (set_handle f i (moved h (b + off)), Some (MOk (b + off) [] e_nil)) else (f, Some (MOk 0 [] e_inval)) in
       minv s1 /\ ((r = Some MPanic /\ max_alloc g < wants fl f (i, MSeek off whence) /\ m_buf s1 = m_buf s) \/ (r = r' /\ shows s1 f1))) as Hgo.
    { intros b Hb. destruct (Hwrap b Hb) as [-> He]. destruct ((0 <=? b + off) && (b + off <=? 9223372036854775807)) eqn:E; cbn [negb].
      - rewrite He by reflexivity. destruct (Hmove (moved h (b + off)) (set_handle f i (moved h (b + off)))) as [M1 M2]; [apply Hmr; lia|reflexivity|reflexivity|reflexivity|]. split; [exact M1|right; split; [reflexivity|exact M2]].
      - rewrite Hid. split; [exact Hm|right; auto]. }
    destruct (whence =? 1); [apply Hgo; lia|]. destruct (whence =? 2); [rewrite Hl; apply Hgo; lia|]. rewrite Hid. split; [exact Hm|right; auto].
  - (* Truncate *)
    destruct (writable fl (h_flag h)); cbn [negb]; [|rewrite Hid; split; [exact Hm|right; auto]].
    pose proof (trunc_spec g s f size Hm Hs Hf1) as Hw. destruct (truncate g (m_buf s) size) as [b r] eqn:Ew.
    destruct Hw as [(-> & -> & Hbig)|[(Hno & -> & ->)|(Hyes & -> & Hcb & Hlb & Hab)]].
    + assert (exists f0 r', (if 0 <=? size then (set_size f size, Some (MOk 0 [] e_nil)) else (f, Some (MOk 0 [] e_inval))) = (f0, r')) as (f0 & r' & ->)
        by (destruct (0 <=? size); eauto).
      rewrite Hid. split; [exact Hm|]. left. split; [reflexivity|]. split; [|reflexivity]. unfold wants. cbn [fst snd]. rewrite <- Hh, Eh. lia.
    + assert ((0 <=? size) = false) as -> by lia. rewrite Hid. split; [exact Hm|]. right. auto.
    + assert ((0 <=? size) = true) as -> by lia. rewrite Hsame. split; [split; [exact Hcb|exact Hr]|]. right. split; [reflexivity|].
      apply (proj2 (shows_iff _ _ (conj Hcb Hr : minv {| m_buf := b; m_handles := m_handles s |}))). cbn [m_buf m_handles]. split; [exact Hlb|]. split; [exact Hh|exact Hab].
  - rewrite Hid, <- Hl. split; [exact Hm|right; auto].
  - rewrite Hid. split; [exact Hm|right; auto].
Qed.

Lemma fresh_minv : minv fresh_mem.
Proof.
  split; [|constructor]. cbn. repeat split; cbn; unfold s_cap, max_int64; cbn; try lia. intros k Hk. apply byt_out. right. exact Hk.
Qed.
Lemma fresh_shows : shows fresh_mem a_fresh.
Proof. repeat split. intros k. change (s_bytes (m_buf fresh_mem)) with (@nil N). rewrite zget_nil. reflexivity. Qed.

Lemma run_spec fl g : forall cs s f, minv s -> shows s f -> Forall op_fits cs -> affordable fl g f cs ->
  minv (fst (mrun fl g s cs)) /\ snd (mrun fl g s cs) = snd (a_run fl f cs) /\ shows (fst (mrun fl g s cs)) (fst (a_run fl f cs)).
Proof.
  induction cs as [|c cs IH]; intros s f Hm Hs Hf Ha; cbn [mrun a_run]; [cbn; auto|]. inversion Hf as [|? ? Hc Hf']; subst. destruct Ha as [Hw Ha].
  pose proof (step_spec fl g s f c Hm Hs Hc) as Hst. destruct (mstep fl g s c) as [s1 r]. destruct (a_step fl f c) as [f1 r'] eqn:Ea. cbn [fst] in Ha. destruct Hst as (Hm1 & [(_ & Hb & _)|(-> & Hs1)]); [lia|].
  destruct (IH s1 f1 Hm1 Hs1 Hf' Ha) as (I1 & I2 & I3). destruct (mrun fl g s1 cs) as [s2 rs]. destruct (a_run fl f1 cs) as [f2 rs']. cbn [fst snd] in *. subst rs'. auto.
Qed.

Lemma mem_refines fl g cs : Forall op_fits cs -> affordable fl g a_fresh cs ->
  snd (mrun fl g fresh_mem cs) = snd (a_run fl a_fresh cs) /\ shows (fst (mrun fl g fresh_mem cs)) (fst (a_run fl a_fresh cs)).
Proof. intros Hf Ha. destruct (run_spec fl g cs _ _ fresh_minv fresh_shows Hf Ha) as (_ & H1 & H2). auto. Qed.

(* ---- appends ---- *)

Lemma write_append g b p : clean_buf b -> s_len b + zlen p <= max_int64 -> s_len b + zlen p <= max_alloc g ->
  s_bytes (fst (write_at g b p (s_len b))) = s_bytes b ++ p /\ clean_buf (fst (write_at g b p (s_len b))) /\ snd (write_at g b p (s_len b)) = MOk (zlen p) [] e_nil.
Proof.
  intros Hc Hm Hal. set (s := {| m_buf := b; m_handles := [] |}). assert (minv s) as Hms by (split; [exact Hc|constructor]).
  set (f := {| a_len := s_len b; a_at := byt (s_bytes b); a_handles := [] |}). assert (shows s f) as Hs by (repeat split).
  pose proof (write_spec g s f p (s_len b) Hms Hs) as Hw. pose proof (zlen_nonneg p) as Hp. pose proof Hc as ((H0 & _) & H1 & _). change (m_buf s) with b in Hw.
  destruct (write_at g b p (s_len b)) as [b1 r]. destruct Hw as [(_ & _ & Hbig)|[(Hno & _ & _)|(Hyes & -> & Hcb & Hlb & Hab)]].
  - unfold in_int64, min_int64. lia.
  - lia.
  - exfalso. unfold writes_at in Hno. lia.
  - cbn [fst snd]. split; [|split; [exact Hcb|reflexivity]].
    assert (s_len b1 = s_len b + zlen p) as Hlb1 by (rewrite Hlb; destruct p as [|x p]; cbn [put_bytes a_len f]; [change (zlen (@nil N)) with 0; lia|lia]).
    assert (forall k, byt (s_bytes b1) k = byt (s_bytes b ++ p) k) as Hb.
    { intros k. rewrite bytes_byt by exact Hcb. rewrite <- Hab. rewrite byt_app, bytes_len by exact Hc.
      assert (a_at (put_bytes f p (s_len b)) k = match zget p (k - s_len b) with Some x => x | None => byt (s_bytes b) k end) as ->.
      { destruct p as [|x p]; [|reflexivity]. rewrite zget_nil. reflexivity. }
      destruct (Z.ltb_spec k (s_len b)); [rewrite zget_out by (left; lia); reflexivity|]. unfold byt at 2. destruct (zget p (k - s_len b)); [reflexivity|]. apply byt_out. right. rewrite bytes_len by exact Hc. assumption. }
    apply zget_ext. intros k. specialize (Hb k). unfold byt in Hb. pose proof (bytes_len b1 Hcb) as L1. pose proof (bytes_len b Hc) as L0.
    destruct (Z_lt_dec k 0); [rewrite !zget_out by (left; assumption); reflexivity|]. destruct (Z_lt_dec k (s_len b1)).
    + destruct (zget_in_range (s_bytes b1) k) as (x & Hx); [lia|]. destruct (zget_in_range (s_bytes b ++ p) k) as (y & Hy); [rewrite zlen_app; lia|]. rewrite Hx, Hy in *. congruence.
    + rewrite !zget_out; [reflexivity|right; rewrite zlen_app; lia|right; lia].
Qed.

Lemma nth_error_set_nth {A} (l : list A) i j x : nth_error (set_nth l i x) j = if Nat.eqb j i then (match nth_error l i with Some _ => Some x | None => None end) else nth_error l j.
Proof.
  revert i j. induction l as [|y l IH]; intros [|i] [|j]; cbn; try reflexivity.
  - destruct (Nat.eqb j i); reflexivity.
  - apply IH.
Qed.

Lemma todo_set_nth ts i t t' : nth_error ts i = Some t -> exists a b, todo ts = a ++ t_todo t ++ b /\ todo (set_nth ts i t') = a ++ t_todo t' ++ b.
Proof.
  revert i. induction ts as [|y ts IH]; intros [|i] H; cbn in *; try discriminate.
  - apply some_inj in H. subst y. exists [], (todo ts). auto.
  - destruct (IH _ H) as (a & b & E1 & E2). exists (t_todo y ++ a), b. unfold todo in *. cbn. rewrite E1, E2, <- !app_assoc. auto.
Qed.

Lemma zlen_concat_perm (l1 l2 : list (list byte)) : Permutation l1 l2 -> zlen (concat l1) = zlen (concat l2).
Proof. intros H. induction H; cbn; rewrite ?zlen_app; lia. Qed.

Section Appends.
Context (g : goheap) (h0 : nat) (b0 : slice) (all : list (list byte)).

Record cinv (s : cstate) : Prop := {
  ci_handles : Forall (fun t => t_handle t = h0) (c_threads s);
  ci_clean : clean_buf (c_buf s);
  ci_bytes : s_bytes (c_buf s) = s_bytes b0 ++ concat (c_written s);
  ci_perm : Permutation (c_written s ++ todo (c_threads s)) all;
  ci_off : forall i t off, nth_error (c_threads s) i = Some t -> t_pc t = Some off -> off = s_len (c_buf s) /\ c_locked s h0 = true;
  ci_one : forall i j t u, nth_error (c_threads s) i = Some t -> nth_error (c_threads s) j = Some u -> t_pc t <> None -> t_pc u <> None -> i = j }.

Lemma cstep_inv s i : s_len b0 + zlen (concat all) <= max_int64 -> s_len b0 + zlen (concat all) <= max_alloc g -> clean_buf b0 -> cinv s -> cinv (cstep g s i).
Proof.
  intros Hm Ha Hb0 I. unfold cstep. destruct (nth_error (c_threads s) i) as [t|] eqn:Et; [|exact I]. destruct (t_todo t) as [|p rest] eqn:Etd; [exact I|].
  assert (t_handle t = h0) as Hh by (pose proof (ci_handles _ I) as Hf; rewrite Forall_forall in Hf; apply Hf; eapply nth_error_In; exact Et).
  destruct (t_pc t) as [off|] eqn:Epc.
  - destruct (ci_off _ I i t off Et Epc) as [Hoff Hlk].
    destruct (todo_set_nth (c_threads s) i t {| t_handle := t_handle t; t_pc := None; t_todo := rest |} Et) as (a & b & E1 & E2). rewrite Etd in E1. cbn [t_todo] in E2.
    assert (s_len (c_buf s) + zlen p <= s_len b0 + zlen (concat all)) as Hbud.
    { rewrite <- (bytes_len _ (ci_clean _ I)), (ci_bytes _ I), <- (bytes_len _ Hb0), <- (zlen_concat_perm _ _ (ci_perm _ I)), E1. rewrite !concat_app, !zlen_app. cbn [concat app]. rewrite !zlen_app.
      pose proof (zlen_nonneg (concat a)). pose proof (zlen_nonneg (concat b)). pose proof (zlen_nonneg (concat rest)). lia. }
    destruct (write_append g (c_buf s) p (ci_clean _ I)) as (W1 & W2 & W3); [lia|lia|]. rewrite <- Hoff in W1, W2, W3. rewrite W3. cbn [e_nil].
    constructor; cbn [c_threads c_buf c_written c_locked].
    + apply set_nth_Forall; [apply I|exact Hh].
    + exact W2.
    + rewrite W1, (ci_bytes _ I). rewrite concat_app. cbn. rewrite app_nil_r, app_assoc. reflexivity.
    + pose proof (ci_perm _ I) as Hp. rewrite E1 in Hp. rewrite E2. rewrite <- app_assoc. cbn [app]. eapply Permutation_trans; [|exact Hp]. apply Permutation_app_head.
      cbn [app]. apply Permutation_middle.
    + intros j u o Hj Hu. rewrite nth_error_set_nth in Hj. destruct (Nat.eqb_spec j i) as [->|Hne].
      * rewrite Et in Hj. apply some_inj in Hj. subst u. discriminate.
      * exfalso. apply Hne. apply (ci_one _ I j i u t); auto; congruence.
    + intros j k u v Hj Hk Hu Hv. rewrite nth_error_set_nth in Hj, Hk. destruct (Nat.eqb_spec j i) as [->|Hne]; [rewrite Et in Hj; apply some_inj in Hj; subst u; contradiction Hu; reflexivity|].
      destruct (Nat.eqb_spec k i) as [->|Hne2]; [rewrite Et in Hk; apply some_inj in Hk; subst v; contradiction Hv; reflexivity|]. apply (ci_one _ I j k u v); auto.
  - rewrite Hh. destruct (c_locked s h0) eqn:Elk; [exact I|].
    assert (forall j u, nth_error (c_threads s) j = Some u -> t_pc u = None) as Hnone.
    { intros j u Hj. destruct (t_pc u) as [o|] eqn:E; [|reflexivity]. destruct (ci_off _ I j u o Hj E) as [_ E2]. congruence. }
    destruct (todo_set_nth (c_threads s) i t {| t_handle := h0; t_pc := Some (s_len (c_buf s)); t_todo := t_todo t |} Et) as (a & b & E1 & E2). cbn [t_todo] in E2.
    rewrite <- Etd. constructor; cbn [c_threads c_buf c_written c_locked].
    + apply set_nth_Forall; [apply I|reflexivity].
    + apply I.
    + apply I.
    + rewrite E2, <- E1. apply I.
    + intros j u o Hj Hu. unfold upd. rewrite Nat.eqb_refl. split; [|reflexivity]. rewrite nth_error_set_nth in Hj. destruct (Nat.eqb_spec j i) as [->|Hne].
      * rewrite Et in Hj. apply some_inj in Hj. subst u. cbn in Hu. congruence.
      * rewrite (Hnone _ _ Hj) in Hu. discriminate.
    + intros j k u v Hj Hk Hu Hv. rewrite nth_error_set_nth in Hj, Hk. destruct (Nat.eqb_spec j i) as [->|Hne]; [|exfalso; apply Hu; eapply Hnone; exact Hj].
      destruct (Nat.eqb_spec k i) as [->|Hne2]; [reflexivity|exfalso; apply Hv; eapply Hnone; exact Hk].
Qed.

Lemma crun_inv is : s_len b0 + zlen (concat all) <= max_int64 -> s_len b0 + zlen (concat all) <= max_alloc g -> clean_buf b0 -> forall s, cinv s -> cinv (crun g s is).
Proof. intros Hm Ha Hb0. induction is as [|i is IH]; intros s I; [exact I|]. cbn. apply IH. apply cstep_inv; assumption. Qed.
End Appends.

Lemma appends_one_handle g h0 cs fl f ts is :
  let s := fst (mrun fl g fresh_mem cs) in
  Forall op_fits cs -> affordable fl g f cs -> f = a_fresh ->
  Forall idle ts -> Forall (fun t => t_handle t = h0) ts ->
  s_len (m_buf s) + zlen (concat (todo ts)) <= max_int64 -> s_len (m_buf s) + zlen (concat (todo ts)) <= max_alloc g ->
  let c := crun g (ready (m_buf s) ts) is in
  s_bytes (c_buf c) = s_bytes (m_buf s) ++ concat (c_written c) /\ Permutation (c_written c ++ todo (c_threads c)) (todo ts).
Proof.
  intros s Hf Haf -> Hid Hh Hm Ha c. destruct (run_spec fl g cs _ _ fresh_minv fresh_shows Hf Haf) as ((Hc & _) & _).
  assert (cinv h0 (m_buf s) (todo ts) (ready (m_buf s) ts)) as I.
  { constructor; cbn [ready c_threads c_buf c_written c_locked]; auto.
    - cbn. rewrite app_nil_r. reflexivity.
    - intros i t off Hi Hp. rewrite Forall_forall in Hid. rewrite (Hid t (nth_error_In _ _ Hi)) in Hp. discriminate.
    - intros i j t u Hi _ Ht _. exfalso. apply Ht. rewrite Forall_forall in Hid. apply Hid. eapply nth_error_In; exact Hi. }
  apply (crun_inv g h0 (m_buf s) (todo ts) is Hm Ha Hc) in I. exact (conj (ci_bytes _ _ _ _ I) (ci_perm _ _ _ _ I)).
Qed.
