(* Proofs about UTF-8 truncation. *)
From Verif Require Import Common CommonLemmas Utf8_Model Utf8_Spec.
Open Scope Z_scope.

Lemma decode_size_pos p : p <> [] -> (1 <= decode_size p <= length p)%nat.
Proof.
  destruct p as [|b0 r]; [contradiction|]. intros _. unfold decode_size.
  destruct (lead b0) as [[sz [lo hi]]|]; [|cbn [length]; lia].
  destruct sz as [|[|[|[|[|sz]]]]], r as [|b1 [|b2 [|b3 r]]]; cbn [length]; try lia;
    repeat match goal with |- context [if ?b then _ else _] => destruct b end; lia.
Qed.

Lemma skipn_length_lt {A} (l : list A) n : (n <= length l)%nat -> length (skipn n l) = (length l - n)%nat.
Proof. intros. apply skipn_length. Qed.

(* What the loop returns: the last boundary that fits. *)
Lemma trunc_loop_spec s maxb : forall fuel off,
  boundary s off -> (length s - off <= fuel)%nat -> Z.of_nat off <= maxb -> (off <= length s)%nat ->
  exists m, trunc_loop fuel (skipn off s) off maxb = Some m /\ boundary s m /\ Z.of_nat m <= maxb /\
    (off <= m <= length s)%nat /\
    (m = length s \/ maxb < Z.of_nat (m + decode_size (skipn m s))).
Proof.
  induction fuel as [|fuel IH]; intros off Hb Hf Hm Hl.
  - assert (off = length s) as -> by lia. exists (length s). rewrite skipn_all. split; [reflexivity|].
    split; [exact Hb|]. split; [exact Hm|]. split; [lia|]. left; reflexivity.
  - cbn [trunc_loop]. destruct (skipn off s) as [|b r] eqn:E.
    + assert (off = length s) as ->.
      { apply (f_equal (@length _)) in E. rewrite skipn_length in E. cbn in E. lia. }
      exists (length s). split; [reflexivity|]. split; [exact Hb|]. split; [exact Hm|]. split; [lia|]. left; reflexivity.
    + rewrite <- E in *. assert (skipn off s <> []) as Hne by (rewrite E; discriminate).
      pose proof (decode_size_pos _ Hne) as Hd. rewrite skipn_length in Hd.
      destruct (Z.ltb_spec maxb (Z.of_nat (off + decode_size (skipn off s)))) as [Hlt|Hge].
      * exists off. split; [reflexivity|]. split; [exact Hb|]. split; [exact Hm|]. split; [lia|]. right; exact Hlt.
      * rewrite skipn_skipn'.
        destruct (IH (off + decode_size (skipn off s))%nat) as (m & H1 & H2 & H3 & H4 & H5).
        -- apply b_next; [exact Hb|lia].
        -- lia.
        -- exact Hge.
        -- lia.
        -- exists m. split; [exact H1|]. split; [exact H2|]. split; [exact H3|]. split; [lia|exact H5].
Qed.

Lemma boundary_le s k : boundary s k -> (k <= length s)%nat.
Proof.
  induction 1 as [|k Hb IH Hk]; [lia|].
  assert (skipn k s <> []) as Hne.
  { intros E. apply (f_equal (@length _)) in E. rewrite skipn_length in E. cbn in E. lia. }
  pose proof (decode_size_pos _ Hne) as Hd. rewrite skipn_length in Hd. lia.
Qed.

(* The j-th offset. *)
Fixpoint pos (s : list byte) (j : nat) : nat :=
  match j with
  | O => 0
  | S j => if (pos s j <? length s)%nat then (pos s j + decode_size (skipn (pos s j) s))%nat else pos s j
  end.

Lemma boundary_pos s k : boundary s k -> exists j, k = pos s j.
Proof.
  induction 1 as [|k Hb [j ->] Hk]; [exists 0%nat; reflexivity|].
  exists (S j). cbn [pos]. destruct (Nat.ltb_spec (pos s j) (length s)); [reflexivity|lia].
Qed.

Lemma pos_mono s i j : (i <= j)%nat -> (pos s i <= pos s j)%nat.
Proof. induction 1 as [|j H IH]; [lia|]. cbn [pos]. destruct (pos s j <? length s)%nat; lia. Qed.

Lemma boundary_gap s m : boundary s m -> (m < length s)%nat ->
  forall k, boundary s k -> (k <= m)%nat \/ (m + decode_size (skipn m s) <= k)%nat.
Proof.
  intros Hm Hlt k Hk. destruct (boundary_pos _ _ Hm) as [j Hj]. destruct (boundary_pos _ _ Hk) as [i Hi].
  destruct (Nat.le_gt_cases i j) as [H|H].
  - left. subst. apply pos_mono. exact H.
  - right. pose proof (pos_mono s (S j) i H) as Hp. cbn [pos] in Hp. rewrite <- Hj, <- Hi in Hp.
    destruct (Nat.ltb_spec m (length s)); lia.
Qed.

(* The result: the longest prefix that ends at a boundary and fits. *)
Lemma truncate_spec s maxb :
  exists m, truncate_utf8 s maxb = Some (firstn m s) /\ (m <= length s)%nat /\
    (boundary s m \/ m = length s) /\ (0 <= maxb -> Z.of_nat m <= maxb) /\ (maxb <= 0 -> m = 0%nat) /\
    (forall k, boundary s k -> Z.of_nat k <= maxb -> (k <= m)%nat) /\
    (0 < maxb -> zlen s <= maxb -> m = length s).
Proof.
  unfold truncate_utf8. destruct (Z.leb_spec maxb 0) as [Hz|Hz].
  - exists 0%nat. split; [reflexivity|]. split; [lia|]. split; [left; apply b_start|]. split; [lia|]. split; [lia|].
    split; [intros k _ Hk; lia|lia].
  - destruct (Z.leb_spec (zlen s) maxb) as [Hs|Hs].
    + exists (length s). rewrite firstn_all. split; [reflexivity|]. split; [lia|]. split; [right; reflexivity|].
      split; [unfold zlen in Hs; lia|]. split; [lia|]. split; [intros k Hb _; apply boundary_le; exact Hb|auto].
    + assert (length s - 0 <= length s)%nat as L1 by lia. assert (Z.of_nat 0 <= maxb) as L2 by lia.
      destruct (trunc_loop_spec s maxb (length s) 0%nat (b_start s) L1 L2 (Nat.le_0_l _))
        as (m & H1 & H2 & H3 & H4 & H5).
      cbn [skipn] in H1. rewrite H1. exists m. cbn [option_map]. split; [reflexivity|]. split; [lia|].
      split; [left; exact H2|]. split; [lia|]. split; [lia|]. split; [|unfold zlen in *; lia].
      intros k Hk Hkm. unfold zlen in Hs. destruct H5 as [H5|H5]; [lia|].
      destruct (boundary_gap s m H2 ltac:(lia) k Hk); lia.
Qed.

(* ---- valid UTF-8 ---- *)

Lemma decode_encode c rest : scalar c -> decode_size (encode c ++ rest) = length (encode c).
Proof.
  intros Hs. unfold encode.
  destruct (N.ltb_spec c 128) as [H1|H1].
  { cbn [app decode_size length]. unfold lead. destruct (N.ltb_spec c 128); [|lia].
    destruct rest as [|? [|? [|? ?]]]; reflexivity. }
  destruct (N.ltb_spec c 2048) as [H2|H2].
  { assert (2 <= c / 64 <= 31)%N as Hd.
    { split; [apply N.div_le_lower_bound; lia|]. enough (c / 64 < 32)%N by lia. apply N.div_lt_upper_bound; lia. }
    pose proof (N.mod_lt c 64 ltac:(lia)) as Hm.
    cbn [app decode_size length]. unfold lead, between.
    destruct (N.ltb_spec (192 + c / 64) 128); [lia|].
    destruct (N.leb_spec 194 (192 + c / 64)); [|lia]. destruct (N.leb_spec (192 + c / 64) 223); [|lia].
    cbn [andb]. destruct (N.leb_spec 128 (128 + c mod 64)); [|lia].
    destruct (N.leb_spec (128 + c mod 64) 191); [|lia]. reflexivity. }
  destruct (N.ltb_spec c 65536) as [H3|H3].
  { assert (c / 4096 <= 15)%N as Hd.
    { enough (c / 4096 < 16)%N by lia. apply N.div_lt_upper_bound; lia. }
    pose proof (N.mod_lt c 64 ltac:(lia)) as Hm. pose proof (N.mod_lt (c / 64) 64 ltac:(lia)) as Hm2.
    assert (c / 64 = 64 * (c / 4096) + c / 64 mod 64)%N as Hq.
    { replace (c / 4096)%N with (c / 64 / 64)%N by (rewrite N.div_div by lia; reflexivity). apply N.div_mod; lia. }
    pose proof (N.div_mod c 64 ltac:(lia)) as Hc.
    set (a := (c / 4096)%N) in *. set (b := (c / 64 mod 64)%N) in *. set (d := (c mod 64)%N) in *.
    assert (c = 4096 * a + 64 * b + d)%N as Hcc by lia.
    assert (Hb1 : forall lo hi, (lo <= 128 + b)%N -> (128 + b <= hi)%N -> between lo hi (128 + b) = true).
    { intros lo hi L1 L2. unfold between. destruct (N.leb_spec lo (128 + b)); [|lia]. destruct (N.leb_spec (128 + b) hi); [|lia]. reflexivity. }
    assert (Hd1 : cont_byte (128 + d) = true).
    { unfold cont_byte, between. destruct (N.leb_spec 128 (128 + d)); [|lia]. destruct (N.leb_spec (128 + d) 191); [|lia]. reflexivity. }
    cbn [app decode_size length].
    assert (exists lo hi, lead (224 + a) = Some (3%nat, (lo, hi)) /\ (lo <= 128 + b)%N /\ (128 + b <= hi)%N) as (lo & hi & -> & L1 & L2).
    { assert (a = 0 \/ 1 <= a <= 12 \/ a = 13 \/ 14 <= a <= 15)%N as [Ea|[Ea|[Ea|Ea]]] by lia.
      - rewrite Ea. exists 160%N, 191%N. split; [reflexivity|]. lia.
      - exists 128%N, 191%N. split; [|lia]. unfold lead, between.
        destruct (N.ltb_spec (224 + a) 128); [lia|].
        destruct (N.leb_spec 194 (224 + a)); [|lia]. destruct (N.leb_spec (224 + a) 223); [lia|]. cbn [andb].
        destruct (N.eqb_spec (224 + a) 224); [lia|].
        destruct (N.leb_spec 225 (224 + a)); [|lia]. destruct (N.leb_spec (224 + a) 236); [|lia]. reflexivity.
      - rewrite Ea. exists 128%N, 159%N. split; [reflexivity|]. destruct Hs as [Hs|Hs]; lia.
      - exists 128%N, 191%N. split; [|lia]. assert (a = 14 \/ a = 15)%N as [-> | ->] by lia; reflexivity. }
    rewrite Hb1, Hd1 by assumption. reflexivity. }
  assert (H4 : (c < 1114112)%N) by (destruct Hs; lia).
  assert (c / 262144 <= 4)%N as Hd.
  { enough (c / 262144 < 5)%N by lia. apply N.div_lt_upper_bound; lia. }
  pose proof (N.mod_lt c 64 ltac:(lia)) as Hm. pose proof (N.mod_lt (c / 64) 64 ltac:(lia)) as Hm2.
  pose proof (N.mod_lt (c / 4096) 64 ltac:(lia)) as Hm3.
  assert (c / 64 = 64 * (c / 4096) + c / 64 mod 64)%N as Hq.
  { replace (c / 4096)%N with (c / 64 / 64)%N by (rewrite N.div_div by lia; reflexivity). apply N.div_mod; lia. }
  assert (c / 4096 = 64 * (c / 262144) + c / 4096 mod 64)%N as Hq2.
  { replace (c / 262144)%N with (c / 4096 / 64)%N by (rewrite N.div_div by lia; reflexivity). apply N.div_mod; lia. }
  pose proof (N.div_mod c 64 ltac:(lia)) as Hc.
  set (a := (c / 262144)%N) in *. set (b := (c / 4096 mod 64)%N) in *.
  set (b' := (c / 64 mod 64)%N) in *. set (d := (c mod 64)%N) in *.
  assert (c = 262144 * a + 4096 * b + 64 * b' + d)%N as Hcc by lia.
  clear Hq Hq2 Hc.
  assert (Hb1 : forall lo hi, (lo <= 128 + b)%N -> (128 + b <= hi)%N -> between lo hi (128 + b) = true).
  { intros lo hi L1 L2. unfold between. destruct (N.leb_spec lo (128 + b)); [|lia]. destruct (N.leb_spec (128 + b) hi); [|lia]. reflexivity. }
  assert (Hd0 : cont_byte (128 + b') = true).
  { unfold cont_byte, between. destruct (N.leb_spec 128 (128 + b')); [|lia]. destruct (N.leb_spec (128 + b') 191); [|lia]. reflexivity. }
  assert (Hd1 : cont_byte (128 + d) = true).
  { unfold cont_byte, between. destruct (N.leb_spec 128 (128 + d)); [|lia]. destruct (N.leb_spec (128 + d) 191); [|lia]. reflexivity. }
  cbn [app decode_size length].
  assert (exists lo hi, lead (240 + a) = Some (4%nat, (lo, hi)) /\ (lo <= 128 + b)%N /\ (128 + b <= hi)%N) as (lo & hi & -> & L1 & L2).
  { assert (a = 0 \/ a = 1 \/ a = 2 \/ a = 3 \/ a = 4)%N as [Ea|[Ea|[Ea|[Ea|Ea]]]] by lia; rewrite Ea.
    - exists 144%N, 191%N. split; [reflexivity|]. lia.
    - exists 128%N, 191%N. split; [reflexivity|]. lia.
    - exists 128%N, 191%N. split; [reflexivity|]. lia.
    - exists 128%N, 191%N. split; [reflexivity|]. lia.
    - exists 128%N, 143%N. split; [reflexivity|]. lia. }
  rewrite Hb1, Hd0, Hd1 by assumption. reflexivity.
Qed.

Lemma encode_nonempty c : encode c <> [].
Proof. unfold encode. destruct (c <? 128)%N, (c <? 2048)%N, (c <? 65536)%N; discriminate. Qed.

(* In valid text the boundaries are the ends of runs of whole characters. *)
Lemma boundary_encode_pos cs : Forall scalar cs ->
  forall j, (j <= length cs)%nat -> pos (encode_all cs) j = length (encode_all (firstn j cs)).
Proof.
  intros Hs. induction j as [|j IH]; intros Hj; [reflexivity|].
  cbn [pos]. rewrite IH by lia.
  assert (exists c, nth_error cs j = Some c) as [c Hc].
  { destruct (nth_error cs j) eqn:E; [eauto|]. apply nth_error_None in E. lia. }
  destruct (nth_error_split cs j Hc) as (l1 & l2 & Hcs & Hl1).
  assert (firstn j cs = l1) as Hf1.
  { rewrite Hcs, <- Hl1, firstn_app, Nat.sub_diag, firstn_all. cbn. apply app_nil_r. }
  assert (firstn (S j) cs = l1 ++ [c]) as Hf2.
  { rewrite Hcs, <- Hl1. replace (S (length l1)) with (length l1 + 1)%nat by lia.
    rewrite firstn_app_2. reflexivity. }
  assert (encode_all cs = encode_all l1 ++ encode c ++ encode_all l2) as He.
  { rewrite Hcs. unfold encode_all. rewrite map_app, concat_app. reflexivity. }
  rewrite Hf1, Hf2.
  assert (skipn (length (encode_all l1)) (encode_all cs) = encode c ++ encode_all l2) as ->.
  { rewrite He, skipn_app, skipn_all, Nat.sub_diag. reflexivity. }
  pose proof (encode_nonempty c) as Hne.
  destruct (Nat.ltb_spec (length (encode_all l1)) (length (encode_all cs))) as [H|H].
  - rewrite decode_encode.
    + unfold encode_all. rewrite map_app, concat_app, app_length. cbn [map concat]. rewrite app_nil_r. reflexivity.
    + rewrite Forall_forall in Hs. apply Hs. eapply nth_error_In; eauto.
  - rewrite He, !app_length in H. destruct (encode c); [contradiction|]. cbn [length] in H. lia.
Qed.

Lemma pos_end s j : (length s <= pos s j)%nat -> forall i, (j <= i)%nat -> pos s i = pos s j.
Proof.
  intros H i Hi. induction Hi as [|i Hi IH]; [reflexivity|]. cbn [pos]. rewrite IH.
  destruct (Nat.ltb_spec (pos s j) (length s)); [lia|reflexivity].
Qed.

Lemma boundary_encode cs k : Forall scalar cs -> boundary (encode_all cs) k ->
  exists j, (j <= length cs)%nat /\ k = length (encode_all (firstn j cs)).
Proof.
  intros Hs Hb. destruct (boundary_pos _ _ Hb) as [j ->].
  destruct (Nat.le_gt_cases j (length cs)) as [Hj|Hj].
  - exists j. split; [exact Hj|]. apply boundary_encode_pos; auto.
  - exists (length cs). split; [lia|]. rewrite <- boundary_encode_pos by (auto; lia).
    apply pos_end; [|lia]. rewrite boundary_encode_pos by (auto; lia). rewrite firstn_all. lia.
Qed.

Lemma pos_boundary s : forall j, boundary s (pos s j).
Proof.
  induction j as [|j IH]; [constructor|]. cbn [pos].
  destruct (Nat.ltb_spec (pos s j) (length s)); [apply b_next; auto|exact IH].
Qed.

(* Valid text is cut after the largest number of whole characters that fits. *)
Lemma truncate_valid cs maxb : Forall scalar cs ->
  exists j, (j <= length cs)%nat /\ truncate_utf8 (encode_all cs) maxb = Some (encode_all (firstn j cs)) /\
    (0 <= maxb -> zlen (encode_all (firstn j cs)) <= maxb) /\
    (forall i, (i <= length cs)%nat -> zlen (encode_all (firstn i cs)) <= maxb -> (i <= j)%nat \/ maxb <= 0).
Proof.
  intros Hs. destruct (truncate_spec (encode_all cs) maxb) as (m & H1 & H2 & H3 & H4 & H5 & H6 & H7).
  assert (exists j, (j <= length cs)%nat /\ m = length (encode_all (firstn j cs))) as (j & Hj & ->).
  { destruct H3 as [H3|H3]; [apply boundary_encode; auto|]. exists (length cs). rewrite firstn_all. auto. }
  exists j. split; [exact Hj|].
  assert (Hpre : forall i, (i <= length cs)%nat -> encode_all cs = encode_all (firstn i cs) ++ encode_all (skipn i cs)).
  { intros i Hi. unfold encode_all. rewrite <- concat_app, <- map_app, firstn_skipn. reflexivity. }
  split.
  { rewrite H1. f_equal. rewrite (Hpre j Hj) at 1.
    rewrite firstn_app, Nat.sub_diag, firstn_all. cbn. apply app_nil_r. }
  split; [exact H4|]. intros i Hi Hz.
  destruct (Z.le_gt_cases maxb 0) as [Hm|Hm]; [right; exact Hm|left].
  destruct (Nat.le_gt_cases i j) as [H|H]; [exact H|exfalso].
  assert (boundary (encode_all cs) (length (encode_all (firstn i cs)))) as Hb.
  { rewrite <- boundary_encode_pos by auto. apply pos_boundary. }
  specialize (H6 _ Hb Hz).
  (* firstn i is longer than firstn j *)
  assert (firstn i cs = firstn j cs ++ skipn j (firstn i cs)) as Hsp.
  { rewrite <- (firstn_skipn j (firstn i cs)) at 1. rewrite firstn_firstn, Nat.min_l by lia. reflexivity. }
  rewrite Hsp in H6. unfold encode_all in H6. rewrite map_app, concat_app, app_length in H6.
  destruct (skipn j (firstn i cs)) as [|c rest] eqn:E.
  - apply (f_equal (@length _)) in E. rewrite skipn_length, firstn_length in E. cbn in E. lia.
  - cbn [map concat] in H6. rewrite app_length in H6. pose proof (encode_nonempty c).
    destruct (encode c); [contradiction|]. cbn [length] in H6. lia.
Qed.
