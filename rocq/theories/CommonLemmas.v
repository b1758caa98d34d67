(* Lemmas about the shared vocabulary. *)
From Verif Require Import Common.
Open Scope Z_scope.

Lemma zlen_nonneg {A} (l : list A) : 0 <= zlen l.
Proof. unfold zlen; lia. Qed.

Lemma zlen_nil {A} : zlen (@nil A) = 0.
Proof. reflexivity. Qed.

Lemma zlen_cons {A} (x : A) l : zlen (x :: l) = 1 + zlen l.
Proof. unfold zlen; cbn [length]; lia. Qed.

Lemma zlen_app {A} (l1 l2 : list A) : zlen (l1 ++ l2) = zlen l1 + zlen l2.
Proof. unfold zlen; rewrite app_length; lia. Qed.

Lemma zlen_zero_nil {A} (l : list A) : zlen l = 0 -> l = [].
Proof. destruct l; [reflexivity|rewrite zlen_cons; pose proof (zlen_nonneg l); lia]. Qed.

Lemma zslice_length {A} (l : list A) off n :
  0 <= off -> 0 <= n -> zlen (zslice l off n) = Z.min n (Z.max 0 (zlen l - off)).
Proof. intros; unfold zlen, zslice; rewrite firstn_length, skipn_length; lia. Qed.

Lemma zslice_all {A} (l : list A) n : zlen l <= n -> zslice l 0 n = l.
Proof. intros H; unfold zslice, zlen in *; cbn; apply firstn_all2; lia. Qed.

Lemma zslice_nil {A} off n : zslice (@nil A) off n = [].
Proof. unfold zslice; rewrite skipn_nil, firstn_nil; reflexivity. Qed.

Lemma zslice_zero {A} (l : list A) off n : n <= 0 -> zslice l off n = [].
Proof. intros H; unfold zslice; replace (Z.to_nat n) with 0%nat by lia; reflexivity. Qed.

Lemma zslice_past {A} (l : list A) off n : zlen l <= off -> zslice l off n = [].
Proof.
  intros H; unfold zslice, zlen in *.
  rewrite skipn_all2 by lia. apply firstn_nil.
Qed.

Lemma skipn_skipn' {A} (l : list A) a b : skipn a (skipn b l) = skipn (b + a) l.
Proof.
  revert l; induction b as [|b IH]; intros l; [reflexivity|].
  destruct l as [|x l]; [cbn [skipn]; now rewrite skipn_nil|]. cbn [skipn Nat.add]. apply IH.
Qed.

(* A slice splits at any inner point. *)
Lemma zslice_split {A} (l : list A) off a b :
  0 <= off -> 0 <= a -> 0 <= b ->
  zslice l off (a + b) = zslice l off a ++ zslice l (off + a) b.
Proof.
  intros Ho Ha Hb; unfold zslice.
  replace (Z.to_nat (a + b)) with (Z.to_nat a + Z.to_nat b)%nat by lia.
  replace (Z.to_nat (off + a)) with (Z.to_nat off + Z.to_nat a)%nat by lia.
  rewrite <- skipn_skipn'.
  generalize (skipn (Z.to_nat off) l) as m; intros m.
  generalize (Z.to_nat a) as i; generalize (Z.to_nat b) as j; intros j i.
  revert m; induction i as [|i IH]; intros m; [reflexivity|].
  destruct m as [|x m]; [cbn [Nat.add firstn skipn app]; now rewrite firstn_nil|].
  cbn [Nat.add firstn skipn app]. now rewrite IH.
Qed.

Lemma zslice_clip {A} (l : list A) off n :
  0 <= off -> zlen l - off <= n -> zslice l off n = zslice l off (zlen l - off).
Proof.
  intros Ho Hn. unfold zslice.
  rewrite (firstn_all2 (n := Z.to_nat n)), (firstn_all2 (n := Z.to_nat (zlen l - off)));
    [reflexivity| |]; rewrite skipn_length; unfold zlen in *; lia.
Qed.

Lemma zslice_app_l {A} (l1 l2 : list A) off n :
  0 <= off -> 0 <= n -> off + n <= zlen l1 -> zslice (l1 ++ l2) off n = zslice l1 off n.
Proof.
  intros Ho Hn H; unfold zslice, zlen in *.
  rewrite skipn_app, firstn_app, skipn_length.
  replace (Z.to_nat n - (length l1 - Z.to_nat off))%nat with 0%nat by lia.
  cbn [firstn]. apply app_nil_r.
Qed.

Lemma zslice_app_r {A} (l1 l2 : list A) off n :
  zlen l1 <= off -> zslice (l1 ++ l2) off n = zslice l2 (off - zlen l1) n.
Proof.
  intros H; unfold zslice, zlen in *.
  rewrite skipn_app.
  rewrite (skipn_all2 (n := Z.to_nat off) l1) by lia. cbn [app].
  replace (Z.to_nat off - length l1)%nat with (Z.to_nat (off - Z.of_nat (length l1))) by lia.
  reflexivity.
Qed.

Lemma zget_nil {A} i : zget (@nil A) i = None.
Proof. unfold zget; destruct (i <? 0); [reflexivity|]. destruct (Z.to_nat i); reflexivity. Qed.

Lemma zget_some_range {A} (l : list A) i x : zget l i = Some x -> 0 <= i < zlen l.
Proof.
  unfold zget, zlen; destruct (Z.ltb_spec i 0); [discriminate|]; intros H1.
  assert (nth_error l (Z.to_nat i) <> None) as H2 by congruence.
  apply nth_error_Some in H2; lia.
Qed.

Lemma zget_in_range {A} (l : list A) i : 0 <= i < zlen l -> exists x, zget l i = Some x.
Proof.
  unfold zget, zlen; intros H; destruct (Z.ltb_spec i 0); [lia|].
  destruct (nth_error l (Z.to_nat i)) eqn:E; [eauto|].
  apply nth_error_None in E; lia.
Qed.

Lemma zget_out {A} (l : list A) i : i < 0 \/ zlen l <= i -> zget l i = None.
Proof.
  unfold zget, zlen; intros H; destruct (Z.ltb_spec i 0); [reflexivity|].
  apply nth_error_None; lia.
Qed.

Lemma nth_error_skipn' {A} (l : list A) a i : nth_error (skipn a l) i = nth_error l (a + i).
Proof.
  revert l; induction a as [|a IH]; intros l; [reflexivity|].
  destruct l as [|x l]; [now destruct i|]. cbn [skipn Nat.add nth_error]. apply IH.
Qed.

Lemma nth_error_firstn' {A} (l : list A) n i : (i < n)%nat -> nth_error (firstn n l) i = nth_error l i.
Proof.
  revert l i; induction n as [|n IH]; intros l i H; [lia|].
  destruct l as [|x l]; [reflexivity|]. destruct i as [|i]; [reflexivity|].
  cbn [firstn nth_error]. apply IH; lia.
Qed.

Lemma zget_zslice {A} (l : list A) off n i :
  0 <= off -> 0 <= i < n -> zget (zslice l off n) i = zget l (off + i).
Proof.
  intros Ho Hi; unfold zget, zslice.
  destruct (Z.ltb_spec i 0); [lia|]. destruct (Z.ltb_spec (off + i) 0); [lia|].
  rewrite nth_error_firstn' by lia. rewrite nth_error_skipn'. f_equal; lia.
Qed.

Lemma zget_app_l {A} (l1 l2 : list A) i : i < zlen l1 -> zget (l1 ++ l2) i = zget l1 i.
Proof.
  unfold zget, zlen; intros H; destruct (Z.ltb_spec i 0); [reflexivity|].
  apply nth_error_app1; lia.
Qed.

Lemma zget_app_r {A} (l1 l2 : list A) i : zlen l1 <= i -> zget (l1 ++ l2) i = zget l2 (i - zlen l1).
Proof.
  unfold zget, zlen; intros H; destruct (Z.ltb_spec i 0); [lia|].
  destruct (Z.ltb_spec (i - Z.of_nat (length l1)) 0); [lia|].
  rewrite nth_error_app2 by lia. f_equal; lia.
Qed.

(* Two lists with the same element at every offset are equal. *)
Lemma zget_ext {A} (l1 l2 : list A) : (forall i, zget l1 i = zget l2 i) -> l1 = l2.
Proof.
  revert l2; induction l1 as [|x l1 IH]; intros [|y l2] H.
  - reflexivity.
  - specialize (H 0); cbn in H; discriminate.
  - specialize (H 0); cbn in H; discriminate.
  - assert (x = y) as -> by (specialize (H 0); cbn in H; congruence).
    f_equal; apply IH; intros i.
    destruct (Z.ltb_spec i 0) as [Hi|Hi].
    + unfold zget; destruct (Z.ltb_spec i 0); [reflexivity|lia].
    + specialize (H (i + 1)). unfold zget in *.
      destruct (Z.ltb_spec i 0); [lia|]. destruct (Z.ltb_spec (i + 1) 0); [lia|].
      replace (Z.to_nat (i + 1)) with (S (Z.to_nat i)) in H by lia. exact H.
Qed.

Lemma wrap64_id z : in_int64 z -> wrap64 z = z.
Proof.
  unfold in_int64, wrap64, min_int64, max_int64; intros H.
  rewrite Z.mod_small; lia.
Qed.

Lemma wrap64_over z :
  max_int64 < z -> z <= max_int64 + max_int64 + 1 -> wrap64 z < 0.
Proof.
  unfold wrap64, max_int64; intros H1 H2.
  replace (z + 9223372036854775808) with (z + 9223372036854775808 - 18446744073709551616 + 1 * 18446744073709551616) by lia.
  rewrite Z_mod_plus_full, Z.mod_small; lia.
Qed.

Lemma Forall2_length {A B} (R : A -> B -> Prop) l1 l2 : Forall2 R l1 l2 -> length l1 = length l2.
Proof. induction 1; cbn [length]; congruence. Qed.

(* [injection] without its simplification of the arguments *)
Lemma some_inj {A} (x y : A) : Some x = Some y -> x = y.
Proof. congruence. Qed.

Lemma prefix_same_len {A} (v w : list A) : prefix_of v w -> zlen v = zlen w -> v = w.
Proof.
  intros (rest & ->) H. rewrite zlen_app in H. assert (zlen rest = 0) as Hz by lia.
  apply zlen_zero_nil in Hz; subst. symmetry; apply app_nil_r.
Qed.

Lemma prefix_firstn {A} k (v w : list A) : prefix_of v w -> prefix_of (firstn k v) w.
Proof.
  intros (rest & ->). exists (skipn k v ++ rest). rewrite app_assoc, firstn_skipn. reflexivity.
Qed.

Lemma Forall_firstn {A} (P : A -> Prop) k l : Forall P l -> Forall P (firstn k l).
Proof. intros H. revert k. induction H as [|x l Hx Hl IH]; intros [|k]; cbn; constructor; auto. Qed.

Lemma Forall_skipn {A} (P : A -> Prop) k l : Forall P l -> Forall P (skipn k l).
Proof. intros H. revert k. induction H as [|x l Hx Hl IH]; intros [|k]; cbn; auto. Qed.

Lemma NoDup_map_inj_in {A B} (f : A -> B) l :
  (forall x y, In x l -> In y l -> f x = f y -> x = y) -> NoDup l -> NoDup (map f l).
Proof.
  intros Hinj H. induction H as [|x l Hx Hl IH]; cbn [map]; constructor.
  - intros Hin. apply in_map_iff in Hin. destruct Hin as (y & E & Hy).
    assert (y = x) as -> by (apply Hinj; [right; exact Hy|left; reflexivity|exact E]). contradiction.
  - apply IH. intros a b Ha Hb. apply Hinj; right; assumption.
Qed.
