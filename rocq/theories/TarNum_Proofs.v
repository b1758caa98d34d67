From Verif Require Import Common CommonLemmas ContentRange_Model ContentRange_Spec ContentRange_Proofs TarNum_Model TarNum_Spec.
Open Scope Z_scope.

(* ---- bits of a byte ---- *)

Definition all_bytes : list N := map N.of_nat (seq 0 256).
Lemma all_bytes_in c : (c < 256)%N -> In c all_bytes.
Proof. intros H. unfold all_bytes. apply in_map_iff. exists (N.to_nat c). split; [lia|]. apply in_seq. lia. Qed.

Lemma byte_check (p : N -> bool) : forallb p all_bytes = true -> forall c, (c < 256)%N -> p c = true.
Proof. intros H c Hc. rewrite forallb_forall in H. apply H, all_bytes_in, Hc. Qed.

Lemma lxor_255 c : (c < 256)%N -> N.lxor c 255 = (255 - c)%N.
Proof. intros H. apply N.eqb_eq. revert c H. apply byte_check. vm_compute. reflexivity. Qed.
Lemma land_128 c : (c < 256)%N -> negb (N.land c 128 =? 0)%N = (128 <=? c)%N.
Proof. intros H. apply eqb_prop. revert c H. apply (byte_check (fun c => Bool.eqb (negb (N.land c 128 =? 0)%N) (128 <=? c)%N)). vm_compute. reflexivity. Qed.
Lemma land_64 c : (c < 256)%N -> (128 <= c)%N -> negb (N.land c 64 =? 0)%N = (192 <=? c)%N.
Proof.
  intros H H1. pose proof (byte_check (fun c => implb (128 <=? c)%N (Bool.eqb (negb (N.land c 64 =? 0)%N) (192 <=? c)%N)) ltac:(vm_compute; reflexivity) c H) as Hb.
  cbv beta in Hb. assert ((128 <=? c)%N = true) as E by (apply N.leb_le; exact H1). rewrite E in Hb. cbn [implb] in Hb. apply eqb_prop in Hb. exact Hb.
Qed.
Lemma land_127 c : (c < 256)%N -> N.land c 127 = (c mod 128)%N.
Proof. intros H. apply N.eqb_eq. revert c H. apply (byte_check (fun c => (N.land c 127 =? c mod 128)%N)). vm_compute. reflexivity. Qed.

(* ---- base 256 ---- *)

Lemma be_acc b a : fold_left (fun a c => a * 256 + Z.of_N c) b a = a * 256 ^ zlen b + be_value b.
Proof.
  unfold be_value. revert a. induction b as [|c b IH]; intros a; [cbn; lia|]. cbn [fold_left]. rewrite IH. rewrite (IH (0 * 256 + Z.of_N c)).
  rewrite zlen_cons, Z.pow_add_r by (try apply zlen_nonneg; lia). change (256 ^ 1) with 256. lia.
Qed.
Lemma be_cons c b : be_value (c :: b) = Z.of_N c * 256 ^ zlen b + be_value b.
Proof. unfold be_value. cbn [fold_left]. rewrite be_acc. reflexivity. Qed.
Lemma be_bound b : bytes_ok b -> 0 <= be_value b < 256 ^ zlen b.
Proof.
  induction b as [|c b IH]; intros H; [cbn; lia|]. inversion H; subst. specialize (IH H3). rewrite be_cons, zlen_cons, Z.pow_add_r by (try apply zlen_nonneg; lia).
  change (256 ^ 1) with 256. nia.
Qed.

Definition flip (inv : N) (c : byte) : byte := N.lxor c inv.

Lemma loop_spec inv b : bytes_ok b -> inv = 0%N \/ inv = 255%N -> forall x, 0 <= x < 2 ^ 64 ->
  b256_loop inv false x b =
  (let r := x * 256 ^ zlen b + be_value (map (flip inv) b) in if r <? 2 ^ 64 then Some r else None).
Proof.
  intros Hb Hinv. induction b as [|c b IH]; intros x Hx.
  - cbn [b256_loop map be_value fold_left]. cbv zeta. change (256 ^ zlen []) with 1. change (be_value []) with 0.
    destruct (x * 1 + 0 <? 2 ^ 64) eqn:E; [f_equal; lia|lia].
  - inversion Hb as [|? ? Hc Hb']; subst. specialize (IH Hb').
    assert (flip inv c < 256)%N as Hf.
    { unfold flip. destruct Hinv; subst inv; [rewrite N.lxor_0_r; exact Hc|rewrite lxor_255 by exact Hc; lia]. }
    cbn [b256_loop map]. cbv zeta. fold (flip inv c). rewrite be_cons.
    assert (zlen (map (flip inv) b) = zlen b) as El by (unfold zlen; rewrite map_length; reflexivity). rewrite El.
    rewrite zlen_cons, Z.pow_add_r by (try apply zlen_nonneg; lia). change (256 ^ 1) with 256.
    assert (0 <= be_value (map (flip inv) b)) as Hpos.
    { apply be_bound. clear -Hb' Hinv. induction Hb'; [constructor|]. cbn. constructor; [|assumption].
      unfold flip. destruct Hinv; subst inv; [rewrite N.lxor_0_r; assumption|rewrite lxor_255 by assumption; lia]. }
    assert (0 < 256 ^ zlen b) as Hp by (apply Z.pow_pos_nonneg; [lia|apply zlen_nonneg]).
    rewrite Z.shiftr_div_pow2 by lia. change (2 ^ 56) with 72057594037927936 in *. change (2 ^ 64) with 18446744073709551616 in *.
    destruct (0 <? x / 72057594037927936) eqn:E.
    + apply Z.ltb_lt in E. assert (72057594037927936 <= x) by lia.
      assert (18446744073709551616 <= x * (256 * 256 ^ zlen b)) by nia.
      destruct (_ <? _) eqn:E2; [|reflexivity]. apply Z.ltb_lt in E2. nia.
    + apply Z.ltb_ge in E. assert (x < 72057594037927936) by lia. rewrite IH by lia. cbv zeta.
      replace ((x * 256 + Z.of_N (flip inv c)) * 256 ^ zlen b + be_value (map (flip inv) b)) with
        (x * (256 * 256 ^ zlen b) + (Z.of_N (flip inv c) * 256 ^ zlen b + be_value (map (flip inv) b))) by ring.
      reflexivity.
Qed.

Lemma flip_value b : bytes_ok b -> be_value (map (flip 255) b) = 256 ^ zlen b - 1 - be_value b.
Proof.
  induction b as [|c b IH]; intros H; [reflexivity|]. inversion H as [|? ? Hc Hb]; subst. specialize (IH Hb). cbn [map]. rewrite !be_cons, IH.
  assert (zlen (map (flip 255) b) = zlen b) as -> by (unfold zlen; rewrite map_length; reflexivity).
  unfold flip. rewrite lxor_255 by exact Hc. rewrite zlen_cons, Z.pow_add_r by (try apply zlen_nonneg; lia). change (256 ^ 1) with 256.
  rewrite N2Z.inj_sub by lia. change (Z.of_N 255) with 255. ring.
Qed.
Lemma flip0 b : map (flip 0) b = b.
Proof. induction b; cbn; [reflexivity|]. unfold flip at 1. rewrite N.lxor_0_r, IHb. reflexivity. Qed.

Lemma pow256 n : 0 <= n -> 256 ^ n = 2 ^ (8 * n).
Proof. intros H. rewrite Z.pow_mul_r by lia. reflexivity. Qed.

Definition twos_form (b : list byte) : Z := twos_value b.

Lemma twos_pos b0 r : bytes_ok (b0 :: r) -> (128 <= b0 < 192)%N -> twos_value (b0 :: r) = (Z.of_N b0 - 128) * 256 ^ zlen r + be_value r.
Proof.
  intros H Hb. inversion H as [|? ? _ Hr]; subst. unfold twos_value. cbv zeta. rewrite be_cons, zlen_cons. pose proof (be_bound r Hr) as Hbr. pose proof (zlen_nonneg r).
  replace (8 * (1 + zlen r) - 1) with (7 + 8 * zlen r) by ring. replace (8 * (1 + zlen r) - 2) with (6 + 8 * zlen r) by ring.
  rewrite !Z.pow_add_r by lia. rewrite <- pow256 by lia. change (2 ^ 7) with 128. change (2 ^ 6) with 64.
  set (P := 256 ^ zlen r) in *. assert (0 < P) by lia.
  replace (Z.of_N b0 * P + be_value r) with (((Z.of_N b0 - 128) * P + be_value r) + 1 * (128 * P)) by ring.
  rewrite Z_mod_plus_full. rewrite Z.mod_small by nia. destruct (_ <? _) eqn:E; [reflexivity|]. apply Z.ltb_ge in E. nia.
Qed.
Lemma twos_neg b0 r : bytes_ok (b0 :: r) -> (192 <= b0)%N -> twos_value (b0 :: r) = be_value (b0 :: r) - 256 ^ (1 + zlen r).
Proof.
  intros H Hb. inversion H as [|? ? Hb0 Hr]; subst. unfold twos_value. cbv zeta. rewrite be_cons, zlen_cons. pose proof (be_bound r Hr) as Hbr. pose proof (zlen_nonneg r).
  replace (8 * (1 + zlen r) - 1) with (7 + 8 * zlen r) by ring. replace (8 * (1 + zlen r) - 2) with (6 + 8 * zlen r) by ring.
  rewrite !Z.pow_add_r by lia. rewrite <- pow256 by lia. change (2 ^ 7) with 128. change (2 ^ 6) with 64. change (256 ^ 1) with 256.
  set (P := 256 ^ zlen r) in *. assert (0 < P) by lia.
  replace (Z.of_N b0 * P + be_value r) with (((Z.of_N b0 - 128) * P + be_value r) + 1 * (128 * P)) by ring.
  rewrite Z_mod_plus_full. rewrite Z.mod_small by nia. destruct (_ <? _) eqn:E; [apply Z.ltb_lt in E; nia|]. ring.
Qed.

Definition int64b (v : Z) : bool := (min_int64 <=? v) && (v <=? max_int64).

Lemma parse_base256 b : bytes_ok b -> is_base256 b ->
  parse_numeric b = if (min_int64 <=? twos_value b) && (twos_value b <=? max_int64) then Some (twos_value b) else None.
Proof.
  intros Hb (b0 & r & -> & H0). inversion Hb as [|? ? Hb0 Hr]; subst. unfold parse_numeric. rewrite land_128 by exact Hb0.
  assert ((128 <=? b0)%N = true) as -> by (apply N.leb_le; exact H0). cbv zeta. rewrite land_64 by assumption.
  pose proof (be_bound r Hr) as Hbr. pose proof (zlen_nonneg r) as Hz. assert (0 < 256 ^ zlen r) as HP by lia. cbn [b256_loop]. cbv zeta. change (0 <? Z.shiftr 0 56) with false. cbn [andb].
  change (2 ^ 64) with 18446744073709551616 in *.
  destruct (192 <=? b0)%N eqn:E.
  - apply N.leb_le in E. rewrite twos_neg by assumption. rewrite lxor_255 by exact Hb0. rewrite land_127 by lia. rewrite N.mod_small by lia.
    rewrite loop_spec; [|exact Hr|right; reflexivity|lia]. cbv zeta. rewrite flip_value by exact Hr.
    rewrite be_cons. rewrite Z.pow_add_r by lia. change (256 ^ 1) with 256. set (P := 256 ^ zlen r) in *.
    rewrite N2Z.inj_sub by lia. change (Z.of_N 255) with 255.
    set (x := (0 * 256 + (255 - Z.of_N b0)) * P + (P - 1 - be_value r)).
    assert (Z.of_N b0 * P + be_value r - 256 * P = - x - 1) as Ev by (unfold x; ring).
    rewrite Ev. assert (0 <= x) as Hx0 by (unfold x; nia). unfold min_int64, max_int64. change (2 ^ 64) with 18446744073709551616.
    destruct (x <? 18446744073709551616) eqn:E1.
    + rewrite Z.shiftr_div_pow2 by lia. change (2 ^ 63) with 9223372036854775808. clearbody x. clear Ev. change (255 =? 255)%N with true.
      destruct (0 <? x / 9223372036854775808) eqn:E2.
      * destruct (-9223372036854775808 <=? - x - 1) eqn:E3; [|reflexivity]. lia.
      * assert ((-9223372036854775808 <=? - x - 1) && (- x - 1 <=? 9223372036854775807) = true) as -> by lia. reflexivity.
    + destruct (-9223372036854775808 <=? - x - 1) eqn:E3; [|reflexivity]. lia.
  - apply N.leb_gt in E. rewrite twos_pos by (try assumption; lia). rewrite N.lxor_0_r. rewrite land_127 by lia.
    assert (b0 mod 128 = b0 - 128)%N as ->.
    { replace b0 with ((b0 - 128) + 1 * 128)%N at 1 by lia. rewrite N.mod_add by lia. apply N.mod_small. lia. }
    rewrite loop_spec; [|exact Hr|left; reflexivity|lia]. cbv zeta. rewrite flip0.
    rewrite N2Z.inj_sub by lia. change (Z.of_N 128) with 128. replace (0 * 256 + (Z.of_N b0 - 128)) with (Z.of_N b0 - 128) by ring.
    set (x := (Z.of_N b0 - 128) * 256 ^ zlen r + be_value r). assert (0 <= x) as Hx0 by (unfold x; nia). unfold min_int64, max_int64. change (2 ^ 64) with 18446744073709551616.
    clearbody x. change (0 =? 255)%N with false. destruct (x <? 18446744073709551616) eqn:E1.
    + rewrite Z.shiftr_div_pow2 by lia. change (2 ^ 63) with 9223372036854775808.
      destruct (0 <? x / 9223372036854775808) eqn:E2.
      * destruct (x <=? 9223372036854775807) eqn:E3; [lia|]. rewrite andb_false_r. reflexivity.
      * assert ((-9223372036854775808 <=? x) && (x <=? 9223372036854775807) = true) as -> by lia. reflexivity.
    + destruct (x <=? 9223372036854775807) eqn:E3; [lia|]. rewrite andb_false_r. reflexivity.
Qed.

(* ---- the encoder ---- *)

Lemma be_bytes_len n x : zlen (be_bytes n x) = Z.of_nat n.
Proof. revert x. induction n as [|n IH]; intros x; [reflexivity|]. cbn [be_bytes]. rewrite zlen_app, IH. change (zlen [Z.to_N (x mod 256)]) with 1. lia. Qed.
Lemma be_bytes_ok n x : bytes_ok (be_bytes n x).
Proof.
  revert x. induction n as [|n IH]; intros x; [constructor|]. cbn [be_bytes]. apply Forall_app. split; [apply IH|]. constructor; [|constructor].
  pose proof (Z.mod_pos_bound x 256). lia.
Qed.
Lemma be_snoc b c : be_value (b ++ [c]) = be_value b * 256 + Z.of_N c.
Proof. unfold be_value. rewrite fold_left_app. reflexivity. Qed.
Lemma be_bytes_value n : forall x, 0 <= x < 256 ^ Z.of_nat n -> be_value (be_bytes n x) = x.
Proof.
  induction n as [|n IH]; intros x H; [cbn in *; lia|]. cbn [be_bytes]. rewrite be_snoc. rewrite Nat2Z.inj_succ, Z.pow_succ_r in H by lia.
  rewrite IH by (split; [apply Z.div_pos; lia|apply Z.div_lt_upper_bound; lia]). pose proof (Z.mod_pos_bound x 256). rewrite Z2N.id by lia.
  pose proof (Z.div_mod x 256). lia.
Qed.

Lemma base256_roundtrip n v : (1 <= n)%nat -> in_int64 v -> - 2 ^ (8 * Z.of_nat n - 2) <= v < 2 ^ (8 * Z.of_nat n - 2) ->
  parse_numeric (base256_field n v) = Some v.
Proof.
  intros Hn Hv Hr. unfold base256_field. set (w := 8 * Z.of_nat n) in *. set (x := v mod 2 ^ (w - 1) + 2 ^ (w - 1)).
  assert (2 ^ (w - 1) = 2 * 2 ^ (w - 2)) as E1 by (replace (w - 1) with (1 + (w - 2)) by ring; rewrite Z.pow_add_r by lia; reflexivity).
  assert (256 ^ Z.of_nat n = 4 * 2 ^ (w - 2)) as E2.
  { rewrite pow256 by lia. fold w. replace w with (2 + (w - 2)) at 1 by ring. rewrite Z.pow_add_r by lia. reflexivity. }
  set (Q := 2 ^ (w - 2)) in *. assert (0 < Q) as HQ by (apply Z.pow_pos_nonneg; lia).
  assert (v mod (2 * Q) = if 0 <=? v then v else v + 2 * Q) as Em.
  { destruct (0 <=? v) eqn:E; [rewrite Z.mod_small by lia; reflexivity|]. symmetry. apply (Z.mod_unique _ _ (-1)); lia. }
  assert (2 * Q <= x < 4 * Q) as Hx by (unfold x; rewrite E1, Em; destruct (0 <=? v) eqn:E; lia).
  assert (be_value (be_bytes n x) = x) as Eb by (apply be_bytes_value; lia).
  assert (twos_value (be_bytes n x) = v) as Et.
  { unfold twos_value. cbv zeta. rewrite be_bytes_len, Eb. fold w. rewrite E1. fold Q.
    assert (x mod (2 * Q) = v mod (2 * Q)) as ->.
    { unfold x. rewrite E1. replace (v mod (2 * Q) + 2 * Q) with (v mod (2 * Q) + 1 * (2 * Q)) by ring. rewrite Z_mod_plus_full. apply Z.mod_mod. lia. }
    rewrite Em. destruct (0 <=? v) eqn:E; destruct (_ <? Q) eqn:E3; lia. }
  rewrite parse_base256; [|apply be_bytes_ok|].
  - rewrite Et. unfold in_int64 in Hv. destruct (min_int64 <=? v) eqn:E3; [|lia]. destruct (v <=? max_int64) eqn:E4; [reflexivity|lia].
  - pose proof (be_bytes_len n x) as Hl. pose proof (be_bytes_ok n x) as Hok. destruct (be_bytes n x) as [|b0 r] eqn:E; [change (zlen (@nil N)) with 0 in Hl; lia|].
    exists b0, r. split; [reflexivity|]. rewrite be_cons in Eb. inversion Hok as [|? ? ? Hr0]; subst. pose proof (be_bound r Hr0) as Hb. rewrite zlen_cons in Hl.
    assert (256 * 256 ^ zlen r = 4 * Q) as E5 by (rewrite <- E2, <- Hl, Z.pow_add_r by (try apply zlen_nonneg; lia); reflexivity).
    assert (128 * 256 ^ zlen r <= Z.of_N b0 * 256 ^ zlen r + be_value r) by lia.
    destruct (128 <=? b0)%N eqn:E6; [apply N.leb_le; exact E6|]. apply N.leb_gt in E6. nia.
Qed.

(* ---- octal ---- *)

Lemma is_octal_spec s : forallb is_octal s = true <-> Forall (fun c => (48 <= c <= 55)%N) s.
Proof.
  rewrite forallb_forall, Forall_forall. split; intros H x Hx; specialize (H x Hx).
  - unfold is_octal in H. apply andb_true_iff in H. rewrite !N.leb_le in H. exact H.
  - unfold is_octal. apply andb_true_iff. rewrite !N.leb_le. exact H.
Qed.

Lemma is_pad_octal c : (48 <= c <= 55)%N -> is_pad c = false.
Proof. intros H. unfold is_pad. apply orb_false_iff. split; apply N.eqb_neq; lia. Qed.

Lemma trim_left_head p s : match trim_left p s with [] => True | b :: _ => p b = false end.
Proof. induction s as [|b s IH]; cbn [trim_left]; [exact I|]. destruct (p b) eqn:E; [exact IH|exact E]. Qed.

Lemma trim_right_last p s b : trim_right p (s ++ [b]) = (if p b then trim_right p s else s ++ [b]).
Proof. unfold trim_right. rewrite rev_app_distr. cbn [rev app trim_left]. destruct (p b); [reflexivity|]. cbn [rev]. rewrite rev_involutive. reflexivity. Qed.

Lemma trim_right_id p s : match rev s with [] => True | b :: _ => p b = false end -> trim_right p s = s.
Proof.
  intros H. unfold trim_right. destruct (rev s) as [|b r] eqn:E; cbn [trim_left].
  - apply (f_equal (@rev N)) in E. rewrite rev_involutive in E. symmetry. exact E.
  - rewrite H. rewrite <- E. apply rev_involutive.
Qed.

Lemma trim_right_all p s : Forall (fun b => p b = true) s -> trim_right p s = [].
Proof.
  intros H. unfold trim_right. assert (Forall (fun b => p b = true) (rev s)) as Hr by (apply Forall_rev; exact H).
  replace (trim_left p (rev s)) with (@nil N); [reflexivity|]. induction Hr as [|b r Hb _ IH]; [reflexivity|]. cbn [trim_left]. rewrite Hb. exact IH.
Qed.

Lemma trim_left_all p s : Forall (fun b => p b = true) s -> trim_left p s = [].
Proof. induction 1 as [|b r Hb _ IH]; [reflexivity|]. cbn [trim_left]. rewrite Hb. exact IH. Qed.

Lemma trim_right_keep p s t : (exists b, In b t /\ p b = false) -> exists t', trim_right p (s ++ t) = s ++ t' /\ trim_right p t = t'.
Proof.
  revert s. induction t as [|x t IH] using rev_ind; intros s (b & Hb & Hp); [destruct Hb|].
  rewrite app_assoc, !trim_right_last. destruct (p x) eqn:E.
  - apply in_app_or in Hb. destruct Hb as [Hb|[Hb|[]]]; [|congruence]. apply (IH s). exists b. auto.
  - rewrite app_assoc_reverse. eexists. split; reflexivity.
Qed.

Lemma cut_none sep s : cut sep s = None -> ~ In sep s.
Proof.
  induction s as [|b s IH]; intros H; [intros []|]. cbn [cut] in H. destruct (b =? sep)%N eqn:E; [discriminate|]. apply N.eqb_neq in E.
  destruct (cut sep s) as [[x y]|]; [discriminate|]. intros [Hi|Hi]; [congruence|]. exact (IH eq_refl Hi).
Qed.
Lemma cut_notin sep s : ~ In sep s -> cut sep s = None.
Proof.
  induction s as [|b s IH]; intros H; [reflexivity|]. cbn [cut]. destruct (b =? sep)%N eqn:E; [apply N.eqb_eq in E; subst; exfalso; apply H; left; reflexivity|].
  rewrite IH by (intros Hi; apply H; right; exact Hi). reflexivity.
Qed.

Lemma parse_uint8_some s x : parse_uint8 s = Some x <-> s <> [] /\ Forall (fun c => (48 <= c <= 55)%N) s /\ x = oct_value s /\ oct_value s < 2 ^ 64.
Proof.
  unfold parse_uint8. destruct s as [|b s]; [split; [discriminate|intros (H & _); contradiction]|].
  destruct (forallb is_octal (b :: s)) eqn:E.
  - apply (proj1 (is_octal_spec _)) in E. destruct (oct_value (b :: s) <? 2 ^ 64) eqn:E2; split.
    + intros H. apply some_inj in H. split; [discriminate|]. split; [exact E|]. split; [congruence|]. apply Z.ltb_lt. exact E2.
    + intros (_ & _ & -> & _). reflexivity.
    + discriminate.
    + intros (_ & _ & _ & H). apply Z.ltb_ge in E2. lia.
  - split; [discriminate|]. intros (_ & H & _). apply is_octal_spec in H. congruence.
Qed.

Lemma parse_octal_digits pad digits rest : Forall (fun c => is_pad c = true) pad -> digits <> [] -> Forall (fun c => (48 <= c <= 55)%N) digits ->
  (Forall (fun c => is_pad c = true) rest \/ exists junk, rest = 0%N :: junk) ->
  parse_octal (pad ++ digits ++ rest) = if oct_value digits <? 2 ^ 64 then Some (wrap64 (oct_value digits)) else None.
Proof.
  intros Hp Hne Hd Hrest. unfold parse_octal. rewrite trim_left_app by exact Hp.
  destruct digits as [|d0 ds]; [contradiction|]. cbn [app]. rewrite trim_left_id by (apply is_pad_octal; inversion Hd; assumption).
  change (d0 :: ds ++ rest) with ((d0 :: ds) ++ rest).
  assert (~ In 0%N (d0 :: ds)) as Hno by (intros Hi; rewrite Forall_forall in Hd; specialize (Hd _ Hi); lia).
  assert (exists t, trim_right is_pad ((d0 :: ds) ++ rest) = (d0 :: ds) ++ t /\ (t = [] \/ exists junk, t = 0%N :: junk)) as (t & Et & Ht).
  { destruct (Forall_Exists_dec (fun c => is_pad c = true) (fun c => bool_dec (is_pad c) true) rest) as [Ha|He].
    - exists []. split; [|left; reflexivity]. rewrite app_nil_r. clear -Ha Hd. induction rest as [|x rest IH] using rev_ind.
      + rewrite app_nil_r. apply trim_right_id. destruct (rev (d0 :: ds)) as [|b r] eqn:E; [exact I|]. apply is_pad_octal. rewrite Forall_forall in Hd. apply Hd.
        apply in_rev. rewrite E. left. reflexivity.
      + apply Forall_app in Ha. destruct Ha as [Ha Hx]. inversion Hx; subst. rewrite app_assoc, trim_right_last. rewrite H1. apply IH. exact Ha.
    - apply Exists_exists in He. destruct He as (b & Hb & Hbp). assert (is_pad b = false) as Hbf by (destruct (is_pad b); congruence).
      destruct (trim_right_keep is_pad (d0 :: ds) rest (ex_intro _ b (conj Hb Hbf))) as (t & E1 & E2). exists t. split; [exact E1|]. right.
      destruct Hrest as [Hrest|(junk & ->)]; [rewrite Forall_forall in Hrest; specialize (Hrest b Hb); congruence|].
      assert (exists b', In b' junk /\ is_pad b' = false) as Hj by (exists b; split; [destruct Hb as [<-|Hb]; [discriminate Hbf|exact Hb]|exact Hbf]).
      destruct (trim_right_keep is_pad [0%N] junk Hj) as (t' & E3 & _). cbn [app] in E3. rewrite E3 in E2. exists t'. congruence. }
  rewrite Et. cbn [app]. change (d0 :: ds ++ t) with ((d0 :: ds) ++ t).
  assert (parse_string ((d0 :: ds) ++ t) = d0 :: ds) as ->.
  { unfold parse_string. destruct Ht as [-> |(junk & ->)]; [rewrite app_nil_r, cut_notin by exact Hno; reflexivity|].
    change (0%N :: junk) with ([0%N] ++ junk). rewrite cut_app by exact Hno. reflexivity. }
  destruct (oct_value (d0 :: ds) <? 2 ^ 64) eqn:E.
  - assert (parse_uint8 (d0 :: ds) = Some (oct_value (d0 :: ds))) as ->; [|reflexivity].
    apply parse_uint8_some. split; [discriminate|]. split; [exact Hd|]. split; [reflexivity|]. apply Z.ltb_lt. exact E.
  - destruct (parse_uint8 (d0 :: ds)) as [x|] eqn:E2; [|reflexivity]. apply parse_uint8_some in E2. destruct E2 as (_ & _ & _ & H). apply Z.ltb_ge in E. lia.
Qed.

Lemma pad_alt c : pad_byte c <-> is_pad c = true.
Proof. unfold pad_byte, is_pad. now rewrite orb_true_iff, !N.eqb_eq. Qed.
Lemma pads_alt b : Forall pad_byte b <-> Forall (fun c => is_pad c = true) b.
Proof. split; apply Forall_impl; intros c; apply pad_alt. Qed.
Lemma written_oct s : written 8 s = oct_value s.
Proof. apply written_fold. Qed.

Lemma parse_octal_iff b v : parse_octal b = Some v <->
  (Forall pad_byte b /\ v = 0) \/ (exists n, octal_field b n /\ n < 2 ^ 64 /\ v = wrap64 n).
Proof.
  split.
  - unfold parse_octal. destruct (trim_left_decomp is_pad b) as (w1 & E1 & H1). pose proof (trim_left_head is_pad b) as Hh.
    destruct (trim_right_decomp is_pad (trim_left is_pad b)) as (w2 & E2 & H2).
    destruct (trim_right is_pad (trim_left is_pad b)) as [|c t] eqn:Et.
    + intros H. apply some_inj in H. left. split; [|congruence]. apply pads_alt. rewrite E1, E2. cbn [app]. apply Forall_app. auto.
    + intros H. right. destruct (parse_uint8 (parse_string (c :: t))) as [x|] eqn:Ex; [|discriminate]. apply some_inj in H.
      apply (proj1 (parse_uint8_some _ _)) in Ex. destruct Ex as (Hne & Hd & -> & Hlt). exists (oct_value (parse_string (c :: t))).
      split; [|split; [exact Hlt|congruence]]. exists w1, (parse_string (c :: t)).
      unfold parse_string in *. destruct (cut 0%N (c :: t)) as [[x y]|] eqn:Ec.
      * apply cut_some in Ec. destruct Ec as [Ec _]. exists (0%N :: y ++ w2). split; [rewrite E1 at 1; rewrite E2, Ec, <- !app_assoc; reflexivity|].
        split; [apply pads_alt; exact H1|]. split; [exact Hne|]. split; [exact Hd|]. split; [right; eexists; reflexivity|now rewrite written_oct].
      * exists w2. split; [rewrite E1 at 1; rewrite E2; reflexivity|]. split; [apply pads_alt; exact H1|]. split; [exact Hne|]. split; [exact Hd|]. split; [left; apply pads_alt; exact H2|now rewrite written_oct].
  - intros [[H ->]|(n & (pad & digits & rest & -> & Hp & Hne & Hd & Hr & ->) & Hlt & ->)].
    + unfold parse_octal. rewrite trim_left_all by (apply pads_alt; exact H). reflexivity.
    + rewrite written_oct in *. rewrite pads_alt in Hp, Hr. rewrite parse_octal_digits by assumption. assert (oct_value digits <? 2 ^ 64 = true) as -> by (apply Z.ltb_lt; exact Hlt). reflexivity.
Qed.

Lemma oct_acc s a : fold_left (fun a b => a * 8 + (Z.of_N b - 48)) s a = a * 8 ^ zlen s + oct_value s.
Proof.
  unfold oct_value. revert a. induction s as [|c s IH]; intros a; [cbn; lia|]. cbn [fold_left]. rewrite IH. rewrite (IH (0 * 8 + _)).
  rewrite zlen_cons, Z.pow_add_r by (try apply zlen_nonneg; lia). change (8 ^ 1) with 8. lia.
Qed.
Lemma oct_bound s : Forall (fun c => (48 <= c <= 55)%N) s -> 0 <= oct_value s < 8 ^ zlen s.
Proof.
  induction s as [|c s IH]; intros H; [cbn; lia|]. inversion H; subst. specialize (IH H3). unfold oct_value. cbn [fold_left]. rewrite oct_acc.
  rewrite zlen_cons, Z.pow_add_r by (try apply zlen_nonneg; lia). change (8 ^ 1) with 8. nia.
Qed.

(* Header fields are at most 21 bytes long; there octal numbers cannot overflow. *)
Lemma octal_field_small b n : octal_field b n -> zlen b <= 20 -> 0 <= n < 2 ^ 63.
Proof.
  intros (pad & digits & rest & -> & _ & _ & Hd & _ & ->) Hl. rewrite written_oct. rewrite !zlen_app in Hl. pose proof (zlen_nonneg pad). pose proof (zlen_nonneg rest).
  pose proof (oct_bound digits Hd) as Hb. split; [lia|]. apply Z.lt_le_trans with (8 ^ zlen digits); [lia|].
  apply Z.le_trans with (8 ^ 20); [apply Z.pow_le_mono_r; lia|]. vm_compute. discriminate.
Qed.

Lemma octal_field_exact b n : octal_field b n -> zlen b <= 20 -> parse_octal b = Some n.
Proof.
  intros H Hl. pose proof (octal_field_small b n H Hl) as Hs. apply parse_octal_iff. right. exists n. split; [exact H|].
  change (2 ^ 63) with 9223372036854775808 in Hs. change (2 ^ 64) with 18446744073709551616. split; [lia|]. symmetry. apply wrap64_id.
  unfold in_int64, min_int64, max_int64. lia.
Qed.

Lemma octal_digits_spec n : forall x, 0 <= x < 8 ^ Z.of_nat n -> oct_value (octal_digits n x) = x.
Proof.
  induction n as [|n IH]; intros x H; [cbn in *; lia|]. cbn [octal_digits]. unfold oct_value. rewrite fold_left_app. cbn [fold_left]. fold (oct_value (octal_digits n (x / 8))).
  rewrite Nat2Z.inj_succ, Z.pow_succ_r in H by lia. rewrite IH by (split; [apply Z.div_pos; lia|apply Z.div_lt_upper_bound; lia]).
  pose proof (Z.mod_pos_bound x 8). rewrite Z2N.id by lia. pose proof (Z.div_mod x 8). lia.
Qed.
Lemma octal_digits_ok n x : Forall (fun c => (48 <= c <= 55)%N) (octal_digits n x) /\ zlen (octal_digits n x) = Z.of_nat n.
Proof.
  revert x. induction n as [|n IH]; intros x; [split; [constructor|reflexivity]|]. cbn [octal_digits]. destruct (IH (x / 8)) as [H1 H2]. split.
  - apply Forall_app. split; [exact H1|]. constructor; [|constructor]. pose proof (Z.mod_pos_bound x 8). lia.
  - rewrite zlen_app, H2. change (zlen [Z.to_N (48 + x mod 8)]) with 1. lia.
Qed.

Lemma octal_roundtrip n x : (1 <= n <= 19)%nat -> 0 <= x < 8 ^ Z.of_nat n -> parse_numeric (octal_text n x) = Some x.
Proof.
  intros Hn Hx. destruct (octal_digits_ok n x) as [Hd Hl].
  assert (octal_field (octal_text n x) x) as Hf.
  { exists [], (octal_digits n x), [0%N]. split; [reflexivity|]. split; [constructor|]. split.
    - intros E. rewrite E in Hl. change (zlen (@nil N)) with 0 in Hl. lia.
    - split; [exact Hd|]. split; [right; exists []; reflexivity|]. symmetry. rewrite written_oct. apply octal_digits_spec. exact Hx. }
  assert (zlen (octal_text n x) <= 20) as Hl2 by (unfold octal_text; rewrite zlen_app, Hl; change (zlen [0%N]) with 1; lia).
  pose proof (octal_field_exact _ _ Hf Hl2) as Hp. unfold parse_numeric. unfold octal_text in *. destruct (octal_digits n x) as [|d ds] eqn:E; [change (zlen (@nil N)) with 0 in Hl; lia|].
  cbn [app] in *. inversion Hd as [|? ? Hd0 _]; subst. rewrite land_128 by lia.
  assert ((128 <=? d)%N = false) as -> by (apply N.leb_gt; lia). exact Hp.
Qed.

(* ---- sparse maps ---- *)

Lemma parse_int_print n : 0 <= n <= max_int64 -> parse_int (print_dec n) = Some n.
Proof.
  intros H. pose proof (print_dec_number n H) as Hn. pose proof (proj2 (parse_decimal_some (print_dec n) n) (conj Hn (proj2 H))) as Hp.
  destruct Hn as (Hne & Hd & _). destruct (print_dec n) as [|b r]; [contradiction|]. inversion Hd as [|? ? Hb _]; subst.
  unfold parse_int. assert (b <> 43%N /\ b <> 45%N) as [H1 H2] by lia. 
  destruct b as [|p]; [lia|]. repeat (destruct p as [p|p|]; try exact Hp; try (exfalso; lia)).
Qed.

Lemma print_dec_no n x : 0 <= n <= max_int64 -> ~ (48 <= x <= 57)%N -> ~ In x (print_dec n).
Proof. intros H. apply (digits_no_in _ n). apply print_dec_number. exact H. Qed.

Lemma parse_count_print n : 0 <= n -> 2 * n <= max_int64 -> parse_count (print_dec n) = Some n.
Proof.
  intros H1 H2. unfold parse_count. rewrite parse_int_print by (unfold max_int64 in *; lia).
  assert ((n <? 0) = false) as -> by lia. rewrite wrap64_id by (unfold in_int64, min_int64; lia). assert ((2 * n <? n) = false) as -> by lia. reflexivity.
Qed.

Lemma split_on_free sep x : ~ In sep x -> split_on sep x = [x].
Proof.
  induction x as [|b x IH]; intros H; [reflexivity|]. cbn [split_on]. destruct (b =? sep)%N eqn:E; [apply N.eqb_eq in E; subst; exfalso; apply H; left; reflexivity|].
  rewrite IH by (intros Hi; apply H; right; exact Hi). reflexivity.
Qed.
Lemma split_on_app sep x s : ~ In sep x -> split_on sep (x ++ [sep] ++ s) = x :: split_on sep s.
Proof.
  induction x as [|b x IH]; intros H; cbn [app split_on]; [rewrite N.eqb_refl; reflexivity|].
  destruct (b =? sep)%N eqn:E; [apply N.eqb_eq in E; subst; exfalso; apply H; left; reflexivity|].
  cbn [app] in IH. rewrite IH by (intros Hi; apply H; right; exact Hi). reflexivity.
Qed.
Lemma split_join_on sep l : l <> [] -> Forall (fun x => ~ In sep x) l -> split_on sep (join_on sep l) = l.
Proof.
  induction l as [|x l IH]; intros Hne H; [contradiction|]. inversion H as [|? ? Hx Hl]; subst. cbn [join_on]. destruct l as [|y l].
  - apply split_on_free. exact Hx.
  - rewrite split_on_app by exact Hx. rewrite IH; [reflexivity|discriminate|exact Hl].
Qed.

Lemma numbers_len m : zlen (map_numbers m) = 2 * zlen m.
Proof. induction m as [|e m IH]; [reflexivity|]. unfold map_numbers in *. cbn [map concat app]. rewrite !zlen_cons, IH. lia. Qed.
Lemma numbers_ok m : map_ok m -> Forall (fun n => 0 <= n <= max_int64) (map_numbers m).
Proof. induction 1 as [|e m He _ IH]; [constructor|]. unfold map_numbers in *. cbn [map concat app]. destruct He. constructor; [assumption|constructor; assumption]. Qed.

Lemma parse_pairs_numbers m : map_ok m -> parse_pairs (map print_dec (map_numbers m)) = Some m.
Proof.
  induction 1 as [|e m He _ IH]; [reflexivity|]. unfold map_numbers in *. cbn [map concat app parse_pairs]. destruct He as [H1 H2].
  rewrite !parse_int_print by assumption. rewrite IH. destruct e; reflexivity.
Qed.

Lemma map_0x1_roundtrip m : map_ok m -> 2 * zlen m <= max_int64 -> read_map_0x1 (print_dec (zlen m)) (map_text_0x1 m) = Some m.
Proof.
  intros Hm Hl. unfold read_map_0x1. rewrite parse_count_print by (try apply zlen_nonneg; exact Hl). cbv zeta. unfold map_text_0x1.
  destruct m as [|e m]; [reflexivity|].
  set (l := map print_dec (map_numbers (e :: m))).
  assert (Forall (fun x => ~ In 44%N x) l) as Hf.
  { apply Forall_forall. intros x Hx. apply in_map_iff in Hx. destruct Hx as (n & <- & Hn). pose proof (numbers_ok _ Hm) as Ho. rewrite Forall_forall in Ho.
    apply print_dec_no; [apply Ho; exact Hn|lia]. }
  assert (l <> []) as Hne by discriminate.
  pose proof (split_join_on 44%N l Hne Hf) as Hs.
  assert (join_on 44%N l <> []) as Hjne.
  { intros E. rewrite E in Hs. cbn in Hs. apply (f_equal (@length _)) in Hs. cbn in Hs. unfold l, map_numbers in Hs. cbn in Hs. lia. }
  destruct (join_on 44%N l) as [|c t] eqn:Ej; [contradiction|]. rewrite Hs.
  assert (zlen l = 2 * zlen (e :: m)) as -> by (unfold l, zlen; rewrite map_length; apply numbers_len).
  rewrite Z.eqb_refl. apply parse_pairs_numbers. exact Hm.
Qed.

Lemma count_nl_app a b : count_nl (a ++ b) = count_nl a + count_nl b.
Proof. unfold count_nl. rewrite filter_app, zlen_app. reflexivity. Qed.
Lemma count_nl_nonneg a : 0 <= count_nl a.
Proof. apply zlen_nonneg. Qed.
Lemma count_nl_none a : ~ In 10%N a -> count_nl a = 0.
Proof.
  intros H. unfold count_nl. replace (filter (fun b => (b =? 10)%N) a) with (@nil N); [reflexivity|]. symmetry.
  induction a as [|b a IH]; [reflexivity|]. cbn [filter]. destruct (b =? 10)%N eqn:E; [apply N.eqb_eq in E; subst; exfalso; apply H; left; reflexivity|].
  apply IH. intros Hi. apply H. right. exact Hi.
Qed.

Lemma feed_spec n : forall j fuel cnt buf s, (512 * j <= length s)%nat -> (j <= fuel)%nat -> n <= cnt + count_nl (firstn (512 * j) s) ->
  exists i, (i <= j)%nat /\ feed fuel n cnt buf s = Some (cnt + count_nl (firstn (512 * i) s), buf ++ firstn (512 * i) s, skipn (512 * i) s) /\
    n <= cnt + count_nl (firstn (512 * i) s).
Proof.
  induction j as [|j IH]; intros fuel cnt buf s Hs Hf Hn.
  - rewrite Nat.mul_0_r in *. cbn [firstn skipn] in *. change (count_nl []) with 0 in Hn. exists 0%nat. rewrite Nat.mul_0_r. cbn [firstn skipn]. change (count_nl []) with 0.
    split; [lia|]. split; [|exact Hn]. rewrite app_nil_r, Z.add_0_r. destruct fuel; cbn [feed]; (assert (n <=? cnt = true) as -> by lia); reflexivity.
  - destruct (n <=? cnt) eqn:E.
    + exists 0%nat. rewrite Nat.mul_0_r. cbn [firstn skipn]. change (count_nl []) with 0. rewrite app_nil_r, Z.add_0_r.
      split; [lia|]. split; [|lia]. destruct fuel; cbn [feed]; rewrite E; reflexivity.
    + destruct fuel as [|fuel]; [lia|]. cbn [feed]. rewrite E. assert (zlen s <? 512 = false) as -> by (unfold zlen; lia).
      assert (zslice s 0 512 = firstn 512 s) as Ez by (unfold zslice; reflexivity). rewrite Ez.
      assert (firstn (512 * S j) s = firstn 512 s ++ firstn (512 * j) (skipn 512 s)) as Esp.
      { rewrite <- (firstn_skipn 512 s) at 1. rewrite firstn_app, firstn_length, Nat.min_l by lia. rewrite firstn_firstn, Nat.min_r by lia. f_equal. f_equal. lia. }
      rewrite Esp, count_nl_app in Hn.
      destruct (IH fuel (cnt + count_nl (firstn 512 s)) (buf ++ firstn 512 s) (skipn 512 s)) as (i & Hi & Ef & Hn2); [rewrite skipn_length; lia|lia|lia|].
      exists (S i). split; [lia|].
      assert (firstn (512 * S i) s = firstn 512 s ++ firstn (512 * i) (skipn 512 s)) as Esp2.
      { rewrite <- (firstn_skipn 512 s) at 1. rewrite firstn_app, firstn_length, Nat.min_l by lia. rewrite firstn_firstn, Nat.min_r by lia. f_equal. f_equal. lia. }
      rewrite Ef, Esp2, count_nl_app. rewrite skipn_skipn'. replace (512 + 512 * i)%nat with (512 * S i)%nat by lia.
      rewrite app_assoc, Z.add_assoc. split; [reflexivity|]. lia.
Qed.

Lemma next_token_spec a buf s more : ~ In 10%N a -> buf ++ s = a ++ [10%N] ++ more -> 1 <= count_nl buf ->
  exists buf', next_token buf = (a, buf') /\ buf' ++ s = more /\ count_nl buf' = count_nl buf - 1.
Proof.
  intros Ha E Hc. destruct (cut 10%N buf) as [[t r]|] eqn:Ec.
  - unfold next_token. rewrite Ec. apply cut_some in Ec. destruct Ec as [Eb Ht]. subst buf.
    assert (cut 10%N ((t ++ [10%N] ++ r) ++ s) = cut 10%N (a ++ [10%N] ++ more)) as E2 by (rewrite E; reflexivity).
    rewrite <- !app_assoc in E2. rewrite !cut_app in E2 by assumption. apply some_inj in E2. assert (t = a /\ r ++ s = more) as [-> <-] by (split; congruence).
    exists r. split; [reflexivity|]. split; [reflexivity|]. rewrite !count_nl_app. rewrite (count_nl_none a Ha). change (count_nl [10%N]) with 1. lia.
  - apply cut_none in Ec. rewrite count_nl_none in Hc by exact Ec. lia.
Qed.

Lemma token_pairs_spec m : map_ok m -> forall fuel buf s tail, (length m <= fuel)%nat ->
  buf ++ s = concat (map (fun n => print_dec n ++ [10%N]) (map_numbers m)) ++ tail -> 2 * zlen m <= count_nl buf ->
  token_pairs fuel (zlen m) buf = Some m.
Proof.
  induction 1 as [|[o l] m [Ho Hl] Hm IH]; intros fuel buf s tail Hf E Hc; [destruct fuel; reflexivity|].
  cbn [fst snd] in Ho, Hl. rewrite zlen_cons in *. pose proof (zlen_nonneg m) as Hz. destruct fuel as [|fuel]; [cbn in Hf; lia|]. cbn [token_pairs].
  assert (1 + zlen m <=? 0 = false) as -> by lia. unfold map_numbers in E. cbn [map concat app fst snd] in E. rewrite <- !app_assoc in E.
  destruct (next_token_spec _ _ _ _ (print_dec_no o 10 Ho ltac:(lia)) E) as (b1 & E1 & Eb1 & C1); [lia|]. rewrite E1.
  destruct (next_token_spec _ _ _ _ (print_dec_no l 10 Hl ltac:(lia)) Eb1) as (b2 & E2 & Eb2 & C2); [lia|]. rewrite E2.
  rewrite !parse_int_print by assumption. replace (1 + zlen m - 1) with (zlen m) by lia.
  rewrite (IH fuel b2 s tail); [reflexivity|cbn in Hf; lia|exact Eb2|lia].
Qed.

Lemma lines_nl l : Forall (fun n => 0 <= n <= max_int64) l -> count_nl (concat (map (fun n => print_dec n ++ [10%N]) l)) = zlen l.
Proof.
  induction 1 as [|n l Hn _ IH]; [reflexivity|]. cbn [map concat]. rewrite !count_nl_app, IH, zlen_cons. rewrite (count_nl_none (print_dec n)) by (apply print_dec_no; [exact Hn|lia]).
  change (count_nl [10%N]) with 1. lia.
Qed.

Lemma map_1x0_roundtrip m pad data : map_ok m -> 2 * zlen m <= max_int64 -> Z.divide 512 (zlen (map_text_1x0 m ++ pad)) ->
  read_map_1x0 (map_text_1x0 m ++ pad ++ data) = Some m.
Proof.
  intros Hm Hl (q & Hq). set (hdr := map_text_1x0 m ++ pad) in *. set (s := map_text_1x0 m ++ pad ++ data).
  assert (s = hdr ++ data) as Es by (unfold s, hdr; rewrite app_assoc; reflexivity).
  assert (0 <= zlen m <= max_int64) as Hzm by (pose proof (zlen_nonneg m); unfold max_int64 in *; lia).
  pose proof (zlen_nonneg hdr) as Hzh. set (J := Z.to_nat q).
  assert (length hdr = (512 * J)%nat) as Hlh by (unfold zlen in Hq; lia).
  assert (firstn (512 * J) s = hdr) as Efull by (rewrite Es, firstn_app, Hlh, Nat.sub_diag, <- Hlh, firstn_all; cbn; apply app_nil_r).
  assert (1 + 2 * zlen m <= count_nl hdr) as Hcnt.
  { unfold hdr, map_text_1x0. rewrite count_nl_app, lines_nl by (constructor; [exact Hzm|apply numbers_ok; exact Hm]).
    rewrite zlen_cons, numbers_len. pose proof (count_nl_nonneg pad). lia. }
  pose proof (zlen_nonneg m) as Hz0. unfold read_map_1x0. fold s.
  assert (512 * J <= length s)%nat as HJs by (rewrite Es, app_length; lia).
  destruct (feed_spec 1 J (length s) 0 [] s) as (i & Hi & Ef & Hn1); [exact HJs|lia|rewrite Efull; lia|].
  rewrite Ef. cbn [app]. set (buf := firstn (512 * i) s) in *. set (s1 := skipn (512 * i) s) in *.
  assert (buf ++ s1 = s) as Ebs by apply firstn_skipn.
  assert (s = print_dec (zlen m) ++ [10%N] ++ (concat (map (fun n => print_dec n ++ [10%N]) (map_numbers m)) ++ pad ++ data)) as Es2.
  { unfold s, map_text_1x0. cbn [map concat]. rewrite <- !app_assoc. reflexivity. }
  rewrite Es2 in Ebs.
  destruct (next_token_spec _ _ _ _ (print_dec_no (zlen m) 10 Hzm ltac:(lia)) Ebs) as (b1 & E1 & Eb1 & C1); [lia|]. rewrite E1.
  rewrite parse_count_print by (try exact Hl; lia).
  assert (firstn (512 * J) s = buf ++ firstn (512 * (J - i)) s1) as Esplit.
  { unfold buf, s1. rewrite <- (firstn_skipn (512 * i) s) at 1. rewrite firstn_app, firstn_length, Nat.min_l by lia. rewrite firstn_firstn, Nat.min_r by lia. f_equal. f_equal. lia. }
  rewrite Efull in Esplit. rewrite Esplit, count_nl_app in Hcnt.
  destruct (feed_spec (2 * zlen m) (J - i) (length s1) (0 + count_nl buf - 1) b1 s1) as (k & Hk & Ef2 & Hn2).
  { unfold s1. rewrite skipn_length. lia. }
  { unfold s1. rewrite skipn_length. lia. }
  { lia. }
  rewrite Ef2. apply (token_pairs_spec m Hm _ _ (skipn (512 * k) s1) (pad ++ data)).
  - assert (2 * zlen m <= count_nl (b1 ++ firstn (512 * k) s1)) as Hc by (rewrite count_nl_app; lia).
    assert (count_nl (b1 ++ firstn (512 * k) s1) <= zlen (b1 ++ firstn (512 * k) s1)) as Hle.
    { generalize (b1 ++ firstn (512 * k) s1) as x. intros x. unfold count_nl, zlen. apply inj_le. clear. induction x as [|b x IH]; [cbn; lia|]. cbn [filter length]. destruct (b =? 10)%N; cbn [length]; lia. }
    unfold zlen in *. lia.
  - rewrite <- app_assoc, firstn_skipn. exact Eb1.
  - rewrite count_nl_app. lia.
Qed.

(* ---- the old GNU map ---- *)

Lemma enc_num_spec x : 0 <= x <= max_int64 -> zlen (enc_num x) = 12 /\ parse_numeric (enc_num x) = Some x /\ exists b r, enc_num x = b :: r /\ b <> 0%N.
Proof.
  intros Hx. unfold enc_num. destruct (x <? 8 ^ 11) eqn:E.
  - apply Z.ltb_lt in E. destruct (octal_digits_ok 11 x) as [Hd Hl]. split; [unfold octal_text; rewrite zlen_app, Hl; reflexivity|].
    split; [apply octal_roundtrip; [lia|]; change (8 ^ Z.of_nat 11) with (8 ^ 11); lia|]. unfold octal_text. destruct (octal_digits 11 x) as [|b r] eqn:Eo; [discriminate Hl|].
    inversion Hd; subst. exists b, (r ++ [0%N]). split; [reflexivity|lia].
  - split; [unfold base256_field; rewrite be_bytes_len; reflexivity|]. split.
    + apply base256_roundtrip; [lia|unfold in_int64, min_int64; lia|]. change (2 ^ (8 * Z.of_nat 12 - 2)) with 19807040628566084398385987584. unfold max_int64 in Hx. lia.
    + assert (is_base256 (base256_field 12 x)) as (b & r & Eb & Hb).
      { unfold base256_field. set (y := x mod 2 ^ (8 * Z.of_nat 12 - 1) + 2 ^ (8 * Z.of_nat 12 - 1)).
        pose proof (be_bytes_len 12 y) as Hl. pose proof (be_bytes_ok 12 y) as Hok.
        pose proof (Z.mod_pos_bound x (2 ^ (8 * Z.of_nat 12 - 1)) ltac:(vm_compute; reflexivity)) as Hm.
        assert (be_value (be_bytes 12 y) = y) as Ev.
        { apply be_bytes_value. unfold y. change (256 ^ Z.of_nat 12) with (2 * 2 ^ (8 * Z.of_nat 12 - 1)). lia. }
        destruct (be_bytes 12 y) as [|b r] eqn:Eb; [discriminate Hl|]. exists b, r. split; [reflexivity|]. rewrite be_cons in Ev. inversion Hok as [|? ? ? Hr]; subst.
        pose proof (be_bound r Hr) as Hbr. rewrite zlen_cons in Hl. assert (zlen r = 11) as El by lia. rewrite El in *.
        destruct (128 <=? b)%N eqn:E6; [apply N.leb_le; exact E6|]. apply N.leb_gt in E6. exfalso.
        assert (2 ^ (8 * Z.of_nat 12 - 1) <= y) as Hy by (unfold y; lia).
        change (2 ^ (8 * Z.of_nat 12 - 1)) with (128 * 256 ^ 11) in Hy. nia. }
      exists b, r. split; [exact Eb|lia].
Qed.

Lemma enc_entry_len e : 0 <= fst e <= max_int64 -> 0 <= snd e <= max_int64 -> zlen (enc_entry e) = 24.
Proof. intros H1 H2. unfold enc_entry. rewrite zlen_app. rewrite (proj1 (enc_num_spec _ H1)), (proj1 (enc_num_spec _ H2)). reflexivity. Qed.

Lemma enc_entries_len es : map_ok es -> zlen (concat (map enc_entry es)) = 24 * zlen es.
Proof. induction 1 as [|e es [H1 H2] _ IH]; [reflexivity|]. cbn [map concat]. rewrite zlen_app, enc_entry_len, IH, zlen_cons by assumption. lia. Qed.

Lemma skipn_zlen {A} n (l1 l2 : list A) : zlen l1 = Z.of_nat n -> skipn n (l1 ++ l2) = l2.
Proof. intros H. unfold zlen in H. rewrite skipn_app, skipn_all2 by lia. replace (n - length l1)%nat with 0%nat by lia. reflexivity. Qed.

Lemma old_entries_spec es : map_ok es -> forall n rest, (length es <= n)%nat ->
  (length es = n \/ rest = [] \/ exists r, rest = 0%N :: r) -> old_entries n (concat (map enc_entry es) ++ rest) = Some es.
Proof.
  induction 1 as [|e es [H1 H2] _ IH]; intros n rest Hn Hr.
  - cbn [map concat app]. destruct n as [|n]; [reflexivity|]. cbn [old_entries]. destruct Hr as [Hr|[-> |(r & ->)]]; [discriminate|reflexivity|reflexivity].
  - destruct n as [|n]; [cbn in Hn; lia|]. cbn [map concat]. rewrite <- app_assoc. set (tl := concat (map enc_entry es) ++ rest).
    destruct (enc_num_spec _ H1) as (L1 & P1 & b & r & Eb & Hb). destruct (enc_num_spec _ H2) as (L2 & P2 & _).
    assert (skipn 24 (enc_entry e ++ tl) = tl) as Esk by (apply skipn_zlen; apply enc_entry_len; assumption).
    assert (zslice (enc_entry e ++ tl) 0 12 = enc_num (fst e)) as Ez1.
    { unfold enc_entry. rewrite <- app_assoc. rewrite zslice_app_l by lia. apply zslice_all. lia. }
    assert (zslice (enc_entry e ++ tl) 12 12 = enc_num (snd e)) as Ez2.
    { unfold enc_entry. rewrite <- app_assoc. rewrite zslice_app_r by lia. rewrite L1. rewrite zslice_app_l by lia. apply zslice_all. lia. }
    cbn [old_entries]. rewrite Ez1, Ez2, P1, P2, Esk.
    assert (exists r', enc_entry e ++ tl = b :: r') as (r' & Er) by (unfold enc_entry; rewrite Eb; eexists; reflexivity).
    rewrite Er. assert ((b =? 0)%N = false) as -> by (apply N.eqb_neq; exact Hb). unfold tl. rewrite IH; [destruct e; reflexivity|cbn in Hn; lia|].
    destruct Hr as [Hr|Hr]; [left; cbn in Hr; lia|right; exact Hr].
Qed.

Lemma zeros_len n : 0 <= n -> zlen (zeros n) = n.
Proof. intros H. unfold zeros, zlen. rewrite repeat_length. lia. Qed.
Lemma zeros_cases n : zeros n = [] \/ exists r, zeros n = 0%N :: r.
Proof. unfold zeros. destruct (Z.to_nat n); [left; reflexivity|right; eexists; reflexivity]. Qed.

Lemma enc_array_len k es more : map_ok es -> zlen es <= k -> zlen (enc_array k es more) = 24 * k + 1.
Proof. intros H Hk. unfold enc_array. rewrite !zlen_app, enc_entries_len by exact H. rewrite zeros_len by lia. destruct more; change (zlen [_]) with 1; lia. Qed.

Lemma old_array_spec k es more post : map_ok es -> zlen es <= k -> 0 <= k -> zlen post <= 22 ->
  old_entries (length (enc_array k es more ++ post) / 24) (enc_array k es more ++ post) = Some es /\
  is_extended (enc_array k es more ++ post) = more.
Proof.
  intros Hes Hk H0 Hp. pose proof (zlen_nonneg post) as Hp0. pose proof (zlen_nonneg es) as He0.
  assert (zlen (enc_array k es more ++ post) / 24 = k) as Ediv.
  { rewrite zlen_app, enc_array_len by assumption. symmetry. apply (Z.div_unique _ _ _ (1 + zlen post)); lia. }
  split.
  - assert (length (enc_array k es more ++ post) / 24 = Z.to_nat k)%nat as ->.
    { unfold zlen in Ediv. apply Nat2Z.inj. rewrite Nat2Z.inj_div. change (Z.of_nat 24) with 24. rewrite Ediv. lia. }
    unfold enc_array. rewrite <- !app_assoc. apply old_entries_spec; [exact Hes|unfold zlen in Hk; lia|].
    destruct (Z.eq_dec (zlen es) k) as [E|E]; [left; unfold zlen in E; lia|]. right. right.
    destruct (zeros_cases (24 * (k - zlen es))) as [Ez|(r & Er)]; [|rewrite Er; eexists; reflexivity].
    exfalso. apply (f_equal (@zlen N)) in Ez. rewrite zeros_len in Ez by lia. change (zlen (@nil N)) with 0 in Ez. lia.
  - unfold is_extended. rewrite Ediv. unfold enc_array. rewrite <- !app_assoc.
    rewrite zget_app_r by (rewrite enc_entries_len by exact Hes; lia). rewrite enc_entries_len by exact Hes.
    rewrite zget_app_r by (rewrite zeros_len by lia; lia). rewrite zeros_len by lia.
    replace (24 * k - 24 * zlen es - 24 * (k - zlen es)) with 0 by ring. destruct more; reflexivity.
Qed.

Definition group_ok (g : list (Z * Z)) : Prop := map_ok g /\ zlen g <= 21.

Lemma old_map_spec groups : Forall group_ok groups -> forall fuel k es data post, map_ok es -> zlen es <= k -> 0 <= k -> zlen post <= 22 ->
  (length groups <= fuel)%nat ->
  old_map fuel (enc_array k es (match groups with [] => false | _ => true end) ++ post) (enc_extensions groups ++ data) = Some (es ++ concat groups).
Proof.
  induction 1 as [|g groups [Hg Hgl] Hgs IH]; intros fuel k es data post Hes Hk H0 Hp Hf.
  - destruct (old_array_spec k es false post Hes Hk H0 Hp) as [E1 E2]. destruct fuel; cbn [old_map]; rewrite E1, E2; cbn [concat]; rewrite app_nil_r; reflexivity.
  - destruct (old_array_spec k es true post Hes Hk H0 Hp) as [E1 E2]. destruct fuel as [|fuel]; [cbn in Hf; lia|]. cbn [old_map]. rewrite E1, E2.
    cbn [enc_extensions]. set (more := match groups with [] => false | _ => true end). rewrite <- !app_assoc.
    assert (zlen (enc_array 21 g more ++ zeros 7) = 512) as Hl by (rewrite zlen_app, enc_array_len, zeros_len by (try assumption; lia); reflexivity).
    rewrite app_assoc. set (blk := enc_array 21 g more ++ zeros 7) in *.
    assert (zlen (blk ++ enc_extensions groups ++ data) <? 512 = false) as -> by (rewrite zlen_app; pose proof (zlen_nonneg (enc_extensions groups ++ data)); lia).
    assert (zslice (blk ++ enc_extensions groups ++ data) 0 512 = blk) as -> by (rewrite zslice_app_l by lia; apply zslice_all; lia).
    rewrite skipn_zlen by exact Hl. unfold blk, more. rewrite (IH fuel 21 g data (zeros 7)); [cbn [concat]; reflexivity|exact Hg|exact Hgl|lia| |cbn in Hf; lia].
    rewrite zeros_len; lia.
Qed.

Lemma enc_ext_len groups : Forall group_ok groups -> (length groups <= length (enc_extensions groups))%nat.
Proof.
  induction 1 as [|g groups [Hg Hgl] _ IH]; [cbn; lia|]. cbn [enc_extensions length]. rewrite !app_length.
  assert (length (enc_array 21 g match groups with [] => false | _ => true end) = 505%nat) as ->.
  { apply Nat2Z.inj. change (zlen (enc_array 21 g match groups with [] => false | _ => true end) = 505). rewrite enc_array_len by assumption. reflexivity. }
  lia.
Qed.

Lemma map_old_roundtrip pre first groups post data : zlen pre = 386 -> zlen post = 29 -> map_ok first -> zlen first <= 4 -> Forall group_ok groups ->
  read_map_old (enc_header pre first groups post) (enc_extensions groups ++ data) = Some (first ++ concat groups).
Proof.
  intros Hpre Hpost Hf Hfl Hg. unfold read_map_old, enc_header.
  set (arr := enc_array 4 first match groups with [] => false | _ => true end).
  assert (zlen arr = 97) as Hl by (unfold arr; rewrite enc_array_len by assumption; reflexivity).
  assert (zslice (pre ++ arr ++ post) 386 97 = arr ++ []) as ->.
  { rewrite zslice_app_r by lia. rewrite Hpre. rewrite zslice_app_l by lia. rewrite app_nil_r. apply zslice_all. lia. }
  unfold arr. apply old_map_spec; [exact Hg|exact Hf|exact Hfl|lia|change (zlen (@nil N)) with 0; lia|].
  rewrite app_length. pose proof (enc_ext_len groups Hg). lia.
Qed.
