(* Proofs about chmod masking. *)
From Verif Require Import Common ChmodMask_Model ChmodMask_Spec.
Open Scope N_scope.

Lemma pow2_shift k : N.shiftl 1 k = 2 ^ k.
Proof. rewrite N.shiftl_1_l. reflexivity. Qed.

Lemma perm_bit i : N.testbit mode_perm i = (i <? 9).
Proof.
  replace mode_perm with (N.ones 9) by reflexivity.
  destruct (N.ltb_spec i 9); [apply N.ones_spec_low; lia|apply N.ones_spec_high; lia].
Qed.

Lemma shift_bit k i : N.testbit (N.shiftl 1 k) i = (i =? k).
Proof.
  rewrite N.shiftl_1_l, N.pow2_bits_eqb. apply N.eqb_sym.
Qed.

Lemma unix_bit i : N.testbit chmod_mask_unix i = kept_unix i.
Proof.
  unfold chmod_mask_unix, kept_unix, mode_setuid, mode_setgid, mode_sticky.
  rewrite !N.lor_spec, perm_bit, !shift_bit. destruct (i <? 9), (i =? 23), (i =? 22), (i =? 20); reflexivity.
Qed.

Lemma plan9_bit i : N.testbit chmod_mask_plan9 i = kept_plan9 i.
Proof.
  unfold chmod_mask_plan9, kept_plan9, mode_append, mode_exclusive, mode_temporary.
  rewrite !N.lor_spec, perm_bit, !shift_bit. destruct (i <? 9), (i =? 30), (i =? 29), (i =? 28); reflexivity.
Qed.

Lemma mask_unix_bits m i : N.testbit (mask_unix m) i = N.testbit m i && kept_unix i.
Proof. unfold mask_unix. rewrite N.land_spec, unix_bit. reflexivity. Qed.

Lemma mask_plan9_bits m i : N.testbit (mask_plan9 m) i = N.testbit m i && kept_plan9 i.
Proof. unfold mask_plan9. rewrite N.land_spec, plan9_bit. reflexivity. Qed.

Lemma land_pow_test m k : negb (N.land m (N.shiftl 1 k) =? 0) = N.testbit m k.
Proof.
  destruct (N.testbit m k) eqn:E.
  - apply negb_true_iff, N.eqb_neq. intros H.
    assert (N.testbit (N.land m (N.shiftl 1 k)) k = true) as Hx by (rewrite N.land_spec, shift_bit, E, N.eqb_refl; reflexivity).
    rewrite H, N.bits_0 in Hx. discriminate.
  - apply negb_false_iff, N.eqb_eq. apply N.bits_inj. intros i. rewrite N.land_spec, shift_bit, N.bits_0.
    destruct (N.eqb_spec i k) as [->|]; [now rewrite E|apply andb_false_r].
Qed.

Lemma is_dir_bit m : is_dir_mode m = N.testbit m 31.
Proof. apply land_pow_test. Qed.

Lemma writable_bit m : negb (N.land 128 m =? 0) = N.testbit m 7.
Proof. rewrite N.land_comm. change 128 with (N.shiftl 1 7). apply land_pow_test. Qed.

Lemma small_high c i : c < 2 ^ 9 -> 9 <= i -> N.testbit c i = false.
Proof.
  intros Hc Hi. destruct (N.eq_dec c 0) as [->|Hz]; [apply N.bits_0|].
  apply N.bits_above_log2. apply N.log2_lt_pow2 in Hc; lia.
Qed.

Lemma nine_cases i : i < 9 ->
  i = 0 \/ i = 1 \/ i = 2 \/ i = 3 \/ i = 4 \/ i = 5 \/ i = 6 \/ i = 7 \/ i = 8.
Proof. lia. Qed.

Lemma mask_windows_bits m i :
  N.testbit (mask_windows m) i =
    if i <? 9 then windows_stat_bit (is_dir_mode m) (N.testbit m 7) i else N.testbit m i.
Proof.
  unfold mask_windows. rewrite writable_bit.
  destruct (N.ltb_spec i 9) as [Hi|Hi].
  - assert (forall c, N.testbit (N.lor (N.ldiff m mode_perm) c) i = N.testbit c i) as Hl.
    { intros c. rewrite N.lor_spec, N.ldiff_spec, perm_bit. destruct (N.ltb_spec i 9); [|lia].
      cbn [negb]. rewrite andb_false_r. reflexivity. }
    destruct (is_dir_mode m), (N.testbit m 7); rewrite ?Hl.
    + rewrite N.lor_spec, perm_bit. destruct (N.ltb_spec i 9); [|lia]. rewrite orb_true_r.
      destruct (nine_cases i Hi) as [->|[->|[->|[->|[->|[->|[->|[->| ->]]]]]]]]; reflexivity.
    + destruct (nine_cases i Hi) as [->|[->|[->|[->|[->|[->|[->|[->| ->]]]]]]]]; reflexivity.
    + destruct (nine_cases i Hi) as [->|[->|[->|[->|[->|[->|[->|[->| ->]]]]]]]]; reflexivity.
    + destruct (nine_cases i Hi) as [->|[->|[->|[->|[->|[->|[->|[->| ->]]]]]]]]; reflexivity.
  - assert (forall c, c < 2 ^ 9 -> N.testbit (N.lor (N.ldiff m mode_perm) c) i = N.testbit m i) as Hl.
    { intros c Hc. rewrite N.lor_spec, N.ldiff_spec, perm_bit, (small_high c i) by assumption.
      destruct (N.ltb_spec i 9); [lia|]. cbn [negb]. rewrite andb_true_r, orb_false_r. reflexivity. }
    destruct (is_dir_mode m), (N.testbit m 7); rewrite ?Hl by reflexivity; try reflexivity.
    rewrite N.lor_spec, perm_bit. destruct (N.ltb_spec i 9); [lia|]. apply orb_false_r.
Qed.

Lemma mask_windows_idem m : mask_windows (mask_windows m) = mask_windows m.
Proof.
  apply N.bits_inj. intros i. rewrite (mask_windows_bits (mask_windows m)).
  assert (is_dir_mode (mask_windows m) = is_dir_mode m) as ->.
  { rewrite !is_dir_bit, mask_windows_bits. reflexivity. }
  assert (N.testbit (mask_windows m) 7 = N.testbit m 7) as ->.
  { rewrite mask_windows_bits. destruct (is_dir_mode m); reflexivity. }
  rewrite mask_windows_bits. destruct (i <? 9); reflexivity.
Qed.

Lemma mask_unix_idem m : mask_unix (mask_unix m) = mask_unix m.
Proof. unfold mask_unix. rewrite <- N.land_assoc, N.land_diag. reflexivity. Qed.

Lemma mask_plan9_idem m : mask_plan9 (mask_plan9 m) = mask_plan9 m.
Proof. unfold mask_plan9. rewrite <- N.land_assoc, N.land_diag. reflexivity. Qed.
