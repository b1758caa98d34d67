(* C27: chmod masking. *)
From Verif Require Import Common ChmodMask_Model ChmodMask_Spec ChmodMask_Proofs.
Open Scope N_scope.

(* C27: exactly the bits the platform stores survive, unchanged. *)
Theorem C27_unix_keeps_stored_bits : forall m i, N.testbit (mask_unix m) i = N.testbit m i && kept_unix i.
Proof. exact mask_unix_bits. Qed.
Print Assumptions C27_unix_keeps_stored_bits.

Theorem C27_plan9_keeps_stored_bits : forall m i, N.testbit (mask_plan9 m) i = N.testbit m i && kept_plan9 i.
Proof. exact mask_plan9_bits. Qed.
Print Assumptions C27_plan9_keeps_stored_bits.

(* C27: on Windows the permission bits become what stat reports after storing owner-write;
   the other bits stay. *)
Theorem C27_windows_permissions_as_reported :
  forall m i, N.testbit (mask_windows m) i =
    if i <? 9 then windows_stat_bit (is_dir_mode m) (N.testbit m 7) i else N.testbit m i.
Proof. exact mask_windows_bits. Qed.
Print Assumptions C27_windows_permissions_as_reported.

Theorem C27_masks_idempotent :
  forall m, mask_unix (mask_unix m) = mask_unix m /\ mask_plan9 (mask_plan9 m) = mask_plan9 m /\
    mask_windows (mask_windows m) = mask_windows m.
Proof. exact (fun m => conj (mask_unix_idem m) (conj (mask_plan9_idem m) (mask_windows_idem m))). Qed.
Print Assumptions C27_masks_idempotent.

(* 0o4755 with ModeDir, as Go flags; 0o200 alone. *)
Example C27_concrete :
  let m := N.lor (N.lor mode_dir mode_setuid) 493 in
  mask_unix m = N.lor mode_setuid 493 /\ mask_plan9 m = 493 /\
  mask_windows m = N.lor (N.lor mode_dir mode_setuid) 511 /\ mask_windows 128 = 438 /\ mask_windows 256 = 292.
Proof. repeat split; vm_compute; reflexivity. Qed.
