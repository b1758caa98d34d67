(* Model of fsutil/chmod_mask.go: fs.FileMode as a number, one bit per flag. *)
From Verif Require Import Common.
Open Scope N_scope.

Definition mode_perm : N := 511.                  (* 0o777 *)
Definition mode_dir : N := N.shiftl 1 31.
Definition mode_append : N := N.shiftl 1 30.
Definition mode_exclusive : N := N.shiftl 1 29.
Definition mode_temporary : N := N.shiftl 1 28.
Definition mode_setuid : N := N.shiftl 1 23.
Definition mode_setgid : N := N.shiftl 1 22.
Definition mode_sticky : N := N.shiftl 1 20.

(* chmod_mask.go:9-13. *)
Definition chmod_mask_plan9 : N := N.lor mode_perm (N.lor mode_append (N.lor mode_exclusive mode_temporary)).
Definition chmod_mask_unix : N := N.lor mode_perm (N.lor mode_setuid (N.lor mode_setgid mode_sticky)).

(* :22-29. *)
Definition mask_plan9 (m : N) : N := N.land m chmod_mask_plan9.
Definition mask_unix (m : N) : N := N.land m chmod_mask_unix.

Definition is_dir_mode (m : N) : bool := negb (N.land m mode_dir =? 0).

(* MaskChmodModeWindows (:34-46); 438 = 0o666, 365 = 0o555, 292 = 0o444. *)
Definition mask_windows (m : N) : N :=
  let writable := negb (N.land 128 m =? 0) in
  if is_dir_mode m then
    if writable then N.lor m mode_perm else N.lor (N.ldiff m mode_perm) 365
  else
    if writable then N.lor (N.ldiff m mode_perm) 438 else N.lor (N.ldiff m mode_perm) 292.
