(* Specification of chmod masking: which bits a platform keeps, and what it reports. *)
From Verif Require Import Common.
Open Scope N_scope.

(* os.Chmod: on Unix the permission bits, setuid, setgid and sticky; on Plan 9 the
   permission bits, append, exclusive and temporary. *)
Definition kept_unix (i : N) : bool := (i <? 9) || (i =? 23) || (i =? 22) || (i =? 20).
Definition kept_plan9 (i : N) : bool := (i <? 9) || (i =? 30) || (i =? 29) || (i =? 28).

(* Windows stores one bit, owner-write; stat then reports these permission bits
   (read for all, write for all iff writable, search for all iff a directory). *)
Definition windows_stat_bit (dir writable : bool) (i : N) : bool :=
  if (i =? 2) || (i =? 5) || (i =? 8) then true          (* r *)
  else if (i =? 1) || (i =? 4) || (i =? 7) then writable (* w *)
  else dir.                                              (* x *)
