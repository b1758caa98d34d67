(* What sqlite relies on. *)
From Verif Require Import Common PathLex_Model FileClient_Model FileClient_Spec SqlVfs_Model.
Open Scope nat_scope.

Definition file_at (s : vstate) (i : nat) (f : vfile) : Prop := nth_error (vs_files s) i = Some f.

(* No handle that may write beside another handle that may read, of those between calls. *)
Definition excludes (s : vstate) : Prop :=
  forall i j f g, i <> j -> file_at s i f -> file_at s j g -> v_pc f = Idle -> v_pc g = Idle ->
    l_reserved <= v_level f -> v_level g = l_none.

(* A handle between calls that holds SHARED or more sees the version it came up with. *)
Definition current (s : vstate) : Prop :=
  forall i f, file_at s i f -> v_pc f = Idle -> l_shared <= v_level f -> v_snap f = vs_version s.

(* No lock system call fails. *)
Definition no_failure (o : vop) : Prop := match o with AFail _ | AUnlockFail _ _ => False | _ => True end.

(* None fails but for the one that releases a lock. *)
Definition survives (o : vop) : Prop := match o with AFail _ => False | _ => True end.

(* Lock levels as sqlite asks for them. *)
Definition asks (o : vop) : Prop :=
  match o with ALock _ l => l <= l_exclusive | AUnlock _ l | AUnlockFail _ l => l <= l_shared | _ => True end.

(* Nobody changes a lock that is held other than by giving it up. *)
Definition no_conversion (s : vstate) (o : vop) : Prop :=
  match o with
  | ALock i l => forall f, file_at s i f -> v_level f = l_none \/ l_reserved <= v_level f \/ l <= v_level f
  | AUnlock i l => forall f, file_at s i f -> l = l_none \/ v_level f <= l
  | _ => True
  end.
Fixpoint no_conversions (s : vstate) (ops : list vop) : Prop :=
  match ops with [] => True | o :: ops => no_conversion s o /\ no_conversions (vstep s o) ops end.

(* How sqlite reads a URI: the path stops at the first query or fragment and is decoded. *)
Definition uri_name (u : list byte) : option (list byte) :=
  match cut_prefix file_scheme u with Some r => unescape (url_path r) | None => None end.
