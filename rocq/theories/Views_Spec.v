(* What the views promise. *)
From Verif Require Import Common ContentRange_Model PathLex_Model PathLex_Proofs Views_Model.
Open Scope Z_scope.

(* The elements of a cleaned path. *)
Definition elems (p : list byte) : list (list byte) := clean_comps (rooted p) (split_sep p).

(* [q] is [prefix] or a cleaned path below it. *)
Definition below (prefix q : list byte) : Prop :=
  exists l, Forall proper l /\ q = render (rooted prefix) (elems prefix ++ l).

(* Names that stay inside: relative, not climbing out. *)
Definition inside (name : list byte) : Prop := rooted name = false /\ Forall proper (clean_comps false (split_sep name)).

Definition paths_of (c : vcall) : list (list byte) :=
  match c with V1 _ p => [p] | VLink a b | VRename a b => [a; b] | VSymlink _ b => [b] | VRemoveAll p => [p] end.
(* The same call with other paths. *)
Definition same_call (c c' : vcall) : Prop :=
  match c, c' with
  | V1 o _, V1 o' _ => o = o'
  | VLink _ _, VLink _ _ | VRename _ _, VRename _ _ | VRemoveAll _, VRemoveAll _ => True
  | VSymlink t _, VSymlink t' _ => t = t'
  | _, _ => False
  end.
Definition removes_root (c : vcall) : Prop := match c with VRemoveAll name => elems name = [] /\ rooted name = false | _ => False end.

(* Calls that cannot change a file system. *)
Definition reads_only (fl : oflags) (c : icall) : Prop :=
  match c with
  | IRoot _ (FLstat | FStat | FReadLink | FOpen | FOpenRoot | FClose | FName) => True
  | IRoot _ (FOpenFile flag) =>
      Z.land flag (f_wronly fl) = 0 /\ Z.land flag (f_rdwr fl) = 0 /\ Z.land flag (f_append fl) = 0 /\
      Z.land flag (f_create fl) = 0 /\ Z.land flag (f_trunc fl) = 0
  | IRoot _ _ => False
  | IFile _ (HChmod | HChown | HSync | HTruncate | HWrite | HWriteAt | HWriteString) => False
  | IFile _ _ => True
  end.
