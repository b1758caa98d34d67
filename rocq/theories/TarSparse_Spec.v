(* Specification of sparse files. *)
From Verif Require Import Common MultiRead_Model TarSparse_Model.
Open Scope Z_scope.

(* A legal map: ordered, disjoint fragments inside the file; archive/tar refuses others. *)
Fixpoint legal_from (pre : Z) (spd : list (Z * Z)) (size : Z) : Prop :=
  match spd with
  | [] => pre <= size
  | (off, len) :: spd => pre <= off /\ 0 <= len /\ legal_from (off + len) spd size
  end.
Definition legal (spd : list (Z * Z)) (size : Z) : Prop := legal_from 0 spd size.

Definition stored_len (spd : list (Z * Z)) : Z := fold_right (fun e a => snd e + a) 0 spd.

(* The file described by a map and the stored bytes: fragment k lies at its offset and
   holds the stored bytes after those of the fragments before it; the rest is zero. *)
Definition is_sparse_file (spd : list (Z * Z)) (stored : list byte) (size : Z) (content : list byte) : Prop :=
  zlen content = size /\
  (forall pre off len post, spd = pre ++ (off, len) :: post -> zslice content off len = zslice stored (stored_len pre) len) /\
  (forall i, 0 <= i < size -> (forall off len, In (off, len) spd -> ~ off <= i < off + len) -> zget content i = Some 0%N).
