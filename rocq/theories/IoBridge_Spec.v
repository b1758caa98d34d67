(* What may cross the io/fs bridges, said without the code's tests. *)
From Coq Require Import Permutation Sorted.
From Verif Require Import Common ContentRange_Model PathLex_Model PathLex_Proofs Utf8_Model Utf8_Spec Views_Model Views_Spec IoBridge_Model.
Open Scope Z_scope.

(* Text: encoded Unicode scalar values. *)
Definition valid_text (p : list byte) : Prop := exists cs, Forall scalar cs /\ p = encode_all cs.
(* What io/fs calls a valid path: text; the dot, or ordinary elements joined by slashes. *)
Definition valid_name (p : list byte) : Prop :=
  valid_text p /\ (p = [dot] \/ exists l, l <> [] /\ Forall proper l /\ p = join_sep l).
Definition no_nul (p : list byte) : Prop := ~ In 0%N p.

Definition counterpart (o : ioop) : vop :=
  match o with
  | IOpen => WOpen | IReadDir => WReadDir | IReadFile => WReadFile | IReadLink => WReadLink
  | ILstat => WLstat | IStat => WStat | ISub => WSub
  end.
(* The question a reading call puts, and its name. *)
Definition asks (fl : oflags) (c : fcall) : option (ioop * list byte) :=
  match c with
  | FC (V1 Lstat n) => Some (ILstat, n)
  | FC (V1 Stat n) => Some (IStat, n)
  | FC (V1 ReadLink n) => Some (IReadLink, n)
  | FC (V1 Open n) => Some (IOpen, n)
  | FC _ => None
  | FCOpenFile n flag =>
      if (Z.land flag (f_wronly fl) =? 0) && (Z.land flag (f_rdwr fl) =? 0) && (Z.land flag (f_append fl) =? 0) &&
         (Z.land flag (f_create fl) =? 0) && (Z.land flag (f_trunc fl) =? 0)
      then Some (IOpen, n) else None
  end.

(* Names in the order of their bytes. *)
Inductive bytes_le : list byte -> list byte -> Prop :=
| le_nil b : bytes_le [] b
| le_less x y a b : (x < y)%N -> bytes_le (x :: a) (y :: b)
| le_same x a b : bytes_le a b -> bytes_le (x :: a) (x :: b).
Definition sorts {A} (sort : list (dirent A) -> list (dirent A)) : Prop :=
  forall l, Permutation l (sort l) /\ StronglySorted (fun a b => bytes_le (d_name a) (d_name b)) (sort l).
