(* Specification of the modes and times testhelper.Setup leaves. *)
From Verif Require Import Common ContentRange_Model PathLex_Model PathLex_Proofs TempName_Model CopyFs_Model
  SetupLines_Model SetupLines_Spec SetupMeta_Model.
Open Scope nat_scope.

(* What a name stands for: its elements, for plain names. *)
Definition place (p : mproc) : list (list byte) := match p with MDir n _ _ | MFile n _ _ _ => split_sep n end.
Definition plainly_named (p : mproc) : Prop := match p with MDir n _ _ | MFile n _ _ _ => plain_name n end.
Definition named (p : mproc) : list byte := match p with MDir n _ _ | MFile n _ _ _ => n end.

(* What is asked of something that was made: the permission bits of a mode that is not 0, and
   a time, if one is given. *)
Definition as_asked (mode : N) (mtime : option Z) (n : mnode) : Prop :=
  (mode <> 0%N -> mn_mode n = N.land mode 511) /\ (forall t, mtime = Some t -> mn_time n = t).

(* [b] after [a]: the same but perhaps for the time, or a directory where nothing was. *)
Definition on_the_way (a b : option mnode) : Prop :=
  match a, b with
  | Some x, Some y => mn_bytes x = mn_bytes y /\ mn_mode x = mn_mode y
  | None, Some y => mn_bytes y = None
  | None, None => True
  | Some _, None => False
  end.

(* The same kind and bytes; or nothing, or a directory, where nothing was. *)
Definition kind_kept (a b : option mnode) : Prop :=
  match a, b with
  | Some x, Some y => mn_bytes x = mn_bytes y
  | None, Some y => mn_bytes y = None
  | None, None => True
  | Some _, None => False
  end.

(* Away from the place [c] nothing changed, but for directories strictly above it. *)
Definition only_at (c : list (list byte)) (st st' : mdisk) : Prop :=
  (forall q, q <> c -> ~ over q c -> m_at st' q = m_at st q) /\
  (forall q, q <> c -> on_the_way (m_at st q) (m_at st' q)).

(* No two entries at one place, no place outside the tree. *)
Definition apart (ps : list mproc) : Prop :=
  Forall plainly_named ps /\ NoDup (map place ps).
