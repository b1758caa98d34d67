(* Which entries a clean-up takes away. *)
From Verif Require Import Common ContentRange_Model PathLex_Model PathLex_Proofs TempName_Model TempName_Spec Cleanup_Model.

(* What is at a path of names: a directory (true), a file (false), nothing. *)
Fixpoint entry_of (es : list (list byte * tree)) (c : list byte) : option tree :=
  match es with [] => None | (k, x) :: r => if bytes_eqb k c then Some x else entry_of r c end.
Fixpoint there (t : tree) (ps : list (list byte)) : option bool :=
  match ps with
  | [] => Some (match t with Node _ => true | Leaf => false end)
  | c :: r => match t with Leaf => None | Node es => match entry_of es c with Some x => there x r | None => None end end
  end.
Definition there_opt (o : option tree) (ps : list (list byte)) : option bool :=
  match o with Some t => there t ps | None => None end.

(* A directory has each name once, and names have no slash and are not "." or "..". *)
Inductive well : tree -> Prop :=
| well_leaf : well Leaf
| well_node es : NoDup (map fst es) -> Forall (fun e => proper (fst e) /\ well (snd e)) es -> well (Node es).

(* Paths at or below a path that is the policy's own. *)
Definition covered (own : list (list byte) -> Prop) (ps : list (list byte)) : Prop := exists q r, ps = q ++ r /\ own q.

(* The random policy's own: "<something>.<10 digits>.tmp" anywhere. The directory policy's: "<10 digits>.tmp" in
   the directory itself. *)
Definition random_own (ps : list (list byte)) : Prop := exists q c, ps = q ++ [c] /\ random_temp_form c.
Definition dir_own (td ps : list (list byte)) : Prop := exists c, ps = td ++ [c] /\ dir_temp_form c.

(* The path of the directory as the policy knows it. *)
Definition spelled (td : list (list byte)) : list byte := join_sep td.

Definition cleaned (own : list (list byte) -> Prop) (t : tree) (res : option tree * bool) : Prop :=
  (forall ps, ~ covered own ps -> there_opt (fst res) ps = there t ps) /\
  (snd res = true -> forall ps, covered own ps -> there_opt (fst res) ps = None).
