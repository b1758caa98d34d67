(* What C51 says: the maps and the table hold the same marks, and both hold the marks of the
   component-name model of Overlay_Model. *)
From Verif Require Import Common ContentRange_Model PathLex_Model PathLex_Proofs TempName_Model Overlay_Model Masks_Model.
Open Scope nat_scope.

(* The same sets of names. *)
Definition same_names (a b : list (list byte)) : Prop := forall n, In n a <-> In n b.
Definition same_masks (a b : mask) : Prop := same_names (m_wh a) (m_wh b) /\ same_names (m_op a) (m_op b).

(* A well-kept table: one row a name, every name clean, no row without a mark. *)
Definition kept (t : table) : Prop :=
  NoDup (map r_path t) /\ Forall (fun r => clean_name (r_path r) = r_path r) t /\ Forall (fun r => r_wh r || r_op r = true) t.

(* The maps are what a restart would load. *)
Definition in_step (w : world) : Prop := same_masks (mem w) (new_mask (disk w)).

(* No failed transaction reached the disk since the last restart. *)
Fixpoint reported_since (ok : bool) (es : list mevent) : bool :=
  match es with
  | [] => ok
  | MCall c _ landed :: r => reported_since (ok && negb landed) r
  | MRestart :: r => reported_since true r
  end.

(* What the table says about a name, read off its rows. *)
Definition row_at (t : table) (n : list byte) : bool * bool :=
  match find (at_name n) t with Some r => (r_wh r, r_op r) | None => (false, false) end.

(* Names of Overlay_Model that have a string: every component an ordinary name. *)
Definition nameable (p : path) : Prop := Forall proper p.
Definition stands (paths : list path) (names : list (list byte)) : Prop :=
  NoDup paths /\ Forall nameable paths /\ NoDup names /\ same_names names (map key paths).
Definition stands_layer (l : layer) (m : mask) : Prop := stands (l_wh l) (m_wh m) /\ stands (l_op l) (m_op m).
Definition stands_top (s : stack) (m : mask) : Prop := match s with [] => False | l :: _ => stands_layer l m end.

(* The mutators of Overlay_Model and their names there. *)
Inductive pcall :=
| PSetWh (p : path) | PClearWh (p : path) | PSetOp (p : path) | PClearOp (p : path)
| PClearSubtree (p : path) | PRenameSubtree (o n : path).
Definition pcall_names (c : pcall) : list path :=
  match c with
  | PSetWh p | PClearWh p | PSetOp p | PClearOp p | PClearSubtree p => [p]
  | PRenameSubtree o n => [o; n]
  end.
Definition run_pcall (c : pcall) (s : stack) : eff :=
  match c with
  | PSetWh p => set_whiteout p s
  | PClearWh p => clear_whiteout p s
  | PSetOp p => set_opaque p s
  | PClearOp p => clear_opaque p s
  | PClearSubtree p => clear_subtree p s
  | PRenameSubtree o n => rename_subtree o n s
  end.
Definition spelled (c : pcall) : mcall :=
  match c with
  | PSetWh p => MSetWh (key p)
  | PClearWh p => MClearWh (key p)
  | PSetOp p => MSetOp (key p)
  | PClearOp p => MClearOp (key p)
  | PClearSubtree p => MClearSubtree (key p)
  | PRenameSubtree o n => MRenameSubtree (key o) (key n)
  end.
(* The stack k persistent steps into a call, counting from the stack it was made on. *)
Definition steps_of (a : eff) : list stack := fst (fst a).
Definition after_steps (s : stack) (a : eff) (k : nat) : stack := nth k (s :: steps_of a) (snd (fst a)).
