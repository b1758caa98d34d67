(* What wrapping an error must keep. *)
From Verif Require Import Common Errors_Model.
Open Scope nat_scope.

(* What an error names as its causes, and its single cause if it has one. *)
Definition causes (n : node) : list (option nat) :=
  match n with
  | NLeaf _ => []
  | NPath _ _ e | NLink _ _ _ e | NPrefix _ e => [e]
  | NGather es => es
  end.
Definition cause1 (n : node) : option nat :=
  match n with NPath _ _ e | NLink _ _ _ e | NPrefix _ e => e | _ => None end.
Definition path_error (n : node) : Prop := exists op path e, n = NPath op path e.
Definition link_error (n : node) : Prop := exists op old new_ e, n = NLink op old new_ e.

(* An error wraps older errors only: Go programs make an error after its cause. *)
Definition wf (h : heap) : Prop := forall a n b, nth_error h a = Some n -> In (Some b) (causes n) -> b < a.
Definition valid (h : heap) (e : option nat) : Prop := forall a, e = Some a -> a < length h.

(* b is a or what a wraps, at any depth. *)
Inductive reaches (h : heap) : nat -> nat -> Prop :=
| R_self a : a < length h -> reaches h a a
| R_step a n b c : nth_error h a = Some n -> In (Some b) (causes n) -> reaches h b c -> reaches h a c.
(* errors.Is(e, t). *)
Definition caused (also : nat -> nat -> bool) (h : heap) (e : option nat) (t : nat) : Prop :=
  exists a b, e = Some a /\ reaches h a b /\ (b = t \/ exists m, nth_error h b = Some (NLeaf m) /\ also b t = true).

(* The errors of h are all in h' as they were. *)
Definition kept (h h' : heap) : Prop := forall x n, nth_error h x = Some n -> nth_error h' x = Some n.

(* A given string replaces another unless it is empty. *)
Definition given (s old : str) : str := match s with [] => old | _ => s end.

(* The end of the chain of single causes. *)
Inductive ends (h : heap) : nat -> nat -> Prop :=
| E_last a n : nth_error h a = Some n -> cause1 n = None -> ends h a a
| E_next a n b l : nth_error h a = Some n -> cause1 n = Some b -> ends h b l -> ends h a l.
(* The outermost PathError or LinkError of the chain. *)
Inductive outermost (h : heap) : nat -> node -> Prop :=
| O_path a op path e : nth_error h a = Some (NPath op path e) -> outermost h a (NPath op path e)
| O_link a op old new_ e : nth_error h a = Some (NLink op old new_ e) -> outermost h a (NLink op old new_ e)
| O_prefix a p b n : nth_error h a = Some (NPrefix p (Some b)) -> outermost h b n -> outermost h a n.

(* Texts separated by ", ". *)
Fixpoint more (l : list str) : str := match l with [] => [] | y :: l => 44%N :: 32%N :: y ++ more l end.
Definition listed (l : list str) : str := match l with [] => [] | x :: l => x ++ more l end.
