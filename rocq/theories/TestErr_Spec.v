(* Specification of the error helpers: what is in an error. *)
From Verif Require Import Common TestErr_Model.
Open Scope nat_scope.

(* [inside e p x]: going down from [e], taking the wrapped error of each number in [p], gives
   [x]. *)
Inductive inside : gerr -> list nat -> gerr -> Prop :=
| in_here e : inside e [] e
| in_under i k m u n e p x : nth_error u n = Some e -> inside e p x -> inside (G i k m u) (n :: p) x.

Definition stands_for (t x : gerr) : Prop :=
  match t, x with G i _ _ _, G j _ m _ => i = j \/ In i m end.
Definition of_kind (k : nat) (x : gerr) : Prop := match x with G _ k' _ _ => k' = k end.

(* [p] is met before [q] on the way through an error from top and left. *)
Fixpoint sooner (p q : list nat) : Prop :=
  match p, q with
  | [], _ :: _ => True
  | _, [] => False
  | a :: p, b :: q => a < b \/ (a = b /\ sooner p q)
  end.

(* [x] is the first of its kind in [e]. *)
Definition first_of (k : nat) (e x : gerr) : Prop :=
  exists p, inside e p x /\ of_kind k x /\ forall q y, inside e q y -> of_kind k y -> q = p \/ sooner p q.
