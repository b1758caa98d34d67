(* Model of fsutil/testhelper/err.go: NilErr, ErrIs, ErrAsType, ErrAsTypeAnd. *)
From Verif Require Import Common.
Open Scope nat_scope.

(* An error: its identity, its type, what its own Is method answers true for, and the errors it
   wraps: none, one or, as from errors.Join, several. *)
Inductive gerr := G (id kind : nat) (ism : list nat) (under : list gerr).
Definition g_id (e : gerr) : nat := match e with G i _ _ _ => i end.

(* errors.Is for errors that are not nil (standard library, is). *)
Fixpoint is_tree (t : nat) (e : gerr) : bool :=
  match e with
  | G i _ m u => Nat.eqb i t || existsb (Nat.eqb t) m || existsb (is_tree t) u
  end.
Definition errors_is (e t : option gerr) : bool :=
  match e, t with
  | None, None => true
  | Some e, Some t => is_tree (g_id t) e
  | _, _ => false
  end.

(* errors.As (standard library, as): the first of the type, an error before what it wraps. *)
Fixpoint as_tree (k : nat) (e : gerr) : option gerr :=
  match e with
  | G _ k' _ u =>
      if Nat.eqb k k' then Some e
      else (fix go (l : list gerr) : option gerr :=
              match l with
              | [] => None
              | x :: l => match as_tree k x with Some r => Some r | None => go l end
              end) u
  end.
Definition errors_as (k : nat) (e : option gerr) : option gerr :=
  match e with None => None | Some e => as_tree k e end.

(* What a helper does: the number of calls of Fatalf, for a T that carries on after it, the
   value returned (None for the zero value), and the values given to the callback. *)
Record outcome := Out { o_fatal : nat; o_value : option gerr; o_asked : list gerr }.

(* NilErr (:22-27). *)
Definition nil_err (e : option gerr) : outcome :=
  match e with None => Out 0 None [] | Some _ => Out 1 None [] end.

(* ErrIs (:32-37). *)
Definition err_is (e t : option gerr) : outcome :=
  if errors_is e t then Out 0 None [] else Out 1 None [].

(* ErrAsType (:41-54). *)
Definition err_as_type (k : nat) (e : option gerr) : outcome :=
  match errors_as k e with
  | None => Out 1 None []
  | Some x => Out 0 (Some x) []
  end.

(* ErrAsTypeAnd (:58-79). *)
Definition err_as_type_and (k : nat) (fn : gerr -> bool) (e : option gerr) : outcome :=
  match errors_as k e with
  | None => Out 1 None []
  | Some x => Out (if fn x then 0 else 1) None [x]
  end.
