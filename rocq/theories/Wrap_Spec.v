(* What several goroutines may expect of one wrapped handle, and of the record of their calls. *)
From Verif Require Import Common Wrap_Model.
Open Scope nat_scope.

Definition who (e : event) : nat := match e with Inv i _ | Reach i _ _ | Ret i _ _ => i end.
Definition own (i : nat) (l : list event) : list event := filter (fun e => Nat.eqb (who e) i) l.

(* Calls one after the other, the last possibly unfinished: each enters the inner file once and
   returns its answer, or is refused without entering it. Name is never refused. *)
Inductive told (i : nat) : list meth -> list event -> Prop :=
| told_nil p : told i p []
| told_made m p : told i (m :: p) [Inv i m]
| told_in m p a : told i (m :: p) [Inv i m; Reach i m a]
| told_got m p a l : told i p l -> told i (m :: p) (Inv i m :: Reach i m a :: Ret i m (Got a) :: l)
| told_refused m p l : m <> MName -> told i p l -> told i (m :: p) (Inv i m :: Ret i m Refused :: l).

(* The closes that entered the inner file. *)
Definition closings (l : list event) : list event := filter (fun e => match e with Reach _ MClose _ => true | _ => false end) l.
(* Every call made has returned. *)
Definition no_call_open (l : list event) : Prop :=
  length (filter (fun e => match e with Inv _ _ => true | _ => false end) l) = length (filter (fun e => match e with Ret _ _ _ => true | _ => false end) l).
(* Only goroutine k closes. *)
Definition one_closer (k : nat) (progs : list (list meth)) : Prop := forall i p, nth_error progs i = Some p -> In MClose p -> i = k.

Definition owho (e : oevent) : nat := match e with OInv i _ | ORec i _ | OReach i _ _ | ORet i _ _ => i end.
Definition oown (i : nat) (l : list oevent) : list oevent := filter (fun e => Nat.eqb (owho e) i) l.

Definition noted (c : ocall) (before : bool) (x : N) : entry := {| n_fsys := c_fsys c; n_before := before; n_method := c_method c; n_args := x |}.
(* A call to the end: made, noted, passed on as it is, its answer noted and returned. *)
Definition whole (i : nat) (c : ocall) (a : N) : list oevent := [OInv i c; ORec i (noted c true (c_args c)); OReach i c a; ORec i (noted c false a); ORet i c a].
(* Such calls one after the other, the last possibly cut off. *)
Inductive recorded (i : nat) : list ocall -> list oevent -> Prop :=
| rec_nil p : recorded i p []
| rec_part c p a l r : whole i c a = l ++ r -> r <> [] -> recorded i (c :: p) l
| rec_whole c p a l : recorded i p l -> recorded i (c :: p) (whole i c a ++ l).

Definition records (l : list oevent) : list entry := flat_map (fun e => match e with ORec _ n => [n] | _ => [] end) l.
Definition count (fsys before : bool) (method : N) (h : list entry) : nat :=
  length (filter (fun n => Bool.eqb (n_fsys n) fsys && Bool.eqb (n_before n) before && N.eqb (n_method n) method) h).
Definition all_answered (l : list oevent) : Prop :=
  length (filter (fun e => match e with OInv _ _ => true | _ => false end) l) = length (filter (fun e => match e with ORet _ _ _ => true | _ => false end) l).
