(* Specification of the test context: what a test's calls should lead to. *)
From Coq Require Import String.
From Verif Require Import Common TestCtx_Model.
Open Scope nat_scope.
Open Scope list_scope.

(* One call as made: the variant, the call, the answer. *)
Definition made := (bool * call * res)%type.
Definition unexpected (m : made) : bool :=
  match m with (true, _, Ok _) | (false, _, Err _) => true | _ => false end.

(* What the file system sees of it: the call, and a handle nobody wanted is given back. *)
Definition block (m : made) : list ev :=
  match m with
  | (true, Create n, Ok v) => [EvCall (Create n) (Ok v); EvClose v]
  | (true, Open n, Ok v) => [EvCall (Open n) (Ok v); EvClose v]
  | (true, OpenFile n f p, Ok v) => [EvCall (OpenFile n f p) (Ok v); EvClose v]
  | (_, c, r) => [EvCall c r]
  end.

(* The answers are the file system's own, each given what it saw before. *)
Fixpoint answered (fs : list ev -> call -> res) (seen : list ev) (ms : list made) : Prop :=
  match ms with
  | [] => True
  | m :: ms => snd m = fs seen (snd (fst m)) /\ answered fs (seen ++ block m) ms
  end.

(* Lines of a message. *)
Fixpoint lines (s : text) : list text :=
  match s with
  | [] => [[]]
  | b :: s =>
      if N.eqb b 10 then [] :: lines s
      else match lines s with [] => [[b]] | x :: l => (b :: x) :: l end
  end.
Definition one_line (s : text) : Prop := Forall (fun b => b <> 10%N) s.
Definition why_of (m : made) : text :=
  match m with
  | (_, _, Ok _) => lit " succeeded, want error"
  | (_, _, Err t) => lit ": " ++ t
  end.

(* [msg] reports [m], made after [before]: it names the call and what was wrong with it, and
   its last lines are all calls so far in order, this one last. *)
Definition reports (sh : arg -> text) (before : list made) (m : made) (msg : text) : Prop :=
  (exists tail, msg = show sh (snd (fst m)) ++ why_of m ++ tail) /\
  exists front, lines msg = front ++ lit "operation history:" :: map (fun x => lit "  - " ++ show sh (snd (fst x))) (before ++ [m]).

(* The messages of a test: one for each call that went wrong, in order, none else. *)
Fixpoint all_reported (sh : arg -> text) (before ms : list made) (msgs : list text) : Prop :=
  match ms with
  | [] => msgs = []
  | m :: ms =>
      if unexpected m then exists msg rest, msgs = msg :: rest /\ reports sh before m msg /\ all_reported sh (before ++ [m]) ms rest
      else all_reported sh (before ++ [m]) ms msgs
  end.

(* fmt prints two arguments of one kind alike only if they are the same, also when something
   follows that starts like the rest of an argument list. *)
Definition same_kind (a b : arg) : bool :=
  match a, b with AName _, AName _ | AMode _, AMode _ | AInt _, AInt _ | ATime _, ATime _ => true | _, _ => false end.
Definition follows (x : text) : Prop := exists y, x = lit ")" ++ y \/ x = lit ", " ++ y.
Definition readable (sh : arg -> text) : Prop :=
  forall a b x y, same_kind a b = true -> follows x -> follows y -> sh a ++ x = sh b ++ y -> a = b.

(* A way of printing that meets this: quoted names, everything else counted out. For the
   examples. *)
Definition quote1 (b : byte) : text :=
  if N.eqb b 10 then [92; 110]%N else if N.eqb b 34 then [92; 34]%N else if N.eqb b 92 then [92; 92]%N else [b].
Definition sh_sample (a : arg) : text :=
  match a with
  | AName s => 34%N :: concat (map quote1 s) ++ [34%N]
  | AMode m => repeat 120%N (N.to_nat m)
  | AInt z | ATime z => (if Z.ltb z 0 then [45%N] else []) ++ repeat 49%N (Z.abs_nat z)
  end.
