(* What a walk should report, stated without the walk's control flow. *)
From Verif Require Import Common ContentRange_Model PathLex_Model PathLex_Proofs Views_Spec Walk_Model.
Open Scope Z_scope.

(* A place the walk can be: a name, the real path it was reached by, its info, the
   directories above it, and the links it may still follow. *)
Record visit := { v_path : list byte; v_real : list byte; v_info : winfo; v_chain : list wkey; v_left : Z }.

(* What a place is once links are followed. *)
Inductive shown (fs : wfs) (follow : bool) (v : visit) : list byte -> winfo -> Z -> Prop :=
| SPlain : follow && i_link (v_info v) = false -> shown fs follow v (v_real v) (v_info v) (v_left v)
| SUntold i : follow && i_link (v_info v) = true -> w_stat fs (v_path v) = Some i -> v_real v = [] -> shown fs follow v [] i (v_left v)
| SLink i r n : follow && i_link (v_info v) = true -> w_stat fs (v_path v) = Some i -> v_real v <> [] ->
    w_resolve fs (v_real v) (v_left v) = (Some r, n) -> shown fs follow v r i (v_left v - n).

Inductive broken (fs : wfs) (follow : bool) (v : visit) : option winfo -> Prop :=
| BStat : follow && i_link (v_info v) = true -> w_stat fs (v_path v) = None -> broken fs follow v None
| BLink i n : follow && i_link (v_info v) = true -> w_stat fs (v_path v) = Some i -> v_real v <> [] ->
    w_resolve fs (v_real v) (v_left v) = (None, n) -> broken fs follow v (Some i).

Definition ok_call (p r : list byte) (i : winfo) : wcall := {| c_path := p; c_real := r; c_info := Some i; c_err := false |}.
Definition err_call (p r : list byte) (i : option winfo) : wcall := {| c_path := p; c_real := r; c_info := i; c_err := true |}.

Definition push (k : option wkey) (l : list wkey) : list wkey := match k with Some k => k :: l | None => l end.
Definition new_key (k : option wkey) (l : list wkey) : Prop := match k with Some k => ~ In k l | None => True end.

(* A directory whose entries are looked at: not skipped by the callback and not one of the
   directories above it. *)
Definition entered (fs : wfs) (follow : bool) (enter : wcall -> bool) (v : visit) (r : list byte) (i : winfo) (left : Z) : Prop :=
  shown fs follow v r i left /\ i_dir i = true /\ enter (ok_call (v_path v) r i) = true /\ new_key (key_of fs (v_path v) r i) (v_chain v).

(* The real path of an entry, where there is one. *)
Definition real_below (r name : list byte) : list byte := match r with [] => [] | _ => clean (r ++ sep :: name) end.
(* The entry [name] of an entered directory. *)
Definition entry_of (fs : wfs) (v : visit) (r : list byte) (i : winfo) (left : Z) (name : list byte) (ci : winfo) : visit :=
  {| v_path := clean (join2 (v_path v) name); v_real := real_below r name; v_info := ci;
     v_chain := push (key_of fs (v_path v) r i) (v_chain v); v_left := left |}.

(* A place for which SkipDir leaves out the entries after it: it is not a directory, or its
   link leads nowhere. *)
Definition cuts (fs : wfs) (follow : bool) (enter : wcall -> bool) (v : visit) : Prop :=
  (exists r i left, shown fs follow v r i left /\ i_dir i = false /\ enter (ok_call (v_path v) r i) = false) \/
  (exists i, broken fs follow v i /\ enter (err_call (v_path v) (v_real v) i) = false).

(* An entry of an entered directory that no entry before it leaves out. *)
Inductive child_of (fs : wfs) (follow : bool) (enter : wcall -> bool) (v : visit) : visit -> Prop :=
| Child r i left pre name post ci : entered fs follow enter v r i left ->
    (snd (w_readdir fs (v_path v)) = true -> enter (err_call (v_path v) r None) = true) ->
    fst (w_readdir fs (v_path v)) = pre ++ name :: post ->
    (forall n nci, In n pre -> w_lstat fs (join2 (v_path v) n) = Some nci -> ~ cuts fs follow enter (entry_of fs v r i left n nci)) ->
    w_lstat fs (join2 (v_path v) name) = Some ci ->
    child_of fs follow enter v (entry_of fs v r i left name ci).

Inductive desc (fs : wfs) (follow : bool) (enter : wcall -> bool) (v : visit) : visit -> Prop :=
| DHere : desc fs follow enter v v
| DChild v1 v2 : child_of fs follow enter v v1 -> desc fs follow enter v1 v2 -> desc fs follow enter v v2.

(* The calls a place gives rise to. *)
Inductive reports (fs : wfs) (follow : bool) (enter : wcall -> bool) (v : visit) : wcall -> Prop :=
| RShown r i left : shown fs follow v r i left -> reports fs follow enter v (ok_call (v_path v) r i)
| RBroken i : broken fs follow v i -> reports fs follow enter v (err_call (v_path v) (v_real v) i)
| RList r i left : entered fs follow enter v r i left -> snd (w_readdir fs (v_path v)) = true -> reports fs follow enter v (err_call (v_path v) r None).

Definition start (root : list byte) (i : winfo) : visit := {| v_path := clean root; v_real := root; v_info := i; v_chain := []; v_left := 40 |}.

Definition reachable (fs : wfs) (follow : bool) (enter : wcall -> bool) (root : list byte) (v : visit) : Prop :=
  exists i, w_lstat fs root = Some i /\ desc fs follow enter (start root i) v.

(* Every directory met has a key, out of a finite set. *)
Definition keyed (fs : wfs) (follow : bool) (root : list byte) (D : list wkey) : Prop :=
  forall v r i left, reachable fs follow (fun _ => true) root v -> shown fs follow v r i left -> i_dir i = true ->
  exists k, key_of fs (v_path v) r i = Some k /\ In k D.

(* A callback that never ends the walk: it goes on or leaves out. *)
Definition goes_on (d : wcall -> wret) : Prop := forall c, d c = Cont \/ d c = SkipDir.
Definition enters (d : wcall -> wret) (c : wcall) : bool := match d c with Cont => true | _ => false end.

(* No listed name is gone when it is looked at. *)
Definition steady (fs : wfs) (follow : bool) (enter : wcall -> bool) (root : list byte) : Prop :=
  forall v r i left name, reachable fs follow enter root v -> entered fs follow enter v r i left ->
  In name (fst (w_readdir fs (v_path v))) -> w_lstat fs (join2 (v_path v) name) <> None.

(* Listings name each entry once. *)
Definition proper_listings (fs : wfs) : Prop := forall p, Forall proper (fst (w_readdir fs p)) /\ NoDup (fst (w_readdir fs p)).

Definition succeeded (l : list wcall) : list (list byte) := map c_path (filter (fun c => negb (c_err c)) l).

Definition carries_on (r : wret) : bool := match r with Cont | SkipDir => true | _ => false end.

(* After an answer that ends the walk nothing more is called, and that answer is the result. *)
Fixpoint obeys (fn : list wcall -> wcall -> wret) (log new : list wcall) (rt : wret) : Prop :=
  match new with
  | [] => carries_on rt = true
  | c :: new' => if carries_on (fn log c) then obeys fn (log ++ [c]) new' rt else new' = [] /\ rt = fn log c
  end.
