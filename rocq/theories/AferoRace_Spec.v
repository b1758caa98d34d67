(* What several goroutines may expect of aferofs/synth. *)
From Verif Require Import Common AferoRace_Model.
Open Scope nat_scope.

(* A goroutine has made all its calls, which returned [rs]. *)
Definition returned (m : machine) (i : nat) (rs : list res) : Prop :=
  exists g, nth_error (m_gors m) i = Some g /\ g_proc g = Ret rs.

(* How often a goroutine has had its turn. *)
Definition turns (i : nat) (sched : list nat) : nat := length (filter (Nat.eqb i) sched).

(* As many steps as a call can need. *)
Definition cost (c : call) : nat :=
  match c with
  | Mkdir p => 2 * length (fst p) + 3
  | MkdirAll p => 4 * length p
  | Open p _ _ _ => 2 * length (fst p) + 3
  | Remove p => 2 * length (fst p) + 4
  | Rename o n => 2 * length (fst o) + 2 * length (fst n) + 7
  | Stat p => 2 * length (fst p) + 1
  end.
Fixpoint costs (cs : list call) : nat := match cs with [] => 0 | c :: r => cost c + costs r end.

(* Directory [d] has an entry [c] for [u]. *)
Definition entry (h : heap) (d : id) (c : nat) (u : id) : Prop := exists n es, h d = Some (Dir n es) /\ In (c, u) es.
(* A path leads from a directory to an object. *)
Fixpoint leads (h : heap) (d : id) (ps : list nat) (u : id) : Prop :=
  match ps with [] => d = u | c :: r => exists x, entry h d c x /\ leads h x r u end.
Definition a_dir (h : heap) (u : id) : Prop := exists n es, h u = Some (Dir n es).
Definition called (h : heap) (u : id) (c : nat) : Prop := h u = Some (File c) \/ exists es, h u = Some (Dir c es).

(* The list and the map of a directory agree: each name once, for an object of that name. *)
Definition tidy (h : heap) : Prop :=
  forall d n es, h d = Some (Dir n es) -> NoDup (map fst es) /\ forall c u, In (c, u) es -> called h u c.
(* Nothing there was made by a goroutine that is about to start. *)
Definition nobodys (h : heap) : Prop := forall i n, h (S i, n) = None.

(* Calls that only make and find, and the names they make. *)
Definition only_makes (c : call) : Prop :=
  match c with Mkdir _ | MkdirAll _ | Open _ _ _ _ | Stat _ => True | Remove _ | Rename _ _ => False end.
Definition makes (c : call) : list nat :=
  match c with Mkdir p => [snd p] | MkdirAll p => p | Open p true _ _ => [snd p] | _ => [] end.
(* No name is made by two goroutines. *)
Definition own_names (scripts : list (list call)) : Prop :=
  forall i j cs cs' c c' a, i <> j -> nth_error scripts i = Some cs -> nth_error scripts j = Some cs' ->
    In c cs -> In c' cs' -> In a (makes c) -> In a (makes c') -> False.

(* What a call of goroutine [i] said is so: what it made or found is where it said. *)
Definition holds (i : nat) (h : heap) (c : call) (r : res) : Prop :=
  match c, r with
  | Mkdir p, Done => exists u, leads h root (fst p ++ [snd p]) u /\ a_dir h u /\ fst u = S i
  | MkdirAll p, Done => exists u, leads h root p u /\ a_dir h u
  | Open p _ excl _, Got u => leads h root (fst p ++ [snd p]) u /\ (excl = true -> fst u = S i)
  | Stat p, Got u => leads h root (fst p ++ [snd p]) u
  | _, _ => True
  end.

(* The path of a call lies below the directory named [t]. *)
Definition below (t : nat) (p : path) : Prop := match fst p with c :: _ => c = t | [] => False end.
Definition works_below (t : nat) (c : call) : Prop :=
  match c with
  | Mkdir p | Open p _ _ _ | Remove p | Stat p => below t p
  | MkdirAll p => match p with c :: _ => c = t | [] => False end
  | Rename o n => below t o /\ below t n
  end.
(* Each of [k] goroutines has a directory in the root for itself, with all that is below it:
   [mine i] holds the objects there, and those the goroutine will make. *)
Definition apart (k : nat) (h : heap) (mine : nat -> id -> Prop) (top : nat -> nat) (home : nat -> id) : Prop :=
  (forall i, i < k -> entry h root (top i) (home i)) /\
  (forall i, i < k -> mine i (home i)) /\
  (forall i, i < k -> ~ mine i root) /\
  (forall i n, i < k -> mine i (S i, n)) /\
  (forall i j u, i < k -> j < k -> mine i u -> mine j u -> i = j) /\
  (forall i d c u, i < k -> mine i d -> entry h d c u -> mine i u).

(* Two exclusive creations of one name do not both succeed. *)
Definition exclusive : Prop :=
  forall p sched u v,
    let m := run (machine_of fresh [[Open p true true true]; [Open p true true true]]) sched in
    returned m 0 [Got u] -> returned m 1 [Got v] -> False.
(* While nobody removes or renames, what a call made or found stays where it said. *)
Definition keeps : Prop :=
  forall scripts sched i cs rs,
    Forall (Forall only_makes) scripts -> nth_error scripts i = Some cs ->
    let m := run (machine_of fresh scripts) sched in
    returned m i rs -> Forall2 (holds i (m_heap m)) cs rs.
(* Remove takes away only directories without entries: a file created below a directory is
   still there, or one of the two calls failed. *)
Definition removes_empty : Prop :=
  forall h d c sched u,
    tidy h -> nobodys h ->
    let m := run (machine_of h [[Remove ([], d)]; [Open ([d], c) true true true]]) sched in
    returned m 0 [Done] -> returned m 1 [Got u] -> leads (m_heap m) root [d; c] u.
(* Rename is one step to everybody else: who does not find the old name any more finds the new
   one. *)
Definition renames_at_once : Prop :=
  forall h a b sched x r,
    tidy h -> nobodys h -> leads h root [a] x -> (exists z, leads h root [b] z) ->
    let m := run (machine_of h [[Rename ([], a) ([b], a)]; [Stat ([], a); Stat ([b], a)]]) sched in
    returned m 0 [Done] -> returned m 1 [Fail ENoEnt; r] -> exists u, r = Got u.
(* An object has at most one name, if it had one. *)
Definition one_place (h : heap) : Prop := forall d c d' c' u, entry h d c u -> entry h d' c' u -> d = d' /\ c = c'.
Definition stays_in_one_place : Prop :=
  forall h scripts sched, tidy h -> nobodys h -> one_place h -> one_place (m_heap (run (machine_of h scripts) sched)).
(* Everything stays reachable while nobody removes anything and nothing is replaced. *)
Definition renames_lose_nothing : Prop :=
  forall h a b sched x y,
    tidy h -> nobodys h -> one_place h -> leads h root [a] x -> leads h root [b] y ->
    let m := run (machine_of h [[Rename ([], a) ([b], a)]; [Rename ([], b) ([a], b)]]) sched in
    returned m 0 [Done] -> returned m 1 [Done] -> exists ps, leads (m_heap m) root ps x.

(* What a call may answer, whatever the others do meanwhile: which errors belong to which call.
   Renaming a name to itself succeeds, and moving a directory below itself is refused at once. *)
Definition lost (e : aerr) : Prop := e = ENoEnt \/ e = ENotDir.
Definition whole (p : path) : list nat := fst p ++ [snd p].
Definition above (o n : path) : Prop := exists a r, whole n = whole o ++ a :: r.
Definition answers (c : call) (r : res) : Prop :=
  match c with
  | Mkdir _ => r = Done \/ r = Fail EExist \/ exists e, r = Fail e /\ lost e
  | MkdirAll _ => r = Done \/ r = Fail ENotDir
  | Open _ create excl write =>
      (exists u, r = Got u) \/ (excl = true /\ r = Fail EExist) \/ (excl = false /\ write = true /\ r = Fail EIsDir) \/ exists e, r = Fail e /\ lost e
  | Remove _ => r = Done \/ r = Fail ENotEmpty \/ exists e, r = Fail e /\ lost e
  | Rename o n =>
      (whole o = whole n -> r = Done) /\ (r = Fail EInval <-> above o n) /\
      (r = Done \/ r = Fail EInval \/ r = Fail EIsDir \/ r = Fail ENotEmpty \/ exists e, r = Fail e /\ lost e)
  | Stat _ => (exists u, r = Got u) \/ exists e, r = Fail e /\ lost e
  end.
