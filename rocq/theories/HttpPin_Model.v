(* Model of concurrent pinning of the object's identity: every response of every
   goroutine goes through pinOrVerify on one shared atomic pointer. *)
From Verif Require Import Common ContentRange_Model MultiRead_Model HttpRange_Model.
Open Scope nat_scope.

(* The atomic.Pointer[objectMeta]: nil, or an allocation (identified by a number) and its
   immutable contents. Fresh allocations get fresh numbers, since the old pointer is still
   held by whoever compares against it. *)
Definition cell := option (nat * meta).
Definition contents (c : cell) : option meta := option_map snd c.
Definition same_ptr (a b : cell) : bool :=
  match a, b with
  | None, None => true
  | Some (i, _), Some (j, _) => i =? j
  | _, _ => false
  end.

(* Program counter of one pinOrVerify call (httprange.go:173-185): before Load, before
   CompareAndSwap with the loaded pointer, returned ("" is true). *)
Inductive pc := PLoad | PCas (p : cell) | PDone (ok : bool).

Record thread := { th_resp : resp; th_total : Z; th_pc : pc }.
Record shared := { sh_cell : cell; sh_next : nat }.

(* One atomic step of one thread. *)
Definition tstep (sh : shared) (t : thread) : shared * thread :=
  let go p := {| th_resp := th_resp t; th_total := th_total t; th_pc := p |} in
  match th_pc t with
  | PLoad => (sh, go (PCas (sh_cell sh)))
  | PCas p =>
      if mismatch (contents p) (th_resp t) (th_total t) then (sh, go (PDone false))
      else
        let '(filled, took) := completed_by (contents p) (meta_of_resp (th_resp t) (th_total t)) in
        if negb took then (sh, go (PDone true))
        else if same_ptr (sh_cell sh) p then
          ({| sh_cell := Some (sh_next sh, filled); sh_next := S (sh_next sh) |}, go (PDone true))
        else (sh, go PLoad)
  | PDone _ => (sh, t)
  end.

Fixpoint upd {A} (l : list A) (i : nat) (x : A) : list A :=
  match l, i with
  | [], _ => []
  | _ :: r, O => x :: r
  | y :: r, S i' => y :: upd r i' x
  end.

Definition world := (shared * list thread)%type.
Definition wstep (w : world) (i : nat) : world :=
  match nth_error (snd w) i with
  | None => w
  | Some t => let '(sh, t') := tstep (fst w) t in (sh, upd (snd w) i t')
  end.
Definition wrun (w : world) (sched : list nat) : world := fold_left wstep sched w.

(* Responses received by goroutines that all start now, the pointer holding prior
   knowledge or nil. *)
Definition winit (m : option meta) (rs : list (resp * Z)) : world :=
  ({| sh_cell := match m with None => None | Some m => Some (0, m) end; sh_next := 1 |},
   map (fun p => {| th_resp := fst p; th_total := snd p; th_pc := PLoad |}) rs).
