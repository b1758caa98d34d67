(* What several goroutines may see of one file: an order of the calls in which each happened
   at once, between its call and its return. *)
From Verif Require Import Common Views_Model MemBuf_Model MemBuf_Spec MemRace_Model.
Open Scope Z_scope.

Definition to_mop (o : cop) : mop :=
  match o with
  | CRead n => MRead n | CReadAt n off => MReadAt n off | CWrite p => MWrite p | CWriteAt p off => MWriteAt p off
  | CSeek off w => MSeek off w | CTruncate n => MTruncate n | CStat => MStat | CClose => MClose
  end.

(* A call that happened: goroutine, handle, call, result. *)
Definition item : Type := nat * nat * cop * mres.
Definition refused : mres := MOk 0 [] e_closed.
Definition can_be_refused (o : cop) : Prop := match o with CStat | CClose => False | _ => True end.

(* One call on the abstract file: refused without effect, or what the file says; writing
   through a handle not opened for it is EBADF whatever else the flags say. *)
Definition happens (fl : oflags) (f : afile) (h : nat) (o : cop) (r : mres) (f' : afile) : Prop :=
  (can_be_refused o /\ r = refused /\ f' = f) \/
  match o, nth_error (a_handles f) h with
  | CWriteAt _ _, Some c =>
      if writable fl (h_flag c) then a_step fl f (h, to_mop o) = (f', Some r) else f' = f /\ r = MOk 0 [] e_badf
  | _, _ => a_step fl f (h, to_mop o) = (f', Some r)
  end.
Inductive legal (fl : oflags) (f : afile) : list item -> afile -> Prop :=
| legal_nil : legal fl f [] f
| legal_snoc l f1 i h o r f2 : legal fl f l f1 -> happens fl f1 h o r f2 -> legal fl f (l ++ [(i, h, o, r)]) f2.

(* What a goroutine called, what it was returned, what of it is in the order. *)
Definition invs (i : nat) (e : list event) : list (nat * cop) :=
  flat_map (fun x => match x with Inv j h o => if Nat.eqb j i then [(h, o)] else [] | _ => [] end) e.
Definition rets (i : nat) (e : list event) : list (nat * cop * mres) :=
  flat_map (fun x => match x with Ret j h o r => if Nat.eqb j i then [(h, o, r)] else [] | _ => [] end) e.
Definition of (i : nat) (l : list item) : list (nat * cop * mres) :=
  flat_map (fun x => match x with (j, h, o, r) => if Nat.eqb j i then [(h, o, r)] else [] end) l.
Definition begins {A} (a b : list A) : Prop := exists c, b = a ++ c.

(* At the moment of [e]: what was returned is in the order, what is in the order was called. *)
Definition placed (e : list event) (l : list item) : Prop :=
  forall i, begins (rets i e) (of i l) /\ begins (map fst (of i l)) (invs i e).
(* Every moment of a history has its place in the order: a call that returned before another
   was made comes before it. *)
Definition in_order (e : list event) (l : list item) : Prop :=
  forall e1 e2, e = e1 ++ e2 -> exists l1 l2, l = l1 ++ l2 /\ placed e1 l1.

Definition bytes_of (f : afile) : list byte := a_range f 0 (a_len f).

(* The calls are on open handles, with arguments Go's types admit. *)
Definition calls_ok (n : nat) (progs : list (list (nat * cop))) : Prop :=
  Forall (Forall (fun c => (fst c < n)%nat /\ op_fits (fst c, to_mop (snd c)))) progs.

(* A call that may change the bytes. *)
Definition changes (fl : oflags) (flag : Z) (o : cop) : Prop :=
  match o with
  | CWrite _ | CTruncate _ => writable fl flag = true
  | CWriteAt _ _ => writable fl flag = true /\ appends fl flag = false
  | _ => False
  end.
(* If somebody appends, all changes are appends through that one handle. *)
Definition orderly (fl : oflags) (hs : list handle) (progs : list (list (nat * cop))) : Prop :=
  forall h c p, In (h, CWrite p) (concat progs) -> nth_error hs h = Some c ->
    writable fl (h_flag c) = true -> appends fl (h_flag c) = true ->
    forall h' c' o', In (h', o') (concat progs) -> nth_error hs h' = Some c' -> changes fl (h_flag c') o' ->
      h' = h /\ exists p', o' = CWrite p'.

(* Memory for any file there can be. *)
Definition roomy (g : goheap) : Prop := max_int64 <= max_alloc g.

(* Some order explains a history ending with [b] in the file. *)
Definition explained (fl : oflags) (f : afile) (e : list event) (b : list byte) : Prop :=
  exists l f', legal fl f l f' /\ placed e l /\ in_order e l /\ b = bytes_of f'.

(* In a history: a Close of [h] returned, then goroutine [i] called [o] on [h] and got [r]. *)
Definition made_by (i : nat) (x : event) : Prop := match x with Inv j _ _ | Ret j _ _ _ => j = i end.
Definition called_after_close (e : list event) (i h : nat) (o : cop) (r : mres) : Prop :=
  exists e1 j x e2 e3 e4, e = e1 ++ Ret j h CClose x :: e2 ++ Inv i h o :: e3 ++ Ret i h o r :: e4 /\ Forall (fun y => ~ made_by i y) e3.

(* Every goroutine was returned from every call of its program, in order. *)
Definition all_returned (progs : list (list (nat * cop))) (e : list event) : Prop :=
  forall i p, nth_error progs i = Some p -> map fst (rets i e) = p.
