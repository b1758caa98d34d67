(* Model of fsutil/internal/bufpool/pool.go and aferofs/internal/bufpool: pooled slices and
   buffers over sync.Pool. *)
From Verif Require Import Common.
Open Scope Z_scope.

Definition buf_size : Z := 65536. (* pool.go:10, and the limit of PutBuf *)

(* What a pooled pointer points to: a slice header or a bytes.Buffer, with its backing array,
   length (for a buffer, of what is unread) and capacity. *)
Inductive kind := KBytes | KBuf.
Record item := Item { i_arr : nat; i_len : Z; i_cap : Z }.

(* The pool; pointers and arrays are numbered in the order they were made. [p_held] are the
   pointers handed out and not given back. *)
Record pool := Pool { p_next : nat; p_item : nat -> item; p_free : list nat; p_held : list nat }.
Definition empty_pool : pool := Pool 0 (fun _ => Item 0 0 0) [] [].

(* New (:13-16, :32-34). *)
Definition new_item (k : kind) (arr : nat) : item :=
  match k with KBytes => Item arr buf_size buf_size | KBuf => Item arr 0 0 end.

Definition set_item (st : pool) (p : nat) (it : item) : pool :=
  Pool (p_next st) (fun q => if Nat.eqb q p then it else p_item st q) (p_free st) (p_held st).
Fixpoint drop_nth (n : nat) (l : list nat) : list nat :=
  match n, l with
  | _, [] => []
  | O, _ :: l => l
  | S n, x :: l => x :: drop_nth n l
  end.

(* GetBytes, GetBuf (:19-21, :37-39): sync.Pool gives any pointer it has, or a new one. *)
Definition get (k : kind) (pick : nat) (st : pool) : pool * nat :=
  match nth_error (p_free st) pick with
  | Some p => (Pool (p_next st) (p_item st) (drop_nth pick (p_free st)) (p :: p_held st), p)
  | None =>
      let p := p_next st in
      let st := set_item st p (new_item k p) in
      (Pool (S p) (p_item st) (p_free st) (p :: p_held st), p)
  end.

(* PutBytes (:23-29), PutBuf (:41-48). The caller no longer has the pointer. *)
Definition put (k : kind) (p : nat) (st : pool) : pool :=
  let it := p_item st p in
  let gone := Pool (p_next st) (p_item st) (p_free st) (remove Nat.eq_dec p (p_held st)) in
  match k with
  | KBytes =>
      if negb (Z.eqb (i_len it) buf_size) || negb (Z.eqb (i_cap it) buf_size) then gone
      else Pool (p_next gone) (p_item gone) (p :: p_free gone) (p_held gone)
  | KBuf =>
      if Z.ltb buf_size (i_cap it) then gone
      else
        let gone := set_item gone p (Item (i_arr it) 0 (i_cap it)) in
        Pool (p_next gone) (p_item gone) (p :: p_free gone) (p_held gone)
  end.

(* What callers and the collector do. Use changes a slice or buffer in its array, or moves it to
   a fresh one. None if a caller uses or gives back what it does not have. *)
Inductive pop := PGet (pick : nat) | PUse (p : nat) (len cap : Z) (fresh : bool) | PPut (p : nat) | PCollect (n : nat).
Definition do_pop (k : kind) (st : pool) (o : pop) : option pool :=
  match o with
  | PGet pick => Some (fst (get k pick st))
  | PUse p len cap fresh =>
      if existsb (Nat.eqb p) (p_held st) && Z.leb 0 len && Z.leb len cap && (fresh || Z.leb cap (i_cap (p_item st p))) then
        if fresh then
          let st' := set_item st p (Item (p_next st) len cap) in
          Some (Pool (S (p_next st)) (p_item st') (p_free st') (p_held st'))
        else Some (set_item st p (Item (i_arr (p_item st p)) len cap))
      else None
  | PPut p => if existsb (Nat.eqb p) (p_held st) then Some (put k p st) else None
  | PCollect n => Some (Pool (p_next st) (p_item st) (drop_nth n (p_free st)) (p_held st))
  end.
Fixpoint do_pops (k : kind) (st : pool) (l : list pop) : option pool :=
  match l with
  | [] => Some st
  | o :: l => match do_pop k st o with None => None | Some st => do_pops k st l end
  end.
