(* Model of synthfs's in-memory files (vroot/synthfs/view_mem_buf.go, view_mem.go). *)
From Verif Require Import Common Views_Model.
Open Scope Z_scope.

(* A byte slice: its backing array from the slice's start to its capacity, and its length. *)
Record slice := { s_arr : list byte; s_len : Z }.
Definition s_cap (s : slice) : Z := zlen (s_arr s).
Definition s_bytes (s : slice) : list byte := zslice (s_arr s) 0 (s_len s).

(* Go's runtime, as far as it is free: the spare capacity append leaves (a length of zeroed
   memory) and the largest allocation make accepts. *)
Record goheap := { spare : Z -> nat; max_alloc : Z }.

Inductive mres := MOk (n : Z) (data : list byte) (err : N) | MPanic.
(* Error values. *)
Definition e_nil : N := 0%N.
Definition e_eof : N := 1%N.
Definition e_badf : N := 2%N.
Definition e_inval : N := 3%N.

(* openflag.Readable, Writable (internal/openflag/flag.go:22-32) and the O_APPEND test. *)
Definition readable (fl : oflags) (flag : Z) : bool := negb (negb (Z.land flag (f_wronly fl) =? 0) && (Z.land flag (f_rdwr fl) =? 0)).
Definition writable (fl : oflags) (flag : Z) : bool := negb (Z.land flag (Z.lor (f_wronly fl) (f_rdwr fl)) =? 0).
Definition appends (fl : oflags) (flag : Z) : bool := negb (Z.land flag (f_append fl) =? 0).

(* memBuf.readAt (:51-65). *)
Definition read_at (b : slice) (n off : Z) : mres :=
  if off <? 0 then MOk 0 [] e_inval
  else if s_len b <=? off then MOk 0 [] e_eof
  else
    let d := zslice (s_bytes b) off n in
    MOk (zlen d) d (if zlen d <? n then e_eof else e_nil).

(* grow (:106-112): reslice within the capacity, or append a made slice of zeroes. *)
Definition grow (g : goheap) (b : slice) (by_ : Z) : option slice :=
  if by_ <=? s_cap b - s_len b then Some {| s_arr := s_arr b; s_len := s_len b + by_ |}
  else if max_alloc g <? s_len b + by_ then None
  else Some {| s_arr := s_bytes b ++ repeat 0%N (Z.to_nat by_) ++ repeat 0%N (spare g (s_len b + by_)); s_len := s_len b + by_ |}.

(* copy(content[off:], p), off within the length. *)
Definition copy_at (b : slice) (off : Z) (p : list byte) : slice :=
  let n := Z.min (zlen p) (s_len b - off) in
  {| s_arr := zslice (s_arr b) 0 off ++ zslice p 0 n ++ skipn (Z.to_nat (off + n)) (s_arr b); s_len := s_len b |}.

(* writeAt (:67-89). *)
Definition write_at (g : goheap) (b : slice) (p : list byte) (off : Z) : slice * mres :=
  if off <? 0 then (b, MOk 0 [] e_inval)
  else if max_int64 - off <? zlen p then (b, MOk 0 [] e_inval)
  else match p with
  | [] => (b, MOk 0 [] e_nil)
  | _ =>
      let fin := off + zlen p in
      match (if s_len b <? fin then grow g b (fin - s_len b) else Some b) with
      | None => (b, MPanic)
      | Some b1 => (copy_at b1 off p, MOk (Z.min (zlen p) (s_len b1 - off)) [] e_nil)
      end
  end.

(* truncate (:91-103): content[:size:size]. *)
Definition truncate (g : goheap) (b : slice) (size : Z) : slice * mres :=
  if size <? 0 then (b, MOk 0 [] e_inval)
  else
    let by_ := size - s_len b in
    match (if 0 <? by_ then grow g b by_ else Some b) with
    | None => (b, MPanic)
    | Some b1 => ({| s_arr := zslice (s_arr b1) 0 size; s_len := size |}, MOk 0 [] e_nil)
    end.

(* memHandle (:116-123). *)
Record handle := { h_flag : Z; h_off : Z }.
Record mstate := { m_buf : slice; m_handles : list handle }.

Inductive mop :=
| MOpen (flag : Z)
| MRead (n : Z) | MReadAt (n off : Z) | MWrite (p : list byte) | MWriteAt (p : list byte) (off : Z)
| MSeek (off whence : Z) | MTruncate (size : Z) | MStat | MClose.

Definition moved (h : handle) (off : Z) : handle := {| h_flag := h_flag h; h_off := off |}.

(* Seek (:229-254). *)
Definition mem_seek (b : slice) (h : handle) (offset whence : Z) : handle * mres :=
  let go o := if o <? 0 then (h, MOk 0 [] e_inval) else (moved h o, MOk o [] e_nil) in
  if whence =? 0 then go offset
  else if whence =? 1 then go (wrap64 (offset + h_off h))
  else if whence =? 2 then go (wrap64 (offset + s_len b))
  else (h, MOk 0 [] e_inval).

(* One method call on a handle (:135-264). *)
Definition mem_step (fl : oflags) (g : goheap) (b : slice) (h : handle) (o : mop) : slice * handle * mres :=
  match o with
  | MOpen _ | MClose => (b, h, MOk 0 [] e_nil)
  | MRead n =>
      if negb (readable fl (h_flag h)) then (b, h, MOk 0 [] e_badf)
      else match read_at b n (h_off h) with
           | MOk k d e => (b, moved h (h_off h + k), MOk k d e)
           | MPanic => (b, h, MPanic)
           end
  | MReadAt n off => if negb (readable fl (h_flag h)) then (b, h, MOk 0 [] e_badf) else (b, h, read_at b n off)
  | MWrite p =>
      if negb (writable fl (h_flag h)) then (b, h, MOk 0 [] e_badf)
      else
        let h1 := if appends fl (h_flag h) then moved h (s_len b) else h in
        match write_at g b p (h_off h1) with
        | (b1, MOk k d e) => (b1, moved h1 (h_off h1 + k), MOk k d e)
        | (b1, MPanic) => (b1, h1, MPanic)
        end
  | MWriteAt p off =>
      if appends fl (h_flag h) then (b, h, MOk 0 [] e_inval)
      else if negb (writable fl (h_flag h)) then (b, h, MOk 0 [] e_badf)
      else let '(b1, r) := write_at g b p off in (b1, h, r)
  | MSeek off whence => let '(h1, r) := mem_seek b h off whence in (b, h1, r)
  | MTruncate size =>
      if negb (writable fl (h_flag h)) then (b, h, MOk 0 [] e_badf)
      else let '(b1, r) := truncate g b size in (b1, h, r)
  | MStat => (b, h, MOk (s_len b) [] e_nil)
  end.

Fixpoint set_nth {A} (l : list A) (i : nat) (x : A) : list A :=
  match l, i with
  | [], _ => []
  | _ :: r, O => x :: r
  | y :: r, S i => y :: set_nth r i x
  end.

(* A call on handle number i; MOpen opens one more (memView.Open, view_mem.go:43-45). *)
Definition mstep (fl : oflags) (g : goheap) (s : mstate) (c : nat * mop) : mstate * option mres :=
  let '(i, o) := c in
  match o with
  | MOpen flag => ({| m_buf := m_buf s; m_handles := m_handles s ++ [{| h_flag := flag; h_off := 0 |}] |}, Some (MOk 0 [] e_nil))
  | _ =>
      match nth_error (m_handles s) i with
      | None => (s, None)
      | Some h => let '(b, h1, r) := mem_step fl g (m_buf s) h o in
                  ({| m_buf := b; m_handles := set_nth (m_handles s) i h1 |}, Some r)
      end
  end.
Fixpoint mrun (fl : oflags) (g : goheap) (s : mstate) (cs : list (nat * mop)) : mstate * list (option mres) :=
  match cs with
  | [] => (s, [])
  | c :: cs => let '(s1, r) := mstep fl g s c in let '(s2, rs) := mrun fl g s1 cs in (s2, r :: rs)
  end.

(* memAllocator.Allocate (view_mem.go:26-35): a nil content. *)
Definition fresh_mem : mstate := {| m_buf := {| s_arr := []; s_len := 0 |}; m_handles := [] |}.

(* ---- concurrent appends ---- *)

(* Write with O_APPEND (:193-208) in its two locked sections: length() and writeAt. The
   handle's own mutex is held across both. *)
Record thread := { t_handle : nat; t_pc : option Z; t_todo : list (list byte) }.
Record cstate := { c_buf : slice; c_locked : nat -> bool; c_threads : list thread; c_written : list (list byte) }.

Definition upd {A} (f : nat -> A) (i : nat) (x : A) : nat -> A := fun j => if Nat.eqb j i then x else f j.

(* Thread number i makes a step. *)
Definition cstep (g : goheap) (s : cstate) (i : nat) : cstate :=
  match nth_error (c_threads s) i with
  | None => s
  | Some t =>
      match t_todo t, t_pc t with
      | [], _ => s
      | p :: _, None =>
          if c_locked s (t_handle t) then s
          else {| c_buf := c_buf s; c_locked := upd (c_locked s) (t_handle t) true;
                  c_threads := set_nth (c_threads s) i {| t_handle := t_handle t; t_pc := Some (s_len (c_buf s)); t_todo := t_todo t |};
                  c_written := c_written s |}
      | p :: rest, Some off =>
          {| c_buf := fst (write_at g (c_buf s) p off); c_locked := upd (c_locked s) (t_handle t) false;
             c_threads := set_nth (c_threads s) i {| t_handle := t_handle t; t_pc := None; t_todo := rest |};
             c_written := match snd (write_at g (c_buf s) p off) with MOk _ _ 0%N => c_written s ++ [p] | _ => c_written s end |}
      end
  end.
Definition crun (g : goheap) (s : cstate) (is : list nat) : cstate := fold_left (cstep g) is s.
