(* An abstract file: a length and a byte for every offset, zero where nothing was written;
   handles with a position each. *)
From Verif Require Import Common Views_Model MemBuf_Model.
Open Scope Z_scope.

Record afile := { a_len : Z; a_at : Z -> byte; a_handles : list handle }.

Definition a_range (f : afile) (off n : Z) : list byte := map (fun k => a_at f (off + Z.of_nat k)) (seq 0 (Z.to_nat n)).

(* The bytes of a read of n bytes at off. *)
Definition a_count (f : afile) (n off : Z) : Z := Z.max 0 (Z.min n (a_len f - off)).

Definition a_read (f : afile) (n off : Z) : mres :=
  if off <? 0 then MOk 0 [] e_inval
  else if a_len f <=? off then MOk 0 [] e_eof
  else MOk (a_count f n off) (a_range f off (a_count f n off)) (if a_count f n off <? n then e_eof else e_nil).

Definition put_bytes (f : afile) (p : list byte) (off : Z) : afile :=
  match p with
  | [] => f
  | _ => {| a_len := Z.max (a_len f) (off + zlen p);
            a_at := fun k => match zget p (k - off) with Some x => x | None => a_at f k end;
            a_handles := a_handles f |}
  end.
Definition set_size (f : afile) (size : Z) : afile :=
  {| a_len := size; a_at := fun k => if k <? size then a_at f k else 0%N; a_handles := a_handles f |}.
Definition set_handle (f : afile) (i : nat) (h : handle) : afile := {| a_len := a_len f; a_at := a_at f; a_handles := set_nth (a_handles f) i h |}.

Definition writes_at (p : list byte) (off : Z) : bool := (0 <=? off) && (off + zlen p <=? max_int64).

(* One call: the file after it and its result. *)
Definition a_step (fl : oflags) (f : afile) (c : nat * mop) : afile * option mres :=
  let '(i, o) := c in
  match o with
  | MOpen flag => ({| a_len := a_len f; a_at := a_at f; a_handles := a_handles f ++ [{| h_flag := flag; h_off := 0 |}] |}, Some (MOk 0 [] e_nil))
  | _ =>
    match nth_error (a_handles f) i with
    | None => (f, None)
    | Some h =>
        let flag := h_flag h in
        match o with
        | MOpen _ => (f, None)
        | MClose => (f, Some (MOk 0 [] e_nil))
        | MStat => (f, Some (MOk (a_len f) [] e_nil))
        | MRead n =>
            if readable fl flag then
              (match a_read f n (h_off h) with MOk k _ _ => set_handle f i (moved h (h_off h + k)) | MPanic => f end, Some (a_read f n (h_off h)))
            else (f, Some (MOk 0 [] e_badf))
        | MReadAt n off => (f, Some (if readable fl flag then a_read f n off else MOk 0 [] e_badf))
        | MWrite p =>
            if writable fl flag then
              let at_ := if appends fl flag then a_len f else h_off h in
              if writes_at p at_ then (set_handle (put_bytes f p at_) i (moved h (at_ + zlen p)), Some (MOk (zlen p) [] e_nil))
              else (set_handle f i (moved h at_), Some (MOk 0 [] e_inval))
            else (f, Some (MOk 0 [] e_badf))
        | MWriteAt p off =>
            if appends fl flag then (f, Some (MOk 0 [] e_inval))
            else if writable fl flag then
              if writes_at p off then (put_bytes f p off, Some (MOk (zlen p) [] e_nil)) else (f, Some (MOk 0 [] e_inval))
            else (f, Some (MOk 0 [] e_badf))
        | MSeek off whence =>
            let base := if whence =? 0 then Some 0 else if whence =? 1 then Some (h_off h) else if whence =? 2 then Some (a_len f) else None in
            match base with
            | None => (f, Some (MOk 0 [] e_inval))
            | Some b => if (0 <=? b + off) && (b + off <=? max_int64) then (set_handle f i (moved h (b + off)), Some (MOk (b + off) [] e_nil))
                        else (f, Some (MOk 0 [] e_inval))
            end
        | MTruncate size =>
            if writable fl flag then
              if 0 <=? size then (set_size f size, Some (MOk 0 [] e_nil)) else (f, Some (MOk 0 [] e_inval))
            else (f, Some (MOk 0 [] e_badf))
        end
    end
  end.
Fixpoint a_run (fl : oflags) (f : afile) (cs : list (nat * mop)) : afile * list (option mres) :=
  match cs with
  | [] => (f, [])
  | c :: cs => let '(f1, r) := a_step fl f c in let '(f2, rs) := a_run fl f1 cs in (f2, r :: rs)
  end.
Definition a_fresh : afile := {| a_len := 0; a_at := fun _ => 0%N; a_handles := [] |}.

(* The model's state shows the abstract file. *)
Definition shows (s : mstate) (f : afile) : Prop :=
  s_len (m_buf s) = a_len f /\ m_handles s = a_handles f /\ forall k, a_at f k = match zget (s_bytes (m_buf s)) k with Some x => x | None => 0%N end.

(* Arguments Go's types admit: int64 offsets, non-negative int lengths. *)
Definition op_fits (c : nat * mop) : Prop :=
  match snd c with
  | MRead n | MReadAt n _ => 0 <= n <= max_int64
  | MSeek off _ => in_int64 off
  | MTruncate size => in_int64 size
  | _ => True
  end /\
  match snd c with MReadAt _ off | MWriteAt _ off => in_int64 off | _ => True end.

(* The size a call asks the file to have. *)
Definition wants (fl : oflags) (f : afile) (c : nat * mop) : Z :=
  match nth_error (a_handles f) (fst c) with
  | None => 0
  | Some h =>
      match snd c with
      | MWrite p => (if appends fl (h_flag h) then a_len f else h_off h) + zlen p
      | MWriteAt p off => off + zlen p
      | MTruncate size => size
      | _ => 0
      end
  end.
(* No call asks for more memory than an allocation can be. *)
Fixpoint affordable (fl : oflags) (g : goheap) (f : afile) (cs : list (nat * mop)) : Prop :=
  match cs with
  | [] => True
  | c :: cs => wants fl f c <= max_alloc g /\ affordable fl g (fst (a_step fl f c)) cs
  end.

(* What every reachable state keeps. *)
Definition byt (l : list byte) (k : Z) : byte := match zget l k with Some x => x | None => 0%N end.
(* Spare capacity is zero. *)
Definition clean_buf (b : slice) : Prop := 0 <= s_len b <= s_cap b /\ s_len b <= max_int64 /\ forall k, s_len b <= k -> byt (s_arr b) k = 0%N.
Definition in_range (h : handle) : Prop := 0 <= h_off h <= max_int64.
Definition minv (s : mstate) : Prop := clean_buf (m_buf s) /\ Forall in_range (m_handles s).

(* ---- appends ---- *)

(* The writes still to be made. *)
Definition todo (ts : list thread) : list (list byte) := concat (map t_todo ts).
(* Threads about to write to a file holding [b]. *)
Definition ready (b : slice) (ts : list thread) : cstate := {| c_buf := b; c_locked := fun _ => false; c_threads := ts; c_written := [] |}.
Definition idle (t : thread) : Prop := t_pc t = None.
