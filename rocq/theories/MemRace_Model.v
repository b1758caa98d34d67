(* Several goroutines on handles of one in-memory file of synthfs
   (vroot/synthfs/handle.go, view_mem_buf.go): every step is one section under one mutex. *)
From Verif Require Import Common Views_Model MemBuf_Model.
Open Scope Z_scope.

Inductive cop :=
| CRead (n : Z) | CReadAt (n off : Z) | CWrite (p : list byte) | CWriteAt (p : list byte) (off : Z)
| CSeek (off whence : Z) | CTruncate (size : Z) | CStat | CClose.

(* fs.ErrClosed. *)
Definition e_closed : N := 4%N.

(* A fileHandle with its memHandle (handle.go:26-34, view_mem_buf.go:116-123): the flags of both,
   memHandle.off, whether memHandle.mu is held, fileHandle.closed. *)
Record hcell := HCell { x_flag : Z; x_off : Z; x_mu : bool; x_closed : bool }.

(* Where a goroutine is in a call: about to ask isClosed; past it; holding memHandle.mu;
   having set off to the length (O_APPEND); past the buffer's section with the position to
   store; about to unlock; about to return. *)
Inductive pc :=
| Idle
| Called (h : nat) (o : cop)
| Entered (h : nat) (o : cop)
| Holding (h : nat) (o : cop)
| Sized (h : nat) (p : list byte)
| Moving (h : nat) (o : cop) (off : Z) (r : mres)
| Leaving (h : nat) (o : cop) (r : mres)
| Done (h : nat) (o : cop) (r : mres).
Record gor := Gor { g_todo : list (nat * cop); g_pc : pc }.

(* Calls and returns, as they happen. *)
Inductive event := Inv (i h : nat) (o : cop) | Ret (i h : nat) (o : cop) (r : mres).
Record world := World { w_buf : slice; w_hs : list hcell; w_gs : list gor; w_ev : list event }.

Definition at_pc (w : world) (i : nat) (t : gor) (p : pc) : world :=
  World (w_buf w) (w_hs w) (set_nth (w_gs w) i (Gor (g_todo t) p)) (w_ev w).
Definition with_buf (w : world) (b : slice) : world := World b (w_hs w) (w_gs w) (w_ev w).
Definition with_cell (w : world) (h : nat) (c : hcell) : world := World (w_buf w) (set_nth (w_hs w) h c) (w_gs w) (w_ev w).

(* The section of the buffer of a call that holds memHandle.mu, from position [x_off c]:
   the buffer, the position to store, the result (view_mem_buf.go:167-168,201-202,229-254). *)
Definition section (g : goheap) (b : slice) (c : hcell) (o : cop) : slice * Z * mres :=
  match o with
  | CRead n => match read_at b n (x_off c) with MOk k d e => (b, x_off c + k, MOk k d e) | MPanic => (b, x_off c, MPanic) end
  | CWrite p => match write_at g b p (x_off c) with (b1, MOk k d e) => (b1, x_off c + k, MOk k d e) | (b1, MPanic) => (b1, x_off c, MPanic) end
  | CSeek off whence =>
      let '(h, r) := mem_seek b {| h_flag := x_flag c; h_off := x_off c |} off whence in (b, h_off h, r)
  | _ => (b, x_off c, MPanic)
  end.

(* Past isClosed: the flags (handle.go:70,80,90,100,120), then the handle inside. Calls
   without a position need only the buffer's mutex (view_mem_buf.go:179-191,210-223,256-264). *)
Definition enter (fl : oflags) (g : goheap) (w : world) (i : nat) (t : gor) (h : nat) (c : hcell) (o : cop) : world :=
  let lock := if x_mu c then w else at_pc (with_cell w h (HCell (x_flag c) (x_off c) true (x_closed c))) i t (Holding h o) in
  let finish b r := at_pc (with_buf w b) i t (Done h o r) in
  let badf := finish (w_buf w) (MOk 0 [] e_badf) in
  match o with
  | CRead _ => if readable fl (x_flag c) then lock else badf
  | CReadAt n off => if readable fl (x_flag c) then finish (w_buf w) (read_at (w_buf w) n off) else badf
  | CWrite _ => if writable fl (x_flag c) then lock else badf
  | CWriteAt p off =>
      if writable fl (x_flag c) then
        if appends fl (x_flag c) then finish (w_buf w) (MOk 0 [] e_inval)
        else let '(b, r) := write_at g (w_buf w) p off in finish b r
      else badf
  | CSeek _ _ => lock
  | CTruncate size => if writable fl (x_flag c) then let '(b, r) := truncate g (w_buf w) size in finish b r else badf
  | CStat | CClose => w
  end.

Definition step (fl : oflags) (g : goheap) (w : world) (i : nat) : world :=
  match nth_error (w_gs w) i with
  | None => w
  | Some t =>
      let on h (k : hcell -> world) := match nth_error (w_hs w) h with Some c => k c | None => w end in
      match g_pc t with
      | Idle =>
          match g_todo t with
          | [] => w
          | (h, o) :: rest => World (w_buf w) (w_hs w) (set_nth (w_gs w) i (Gor rest (Called h o))) (w_ev w ++ [Inv i h o])
          end
      | Called h o => on h (fun c =>
          match o with
          | CClose => at_pc (with_cell w h (HCell (x_flag c) (x_off c) (x_mu c) true)) i t (Done h o (MOk 0 [] e_nil))
          | CStat => at_pc w i t (Done h o (MOk (s_len (w_buf w)) [] e_nil))
          | _ => if x_closed c then at_pc w i t (Done h o (MOk 0 [] e_closed)) else at_pc w i t (Entered h o)
          end)
      | Entered h o => on h (fun c => enter fl g w i t h c o)
      | Holding h o => on h (fun c =>
          match o with
          | CWrite p =>
              if appends fl (x_flag c)
              then at_pc (with_cell w h (HCell (x_flag c) (s_len (w_buf w)) (x_mu c) (x_closed c))) i t (Sized h p)
              else let '(b, off, r) := section g (w_buf w) c o in at_pc (with_buf w b) i t (Moving h o off r)
          | _ => let '(b, off, r) := section g (w_buf w) c o in at_pc (with_buf w b) i t (Moving h o off r)
          end)
      | Sized h p => on h (fun c =>
          let '(b, off, r) := section g (w_buf w) c (CWrite p) in at_pc (with_buf w b) i t (Moving h (CWrite p) off r))
      | Moving h o off r => on h (fun c => at_pc (with_cell w h (HCell (x_flag c) off (x_mu c) (x_closed c))) i t (Leaving h o r))
      | Leaving h o r => on h (fun c => at_pc (with_cell w h (HCell (x_flag c) (x_off c) false (x_closed c))) i t (Done h o r))
      | Done h o r => World (w_buf w) (w_hs w) (set_nth (w_gs w) i (Gor (g_todo t) Idle)) (w_ev w ++ [Ret i h o r])
      end
  end.
Definition run (fl : oflags) (g : goheap) (w : world) (sched : list nat) : world := fold_left (step fl g) sched w.

(* Open handles on a file, and the goroutines' calls. *)
Definition start (s : mstate) (progs : list (list (nat * cop))) : world :=
  World (m_buf s) (map (fun h => HCell (h_flag h) (h_off h) false false) (m_handles s)) (map (fun p => Gor p Idle) progs) [].
