(* Model of the files under aferofs/synth: in-memory content and handles
   (impl_inmem_file.go), metadata (file.go), ranged views (impl_fslink.go), temporary-file
   views (impl_tmpdir.go), directory handles (dir_handle.go), closable wrappers
   (aferofs/internal/closable). Slices, handles and results are those of MemBuf_Model. *)
From Verif Require Import Common Views_Model MemBuf_Model.
Open Scope Z_scope.

(* ---- memFile ---- *)

(* flagReadable, flagWritable (flag.go:16-37); the O_APPEND test. *)
Definition acc_mode (fl : oflags) (flag : Z) : Z := Z.land flag (Z.lor (f_wronly fl) (f_rdwr fl)).
Definition af_readable (fl : oflags) (flag : Z) : bool :=
  if acc_mode fl flag =? f_rdwr fl then true else negb (acc_mode fl flag =? f_wronly fl).
Definition af_writable (fl : oflags) (flag : Z) : bool :=
  if acc_mode fl flag =? f_rdwr fl then true else acc_mode fl flag =? f_wronly fl.
Definition af_appends (fl : oflags) (flag : Z) : bool := negb (Z.land flag (f_append fl) =? 0).

(* grow (impl_inmem_file.go:249-256). *)
Definition af_grow (g : goheap) (b : slice) (growth : Z) : option slice :=
  if s_cap b - s_len b >=? growth then Some {| s_arr := s_arr b; s_len := s_len b + growth |}
  else if max_alloc g <? s_len b + growth then None
  else Some {| s_arr := s_bytes b ++ repeat 0%N (Z.to_nat growth) ++ repeat 0%N (spare g (s_len b + growth)); s_len := s_len b + growth |}.

(* memFile.Truncate (:186-198). *)
Definition af_truncate (g : goheap) (b : slice) (size : Z) : slice * mres :=
  if size <? 0 then (b, MOk 0 [] e_inval)
  else
    let diff := size - s_len b in
    match (if diff >? 0 then af_grow g b diff else Some b) with
    | None => (b, MPanic)
    | Some b1 => ({| s_arr := zslice (s_arr b1) 0 size; s_len := size |}, MOk 0 [] e_nil)
    end.

(* memFile.ReadAt (:201-221). *)
Definition af_read_at (b : slice) (n off : Z) : mres :=
  if off <? 0 then MOk 0 [] e_inval
  else if off >=? s_len b then MOk 0 [] e_eof
  else
    let d := firstn (Z.to_nat n) (skipn (Z.to_nat off) (s_bytes b)) in
    MOk (zlen d) d (if zlen d <? n then e_eof else e_nil).

(* memFile.WriteAt (:224-247). *)
Definition af_write_at (g : goheap) (b : slice) (p : list byte) (off : Z) : slice * mres :=
  if off <? 0 then (b, MOk 0 [] e_inval)
  else if off >? max_int64 then (b, MOk 0 [] e_inval)
  else if wrap64 (off + zlen p) <? off then (b, MOk 0 [] e_inval)
  else if zlen p =? 0 then (b, MOk 0 [] e_nil)
  else
    let growth := off + zlen p - s_len b in
    match (if growth >? 0 then af_grow g b growth else Some b) with
    | None => (b, MPanic)
    | Some b1 =>
        let n := Z.min (s_len b1 - off) (zlen p) in
        ({| s_arr := firstn (Z.to_nat off) (s_arr b1) ++ firstn (Z.to_nat n) p ++ skipn (Z.to_nat (off + n)) (s_arr b1); s_len := s_len b1 |},
         MOk n [] e_nil)
    end.

(* memFileHandle's methods (:37-150); closing is the wrapper's. *)
Definition af_step (fl : oflags) (g : goheap) (b : slice) (h : handle) (o : mop) : slice * handle * mres :=
  match o with
  | MOpen _ | MClose => (b, h, MOk 0 [] e_nil)
  | MRead n =>
      if negb (af_readable fl (h_flag h)) then (b, h, MOk 0 [] e_badf)
      else match af_read_at b n (h_off h) with
           | MOk k d e => (b, moved h (h_off h + k), MOk k d e)
           | MPanic => (b, h, MPanic)
           end
  | MReadAt n off => if negb (af_readable fl (h_flag h)) then (b, h, MOk 0 [] e_badf) else (b, h, af_read_at b n off)
  | MSeek offset whence =>
      if (whence <? 0) || (2 <? whence) then (b, h, MOk 0 [] e_inval)
      else
        let o := if whence =? 0 then offset
                 else if whence =? 1 then wrap64 (offset + h_off h)
                 else wrap64 (offset + s_len b) in
        if o <? 0 then (b, h, MOk 0 [] e_inval) else (b, moved h o, MOk o [] e_nil)
  | MStat => (b, h, MOk (s_len b) [] e_nil)
  | MTruncate size =>
      if negb (af_writable fl (h_flag h)) then (b, h, MOk 0 [] e_badf)
      else let '(b1, r) := af_truncate g b size in (b1, h, r)
  | MWrite p =>
      if negb (af_writable fl (h_flag h)) then (b, h, MOk 0 [] e_badf)
      else
        let off := if af_appends fl (h_flag h) then s_len b else h_off h in
        match af_write_at g b p off with
        | (b1, MOk k d e) => (b1, moved h (off + k), MOk k d e)
        | (b1, MPanic) => (b1, moved h off, MPanic)
        end
  | MWriteAt p off =>
      if af_appends fl (h_flag h) then (b, h, MOk 0 [] e_inval)
      else if negb (af_writable fl (h_flag h)) then (b, h, MOk 0 [] e_badf)
      else let '(b1, r) := af_write_at g b p off in (b1, h, r)
  end.

(* memFileData.Open (impl_inmem.go:45-47): one more handle, at offset 0. *)
Definition af_mstep (fl : oflags) (g : goheap) (s : mstate) (c : nat * mop) : mstate * option mres :=
  let '(i, o) := c in
  match o with
  | MOpen flag => ({| m_buf := m_buf s; m_handles := m_handles s ++ [{| h_flag := flag; h_off := 0 |}] |}, Some (MOk 0 [] e_nil))
  | _ =>
      match nth_error (m_handles s) i with
      | None => (s, None)
      | Some h => let '(b, h1, r) := af_step fl g (m_buf s) h o in
                  ({| m_buf := b; m_handles := set_nth (m_handles s) i h1 |}, Some r)
      end
  end.
Fixpoint af_run (fl : oflags) (g : goheap) (s : mstate) (cs : list (nat * mop)) : mstate * list (option mres) :=
  match cs with
  | [] => (s, [])
  | c :: cs => let '(s1, r) := af_mstep fl g s c in let '(s2, rs) := af_run fl g s1 cs in (s2, r :: rs)
  end.

(* ---- virtualFileData ---- *)

(* What the view under it says about its file. *)
Record vstat := { vs_mode : Z; vs_mtime : Z; vs_size : Z }.
(* file.go:28-37. *)
Record vmeta := { vm_init : bool; vm_mode : Z; vm_mtime : Z }.

(* newVirtualFileData (:39-63); None: the view's Stat said ErrNotExist. *)
Definition vm_new (s : option vstat) : vmeta :=
  match s with
  | Some s => {| vm_init := true; vm_mode := vs_mode s; vm_mtime := vs_mtime s |}
  | None => {| vm_init := false; vm_mode := 0; vm_mtime := 0 |}
  end.
(* init under Open (:65-94, :100-110). *)
Definition vm_open (s : vstat) (m : vmeta) : vmeta :=
  if vm_init m then m else {| vm_init := true; vm_mode := vs_mode s; vm_mtime := vs_mtime s |}.
(* Chmod (:140-144); [keep] is fs.ModeType|fs.ModePerm. Chtimes (:152-158); 0 is the zero time. *)
Definition vm_chmod (keep mode : Z) (m : vmeta) : vmeta := {| vm_init := vm_init m; vm_mode := Z.land mode keep; vm_mtime := vm_mtime m |}.
Definition vm_chtimes (t : Z) (m : vmeta) : vmeta :=
  {| vm_init := vm_init m; vm_mode := vm_mode m; vm_mtime := if t =? 0 then vm_mtime m else t |}.
(* Stat, StatFile (:112-130). *)
Definition vm_stat (s : vstat) (m : vmeta) : vstat := {| vs_mode := vm_mode m; vs_mtime := vm_mtime m; vs_size := vs_size s |}.

(* Calls on one file of the tree; the view's file itself changes under a write, which stamps
   it with the clock (impl_inmem_file.go:245). *)
Inductive vop := VOpen | VChmod (mode : Z) | VChtimes (t : Z) | VWrite (now size : Z).
Definition vm_step (keep : Z) (w : vstat * vmeta) (o : vop) : vstat * vmeta :=
  let '(s, m) := w in
  match o with
  | VOpen => (s, vm_open s m)
  | VChmod mode => (s, vm_chmod keep mode m)
  | VChtimes t => (s, vm_chtimes t m)
  | VWrite now size => ({| vs_mode := vs_mode s; vs_mtime := now; vs_size := size |}, m)
  end.
Definition vm_run (keep : Z) (w : vstat * vmeta) (os : list vop) : vstat * vmeta := fold_left (vm_step keep) os w.

(* ---- rangedFileView ---- *)

Record rview := { rv_off : Z; rv_n : Z }.
(* NewRangedFileView (impl_fslink.go:81-108) over a file holding [d]: the probe reads one byte
   at 0. *)
Definition rv_new (d : list byte) (off n : Z) : option rview :=
  if off <? 0 then None else if n <=? 0 then None
  else match d with [] => None | _ => Some {| rv_off := off; rv_n := n |} end.
(* io.NewSectionReader(f, off, n) (:128): its start and limit. *)
Definition rv_limit (v : rview) : Z := if rv_off v <=? max_int64 - rv_n v then rv_n v + rv_off v else max_int64.
(* sectionFile.ReadAt: io.SectionReader's, over [d] at the time of the call. *)
Definition rv_read_at (d : list byte) (v : rview) (len off : Z) : mres :=
  if (off <? 0) || (off >=? rv_limit v - rv_off v) then MOk 0 [] e_eof
  else
    let off := off + rv_off v in
    let read n := if zlen d <=? off then MOk 0 [] e_eof
                  else let x := zslice d off n in MOk (zlen x) x (if zlen x <? n then e_eof else e_nil) in
    if len >? rv_limit v - off then
      match read (rv_limit v - off) with
      | MOk k x e => MOk k x (if (e =? e_nil)%N then e_eof else e)
      | MPanic => MPanic
      end
    else read len.
(* sectionFile.Read: io.SectionReader's, from position [pos] of the file below. *)
Definition rv_read (d : list byte) (v : rview) (len pos : Z) : mres * Z :=
  if pos >=? rv_limit v then (MOk 0 [] e_eof, pos)
  else
    let len := if len >? rv_limit v - pos then rv_limit v - pos else len in
    if zlen d <=? pos then (MOk 0 [] e_eof, pos)
    else let x := zslice d pos len in (MOk (zlen x) x (if zlen x <? len then e_eof else e_nil), pos + zlen x).
Fixpoint rv_reads (d : list byte) (v : rview) (pos : Z) (lens : list Z) : list mres :=
  match lens with
  | [] => []
  | len :: lens => let '(r, pos) := rv_read d v len pos in r :: rv_reads d v pos lens
  end.
(* Stat().Size() of the view (:132-143) and of an open handle (:183-194). *)
Definition rv_stat_size (v : rview) : Z := wrap64 (rv_n v - rv_off v).
Definition rv_handle_size (v : rview) : Z := wrap64 (rv_limit v - rv_off v).

(* ---- tmpDirFileView ---- *)

(* The directory: named files. TempFile picks a name by the oracle [pick]. *)
Definition tdir := list (nat * list byte).
(* impl_tmpdir.go:33-38; None is the empty path. *)
Definition tview := option nat.
Inductive top := TOpen | TStat | TTruncate (size : nat) | TClose.
(* create (:57-72). *)
Definition t_create (pick : list nat -> nat) (d : tdir) (v : tview) : tdir * nat :=
  match v with
  | Some n => (d, n)
  | None => let n := pick (map fst d) in (d ++ [(n, [])], n)
  end.
Definition t_set (d : tdir) (n : nat) (f : list byte -> list byte) : tdir :=
  map (fun e => if Nat.eqb (fst e) n then (fst e, f (snd e)) else e) d.
(* b.fsys.Remove of a path, None the empty one, which names no file. *)
Definition t_remove (d : tdir) (p : option nat) : tdir * bool :=
  match p with
  | None => (d, false)
  | Some n => (filter (fun e => negb (Nat.eqb (fst e) n)) d, existsb (fun e => Nat.eqb (fst e) n) d)
  end.
(* Open, Stat, Truncate (:74-121), Close (:47-55); the result is whether there was no error. *)
Definition t_step (pick : list nat -> nat) (w : tdir * tview) (o : top) : (tdir * tview) * bool :=
  let '(d, v) := w in
  match o with
  | TOpen | TStat => let '(d1, n) := t_create pick d v in ((d1, Some n), true)
  | TTruncate size => let '(d1, n) := t_create pick d v in ((t_set d1 n (fun x => firstn size (x ++ repeat 0%N (size - length x))), Some n), true)
  | TClose =>
      match v with
      | Some _ =>
          let v := None in                        (* b.path = "" *)
          let '(d1, ok) := t_remove d v in ((d1, v), ok)
      | None => ((d, v), true)
      end
  end.
Fixpoint t_run (pick : list nat -> nat) (w : tdir * tview) (os : list top) : (tdir * tview) * list bool :=
  match os with
  | [] => (w, [])
  | o :: os => let '(w1, r) := t_step pick w o in let '(w2, rs) := t_run pick w1 os in (w2, r :: rs)
  end.

(* ---- dirHandle ---- *)

Section DirHandle.
  Context {A : Type}.
  (* dir_handle.go:17-24; None is a nil snapshot. *)
  Record dhandle := { d_snap : option (list A); d_off : Z }.
  Inductive dres := DOk (page : list A) (eof : bool) | DErr | DPanic | DSeek (ok : bool).
  (* A call, with what the directory would list at its time (None: an entry's stat fails). *)
  Inductive dcall := DReaddir (count : Z) (now : option (list A)) | DSeekTo (offset whence : Z).

  Definition d_read (h : dhandle) (l : list A) (count : Z) : dhandle * dres :=
    if (d_off h <? 0) || (zlen l <? d_off h) then (h, DPanic)          (* d.snapshot[d.off:] *)
    else
      let rest := skipn (Z.to_nat (d_off h)) l in
      if (count <=? 0) || (count >=? zlen rest) then
        ({| d_snap := Some l; d_off := zlen l |}, DOk rest ((zlen rest =? 0) && (count >? 0)))
      else ({| d_snap := Some l; d_off := d_off h + count |}, DOk (firstn (Z.to_nat count) rest) false).
  (* Readdir (:42-69), Seek (:83-104). *)
  Definition d_step (h : dhandle) (c : dcall) : dhandle * dres :=
    match c with
    | DReaddir count now =>
        match d_snap h with
        | Some l => d_read h l count
        | None => match now with None => (h, DErr) | Some l => d_read h l count end
        end
    | DSeekTo offset whence =>
        ({| d_snap := None; d_off := 0 |},
         DSeek (if whence =? 0 then negb (offset <? 0) else if (whence =? 1) || (whence =? 2) then negb (offset >? 0) else false))
    end.
  Fixpoint d_run (h : dhandle) (cs : list dcall) : dhandle * list dres :=
    match cs with
    | [] => (h, [])
    | c :: cs => let '(h1, r) := d_step h c in let '(h2, rs) := d_run h1 cs in (h2, r :: rs)
    end.
  Definition d_fresh : dhandle := {| d_snap := None; d_off := 0 |}.
End DirHandle.
Arguments dhandle A : clear implicits.
Arguments dres A : clear implicits.
Arguments dcall A : clear implicits.

(* ---- Closable ---- *)

(* A call through the wrapper: a method, or Close. *)
Inductive ccall := CMethod (name : nat) | CClose.
(* The inner file's log of calls. *)
Record clo := { cl_closed : bool; cl_inner : list ccall }.
(* beforeEach, then the inner method (file.go:24-37 and the generated methods); true: it was
   let through, false: ErrClosed. *)
Definition cl_call (s : clo) (c : ccall) : clo * bool :=
  if cl_closed s then (s, false)
  else ({| cl_closed := match c with CClose => true | _ => cl_closed s end; cl_inner := cl_inner s ++ [c] |}, true).
Fixpoint cl_calls (s : clo) (cs : list ccall) : clo * list bool :=
  match cs with
  | [] => (s, [])
  | c :: cs => let '(s1, r) := cl_call s c in let '(s2, rs) := cl_calls s1 cs in (s2, r :: rs)
  end.

(* The same call by goroutines: the check, the store (for Close), the inner call, each its own
   step. *)
Inductive cpc := PCheck | PStore | PInner | PDone (ok : bool).
Record cthread := { ct_call : ccall; ct_pc : cpc }.
Record cworld := { cw_closed : bool; cw_inner : list ccall; cw_threads : list cthread }.
Definition cw_step (w : cworld) (i : nat) : cworld :=
  match nth_error (cw_threads w) i with
  | None => w
  | Some t =>
      let at_ pc := set_nth (cw_threads w) i {| ct_call := ct_call t; ct_pc := pc |} in
      match ct_pc t with
      | PCheck =>
          if cw_closed w then {| cw_closed := cw_closed w; cw_inner := cw_inner w; cw_threads := at_ (PDone false) |}
          else {| cw_closed := cw_closed w; cw_inner := cw_inner w;
                  cw_threads := at_ (match ct_call t with CClose => PStore | _ => PInner end) |}
      | PStore => {| cw_closed := true; cw_inner := cw_inner w; cw_threads := at_ PInner |}
      | PInner => {| cw_closed := cw_closed w; cw_inner := cw_inner w ++ [ct_call t]; cw_threads := at_ (PDone true) |}
      | PDone _ => w
      end
  end.
Definition cw_run (w : cworld) (is : list nat) : cworld := fold_left cw_step is w.
