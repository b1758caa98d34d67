(* Model of synthfs's read-only views over bytes and ranges (vroot/synthfs/view_bytes.go,
   view_fs.go:68-192) under the tree's file handle (handle.go). *)
From Verif Require Import Common Views_Model MemBuf_Model.
Open Scope Z_scope.

(* More error values. *)
Definition e_rofs : N := 4%N.
Definition e_closed : N := 5%N.

(* A bytes view, a live in-memory file whose content is [env] at the time of a call, and
   NewRangedView of another view. *)
Inductive view := VBytes (d : list byte) | VMem | VRange (inner : view) (off n : Z).

(* NewRangedView's argument check (view_fs.go:73-78); the probe always finds a ReaderAt here. *)
Definition new_ranged (inner : view) (off n : Z) : option view :=
  if off <? 0 then None else if n <=? 0 then None else Some (VRange inner off n).

(* The limit of io.NewSectionReader(r, off, n). *)
Definition sr_limit (off n : Z) : Z := if off <=? max_int64 - n then n + off else max_int64.

(* bytes.Reader.ReadAt; memBuf.readAt (view_mem_buf.go:51-65) is the same function. *)
Definition bytes_read_at (d : list byte) (len off : Z) : mres :=
  if off <? 0 then MOk 0 [] e_inval
  else if zlen d <=? off then MOk 0 [] e_eof
  else let x := zslice d off len in MOk (zlen x) x (if zlen x <? len then e_eof else e_nil).

(* ReadAt on a handle of the view: bytesHandle.ReadAt (view_bytes.go:79-81), memHandle.ReadAt,
   io.SectionReader.ReadAt under rangedHandle.ReadAt (view_fs.go:163-165). *)
Fixpoint view_read_at (env : list byte) (v : view) (len off : Z) : mres :=
  match v with
  | VBytes d => bytes_read_at d len off
  | VMem => bytes_read_at env len off
  | VRange inner o n =>
      let limit := sr_limit o n in
      if (off <? 0) || (limit - o <=? off) then MOk 0 [] e_eof
      else
        let off := off + o in
        if limit - off <? len then
          match view_read_at env inner (limit - off) off with
          | MOk k x 0%N => MOk k x e_eof
          | r => r
          end
        else view_read_at env inner len off
  end.

(* Stat().Size() of the view (view_bytes.go:37-39, view_fs.go:122-133). *)
Definition view_size (env : list byte) (v : view) : Z :=
  match v with VBytes d => zlen d | VMem => zlen env | VRange _ _ n => n end.

(* The handle under the tree's one: the position of the bytes.Reader or of the SectionReader,
   the latter counted in the inner view. *)
Record rhandle := { r_view : view; r_pos : Z }.

Inductive rop :=
| RRead (len : Z) | RReadAt (len off : Z) | RSeek (off whence : Z) | RStat
| RWrite (p : list byte) | RWriteAt (p : list byte) (off : Z) | RTruncate (size : Z) | RSync | RClose.

(* Open (view_bytes.go:30-35, view_fs.go:95-120). *)
Definition view_open (fl : oflags) (v : view) (flag : Z) : option rhandle :=
  match v with
  | VMem => None                                  (* not a view of this file: C37 *)
  | VBytes _ => if write_op fl flag then None else Some {| r_view := v; r_pos := 0 |}
  | VRange _ o _ => if write_op fl flag then None else Some {| r_view := v; r_pos := o |}
  end.

(* One call on that handle (view_bytes.go:46-113, view_fs.go:146-192). *)
Definition inner_step (env : list byte) (h : rhandle) (o : rop) : mres * rhandle :=
  let at_ p := {| r_view := r_view h; r_pos := p |} in
  match o with
  | RRead len =>
      match r_view h with
      | VRange inner o n =>
          let limit := sr_limit o n in
          if limit <=? r_pos h then (MOk 0 [] e_eof, h)
          else
            let len := if limit - r_pos h <? len then limit - r_pos h else len in
            match view_read_at env inner len (r_pos h) with
            | MOk k x e => (MOk k x e, at_ (r_pos h + k))
            | MPanic => (MPanic, h)
            end
      | VBytes d =>
          if zlen d <=? r_pos h then (MOk 0 [] e_eof, h)
          else let x := zslice d (r_pos h) len in (MOk (zlen x) x e_nil, at_ (r_pos h + zlen x))
      | VMem => (MPanic, h)
      end
  | RReadAt len off => (view_read_at env (r_view h) len off, h)
  | RSeek off whence =>
      let '(base, fin) := match r_view h with
                          | VRange _ o n => (o, sr_limit o n) | VBytes d => (0, zlen d) | VMem => (0, 0) end in
      let go p := if p <? base then (MOk 0 [] e_inval, h) else (MOk (p - base) [] e_nil, at_ p) in
      if whence =? 0 then go (wrap64 (off + base))
      else if whence =? 1 then go (wrap64 (off + r_pos h))
      else if whence =? 2 then go (wrap64 (off + fin))
      else (MOk 0 [] e_inval, h)
  | RStat => (MOk (view_size env (r_view h)) [] e_nil, h)
  | RWrite _ | RWriteAt _ _ | RTruncate _ => (MOk 0 [] e_rofs, h)
  | RSync | RClose => (MOk 0 [] e_nil, h)
  end.

(* fileHandle (handle.go:23-162). Stat asks the view. *)
Record fhandle := { f_flag : Z; f_closed : bool; f_inner : rhandle }.

Definition fh_step (fl : oflags) (env : list byte) (h : fhandle) (o : rop) : mres * fhandle :=
  let forward :=
    let '(r, i) := inner_step env (f_inner h) o in
    (r, {| f_flag := f_flag h; f_closed := f_closed h; f_inner := i |}) in
  match o with
  | RClose => if f_closed h then (MOk 0 [] e_nil, h)
              else (MOk 0 [] e_nil, {| f_flag := f_flag h; f_closed := true; f_inner := f_inner h |})
  | RStat => (MOk (view_size env (r_view (f_inner h))) [] e_nil, h)
  | RRead _ | RReadAt _ _ =>
      if f_closed h then (MOk 0 [] e_closed, h)
      else if negb (readable fl (f_flag h)) then (MOk 0 [] e_badf, h) else forward
  | RWrite _ | RWriteAt _ _ | RTruncate _ =>
      if f_closed h then (MOk 0 [] e_closed, h)
      else if negb (writable fl (f_flag h)) then (MOk 0 [] e_badf, h) else forward
  | RSeek _ _ | RSync => if f_closed h then (MOk 0 [] e_closed, h) else forward
  end.

(* OpenFile on a bound view, then calls, each with the live content at that time. *)
Definition fh_open (fl : oflags) (v : view) (flag : Z) : option fhandle :=
  option_map (fun i => {| f_flag := flag; f_closed := false; f_inner := i |}) (view_open fl v flag).
Fixpoint fh_run (fl : oflags) (h : fhandle) (cs : list (list byte * rop)) : list mres * fhandle :=
  match cs with
  | [] => ([], h)
  | (env, o) :: cs =>
      let '(r, h1) := fh_step fl env h o in
      let '(rs, h2) := fh_run fl h1 cs in (r :: rs, h2)
  end.
