(* Specification of the concatenated reader: a byte list and a cursor. *)
From Verif Require Import Common MultiRead_Model.
Open Scope Z_scope.

(* A segment that obeys the io.ReaderAt contract for the bytes [d]: it fills the
   buffer as far as [d] reaches, reports io.EOF whenever it could not fill it, and
   may (or may not) also report io.EOF when it filled it exactly up to the end. *)
Definition serves (s : segment) (d : list byte) : Prop :=
  forall t len off, 0 <= len -> 0 <= off ->
    exists e, sg_read s t len off = (zslice d off len, e) /\
      match e with
      | RNil => zlen (zslice d off len) = len
      | REof => zlen (zslice d off len) < len \/ (0 < len /\ off + len = zlen d) \/ zlen d <= off
      | ROther _ => False
      end.

(* The size the caller declared is the real one. *)
Definition exact (s : segment) (d : list byte) : Prop := serves s d /\ sg_size s = zlen d.

(* A list of segments with their contents. *)
Definition exact_all (segs : list segment) (ds : list (list byte)) : Prop :=
  Forall2 exact segs ds.

(* ReadAt on a byte list, as documented by io.ReaderAt. *)
Definition spec_read_at (content : list byte) (len off : Z) (data : list byte) (e : merr) : Prop :=
  if (off <? 0) || (zlen content <=? off) then data = [] /\ e = MEof
  else data = zslice content off len /\
       (zlen data < len -> e = MEof) /\
       (zlen data = len -> e = MNil \/ (e = MEof /\ off + len = zlen content)).

(* One operation against a cursor [c] over [content]: which outcomes are allowed
   and the cursor afterwards. *)
Inductive cur_step (content : list byte) (c : Z) : mop -> mout -> Z -> Prop :=
| CReadEnd len : zlen content <= c ->
    cur_step content c (ORead len) (OutRead (MOk [] MEof)) c
| CRead len n e : c < zlen content ->
    0 <= n <= len -> c + n <= zlen content -> (0 < len -> 0 < n) ->
    (e = MNil \/ (e = MEof /\ c + n = zlen content)) ->
    cur_step content c (ORead len) (OutRead (MOk (zslice content c n) e)) (c + n)
| CReadAt len off data e : spec_read_at content len off data e ->
    cur_step content c (OReadAt len off) (OutRead (MOk data e)) c
| CSeekOk offset w base : 
    match w with SeekStart => base = 0 | SeekCurrent => base = c
               | SeekEnd => base = zlen content | SeekBad _ => False end ->
    0 <= base + offset <= max_int64 ->
    cur_step content c (OSeek offset w) (OutSeek (SeekOk (base + offset))) (base + offset)
| CSeekErr offset w :
    match w with
    | SeekStart => offset < 0
    | SeekCurrent => c + offset < 0 \/ max_int64 < c + offset
    | SeekEnd => zlen content + offset < 0 \/ max_int64 < zlen content + offset
    | SeekBad _ => True
    end ->
    cur_step content c (OSeek offset w) (OutSeek SeekErr) c.

Inductive cur_run (content : list byte) : Z -> list mop -> list mout -> Z -> Prop :=
| CurNil c : cur_run content c [] [] c
| CurCons c o x c1 ops xs c2 :
    cur_step content c o x c1 -> cur_run content c1 ops xs c2 ->
    cur_run content c (o :: ops) (x :: xs) c2.

(* Operations a Go caller can issue: buffers have non-negative length, offsets are int64. *)
Definition op_ok (o : mop) : Prop :=
  match o with
  | ORead len => 0 <= len
  | OReadAt len off => 0 <= len /\ in_int64 off
  | OSeek offset _ => in_int64 offset
  end.

(* ---- C03: segments whose declared size is wrong ---- *)

(* Byte at absolute position [x] of the declared layout, if the segment it falls in
   really holds it. *)
Fixpoint vbyte (segs : list segment) (ds : list (list byte)) (x : Z) : option byte :=
  match segs, ds with
  | s :: segs', d :: ds' =>
      if x <? sg_size s then zget d x else vbyte segs' ds' (x - sg_size s)
  | _, _ => None
  end.

Definition declared_total (segs : list segment) : Z :=
  fold_right (fun s a => sg_size s + a) 0 segs.

(* All segments except the last one hold at least what they declare. *)
Definition serves_all (segs : list segment) (ds : list (list byte)) : Prop :=
  Forall2 (fun s d => serves s d /\ 0 <= sg_size s) segs ds.

(* Draining with Read calls of the given buffer lengths: the bytes delivered until
   the first non-nil error, that error, or [None] if the calls ran out first. *)
Fixpoint drain (r : multi) (lens : list Z) : list byte * option merr :=
  match lens with
  | [] => ([], None)
  | l :: rest =>
      match read r l with
      | (MOk data MNil, r') => let (d, e) := drain r' rest in (data ++ d, e)
      | (MOk data e, _) => (data, Some e)
      | _ => ([], None)
      end
  end.
