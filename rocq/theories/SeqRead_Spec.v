(* Specification of the sequential-source reader. *)
From Verif Require Import Common MultiRead_Model SeqRead_Model.
Open Scope Z_scope.

(* The streams obey io.Reader: at most len bytes, never past the data, io.EOF only
   at the end of the data, and some progress when no error is reported. Streams and
   open/close may still fail at any time. *)
Definition stream_ok (w : source) : Prop :=
  forall t len pos, 0 < len -> 0 <= pos <= zlen (src_data w) ->
    let (n, e) := src_read w t len pos in
    0 <= n <= len /\ pos + n <= zlen (src_data w) /\
    match e with RNil => 0 < n | REof => pos + n = zlen (src_data w) | ROther _ => True end.

(* Nothing ever fails. *)
Definition fault_free (w : source) : Prop :=
  (forall t off, 0 <= off < zlen (src_data w) -> src_open w t off = None) /\ (forall t, src_close w t = None) /\
  (forall t len pos c, snd (src_read w t len pos) <> ROther c).

(* Allowed results of ReadAt(p, off) with len(p) = len on content [d]. *)
Definition seq_read_spec (d : list byte) (len off : Z) (data : list byte) (e : serr) : Prop :=
  if off <? 0 then data = [] /\ e = SNegOff
  else if zlen d <=? off then data = [] /\ e = SEof
  else
    data = zslice d off (zlen data) /\ zlen data <= len /\ off + zlen data <= zlen d /\
    match e with
    | SNil => zlen data = len
    | SEof => off + zlen data = zlen d
    | SErr _ => True
    | SNegOff => False
    end.

Definition out_ok (d : list byte) (o : sop) (x : sout) : Prop :=
  match o, x with
  | SReadAt len off, SOutRead (SOk data e) => seq_read_spec d len off data e
  | SClose, SOutClose _ => True
  | _, _ => False
  end.

(* Result of a fault-free read, fully determined up to an early io.EOF at the end. *)
Definition seq_read_exact (d : list byte) (len off : Z) (x : sout) : Prop :=
  exists e, x = SOutRead (SOk (zslice d off len) e) /\
    (zlen (zslice d off len) < len -> e = SEof) /\
    (zlen (zslice d off len) = len -> e = SNil \/ (e = SEof /\ off + len = zlen d)).

(* Contiguous reads of the given lengths starting at [off]. *)
Fixpoint contiguous (off : Z) (lens : list Z) : list sop :=
  match lens with [] => [] | l :: rest => SReadAt l off :: contiguous (off + l) rest end.

Fixpoint zsum (l : list Z) : Z := match l with [] => 0 | x :: r => x + zsum r end.
