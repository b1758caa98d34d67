(* Model of stream/seq_reader_at.go: an io.ReaderAt over a re-openable stream. *)
From Verif Require Import Common MultiRead_Model.
Open Scope Z_scope.

(* The world behind the `open` callback. All answers may depend on a call number.
   A stream opened at offset o is a position into [src_data]; one Read of len bytes
   at position pos returns [src_read t len pos] = (n, err) and the n bytes there. *)
Record source := Source {
  src_data : list byte;
  src_open : nat -> Z -> option N;          (* Some code: open fails *)
  src_close : nat -> option N;              (* Some code: Close fails *)
  src_read : nat -> Z -> Z -> Z * rerr
}.

(* seqReaderAt (seq_reader_at.go:17-22). [q_cur] is the position of the live stream
   inside the source, [q_off] the field r.off, [q_opens] the offsets passed to open
   so far (newest first), [q_t] the call number. *)
Record seqr := Seqr {
  q_size : Z;
  q_cur : option Z;
  q_off : Z;
  q_opens : list Z;
  q_t : nat
}.

Inductive serr := SNil | SEof | SErr (code : N) | SNegOff.

Inductive sres := SOk (data : list byte) (e : serr) | SHang.

(* NewSeqReaderAt (:48-52). *)
Definition new_seq (size : Z) : seqr := Seqr size None 0 [] 0.

(* Close (:58-65). *)
Definition seq_close (w : source) (r : seqr) : option N * seqr :=
  match q_cur r with
  | None => (None, r)
  | Some _ => (src_close w (q_t r), Seqr (q_size r) None (q_off r) (q_opens r) (S (q_t r)))
  end.

(* The read loop (:107-131). *)
Fixpoint seq_loop (fuel : nat) (w : source) (r : seqr) (len : Z) (maxExceeded : bool)
    (acc : list byte) : sres * seqr :=
  if len <=? 0 then (SOk acc (if maxExceeded then SEof else SNil), r)
  else
    match fuel with
    | O => (SHang, r)
    | S fuel' =>
        match q_cur r with
        | None => (SHang, r)   (* nil current: Go would panic; excluded by construction *)
        | Some pos =>
            let (n, e) := src_read w (q_t r) len pos in
            let data := zslice (src_data w) pos n in
            let off' := q_off r + n in
            match e with
            | RNil =>
                seq_loop fuel' w (Seqr (q_size r) (Some (pos + n)) off' (q_opens r) (S (q_t r)))
                  (len - n) maxExceeded (acc ++ data)
            | REof =>
                (SOk (acc ++ data) SEof, Seqr (q_size r) None off' (q_opens r) (S (S (q_t r))))
            | ROther c =>
                (SOk (acc ++ data) (SErr c), Seqr (q_size r) None off' (q_opens r) (S (S (q_t r))))
            end
        end
    end.

(* ReadAt (:72-131). *)
Definition seq_read_at (w : source) (r : seqr) (buflen off : Z) : sres * seqr :=
  if off <? 0 then (SOk [] SNegOff, r)
  else if q_size r <=? off then (SOk [] SEof, r)
  else
    let avail := q_size r - off in
    let maxExceeded := avail <? buflen in
    let len := if maxExceeded then avail else buflen in
    let fuel := S (Z.to_nat len) in
    let reopen (r0 : seqr) :=
      match src_open w (q_t r0) off with
      | Some c => (SOk [] (SErr c), Seqr (q_size r0) (q_cur r0) (q_off r0) (off :: q_opens r0) (S (q_t r0)))
      | None =>
          seq_loop fuel w
            (Seqr (q_size r0) (Some off) off (off :: q_opens r0) (S (q_t r0))) len maxExceeded []
      end in
    match q_cur r with
    | None => reopen r
    | Some _ =>
        if off =? q_off r then seq_loop fuel w r len maxExceeded []
        else
          match src_close w (q_t r) with
          | Some c => (SOk [] (SErr c), Seqr (q_size r) None (q_off r) (q_opens r) (S (q_t r)))
          | None => reopen (Seqr (q_size r) None (q_off r) (q_opens r) (S (q_t r)))
          end
    end.

Inductive sop := SReadAt (buflen off : Z) | SClose.
Inductive sout := SOutRead (x : sres) | SOutClose (e : option N).

Definition sstep (w : source) (r : seqr) (o : sop) : sout * seqr :=
  match o with
  | SReadAt l off => let (x, r') := seq_read_at w r l off in (SOutRead x, r')
  | SClose => let (x, r') := seq_close w r in (SOutClose x, r')
  end.

Fixpoint srun (w : source) (r : seqr) (ops : list sop) : list sout * seqr :=
  match ops with
  | [] => ([], r)
  | o :: rest =>
      let (x, r') := sstep w r o in
      let (xs, r'') := srun w r' rest in (x :: xs, r'')
  end.
