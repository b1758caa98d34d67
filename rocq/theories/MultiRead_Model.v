(* Model of stream/multi_read_at_closer.go: virtual concatenation of sized readers. *)
From Verif Require Import Common.
Open Scope Z_scope.

(* What one io.ReaderAt.ReadAt call of a segment may return as error. *)
Inductive rerr := RNil | REof | ROther (code : N).

(* SizedReaderAt (multi_read_at_closer.go:51-54). The io.ReaderAt R is a function
   of a call number (so it may answer differently each time), len(p) and the
   offset; it returns the bytes written to p[:n] and the error. *)
Record segment := Seg {
  sg_read : nat -> Z -> Z -> list byte * rerr;
  sg_size : Z
}.

(* sizedReaderAt (:96-102). *)
Record sized := Sized { sz_seg : segment; sz_head : Z }.

(* The translation loop of NewMultiReadAtSeekCloser (:120-129). int64 overflow of
   the running sum is not modelled here: theorems bound the total by MaxInt64. *)
Fixpoint translate (accum : Z) (readers : list segment) : list sized :=
  match readers with
  | [] => []
  | rr :: rest => Sized rr accum :: translate (accum + sg_size rr) rest
  end.

Fixpoint accum_sizes (accum : Z) (readers : list segment) : Z :=
  match readers with
  | [] => accum
  | rr :: rest => accum_sizes (accum + sg_size rr) rest
  end.

(* multiReadAtSeekCloser (:111-116). [m_t] numbers the calls into the segments;
   it exists only to let segment readers answer differently over time. *)
Record multi := Multi {
  m_idx : nat;
  m_off : Z;
  m_upper : Z;
  m_r : list sized;
  m_t : nat
}.

(* NewMultiReadAtSeekCloser (:120-134). *)
Definition new_multi (readers : list segment) : multi :=
  Multi 0 0 (accum_sizes 0 readers) (translate 0 readers) 0.

(* The comparison passed to BinarySearchFunc (:285-294). *)
Definition cmp_off (r : sized) (off : Z) : Z :=
  if off <? sz_head r then 1
  else if (sz_head r <=? off) && (off <? sz_head r + sg_size (sz_seg r)) then 0
  else -1.

(* The loop of slices.BinarySearchFunc (Go standard library, pdqsort-free part):
     for i < j { h := int(uint(i+j) >> 1); if cmp(x[h], target) < 0 { i = h+1 } else { j = h } }
   [fuel] bounds the iterations; j - i shrinks every time, so j - i suffices. *)
Fixpoint bs_loop (fuel : nat) (off : Z) (x : list sized) (i j : nat) : option nat :=
  if (i <? j)%nat then
    match fuel with
    | O => None
    | S fuel' =>
        let h := ((i + j) / 2)%nat in
        match nth_error x h with
        | None => None (* index out of range: cannot happen, h < j <= len(x) *)
        | Some r =>
            if cmp_off r off <? 0 then bs_loop fuel' off x (h + 1) j
            else bs_loop fuel' off x i h
        end
    end
  else Some i.

(* binarySearch (:284-299); [None] stands for the result -1. *)
Definition binary_search (off : Z) (readers : list sized) : option nat :=
  match bs_loop (length readers) off readers 0 (length readers) with
  | None => None
  | Some i =>
      match nth_error readers i with
      | None => None                                   (* i < n is false *)
      | Some r => if cmp_off r off =? 0 then Some i else None
      end
  end.

(* The linear loop of search (:276-281). *)
Fixpoint linear_search (i : nat) (off : Z) (readers : list sized) : option nat :=
  match readers with
  | [] => None
  | rr :: rest =>
      if (sz_head rr <=? off) && (off <? sz_head rr + sg_size (sz_seg rr)) then Some i
      else linear_search (S i) off rest
  end.

(* searchThreshold (:267). *)
Definition search_threshold : nat := 32.

(* search (:269-282). *)
Definition search (off : Z) (readers : list sized) : option nat :=
  if (search_threshold <? length readers)%nat then binary_search off readers
  else linear_search 0 off readers.

(* MultiReadError.Err (:22-38). *)
Inductive inner_err := IReader (code : N) | IInvalidSize | IUnexpectedEOF.

(* error results of Read, ReadAt and readAt. *)
Inductive merr :=
| MNil
| MEof
| MErr (index : nat) (readerOff totalOff bufLen : Z) (e : inner_err).

(* Outcome of a call. [MPanic] is a Go run-time panic (slice index -1), [MHang]
   an exhausted loop budget. *)
Inductive mres :=
| MOk (data : list byte) (e : merr)
| MPanic
| MHang.

(* The error post-processing shared by Read (:157-168) and readAt (:242-253):
   [idx] is what wrapErr captures, [i] the index compared with len(r.r)-1. *)
Definition classify (r : multi) (idx i : nat) (rr : sized) (readerOff off buflen : Z)
    (n : Z) (e : rerr) : merr :=
  let rem := sg_size (sz_seg rr) - readerOff in
  match e with
  | ROther c => MErr idx readerOff off buflen (IReader c)
  | _ =>
      let eof := match e with REof => true | _ => false end in
      if rem <? n then MErr idx readerOff off buflen IInvalidSize
      else if eof && (n =? 0) && (0 <? rem) then MErr idx readerOff off buflen IUnexpectedEOF
      else if eof && (Z.of_nat i <? zlen (m_r r) - 1) then MNil
      else if eof then MEof else MNil
  end.

(* Read (:136-171). *)
Definition read (r : multi) (buflen : Z) : mres * multi :=
  if m_upper r <=? m_off r then (MOk [] MEof, r)
  else
    match search (m_off r) (skipn (m_idx r) (m_r r)) with
    | None => (MPanic, r)
    | Some i =>
        match nth_error (skipn (m_idx r) (m_r r)) i with
        | None => (MPanic, r)
        | Some rr =>
            let off := m_off r in
            let readerOff := off - sz_head rr in
            let (data, e) := sg_read (sz_seg rr) (m_t r) buflen readerOff in
            let n := zlen data in
            let eof := match e with REof => true | _ => false end in
            let r' :=
              if (0 <? n) || eof
              then Multi (m_idx r + i) (off + n) (m_upper r) (m_r r) (S (m_t r))
              else Multi (m_idx r) off (m_upper r) (m_r r) (S (m_t r)) in
            (MOk data (classify r' (m_idx r') (m_idx r') rr readerOff off buflen n e), r')
        end
    end.

(* whence argument of Seek. *)
Inductive whence := SeekStart | SeekCurrent | SeekEnd | SeekBad (w : Z).

Inductive seek_res := SeekOk (pos : Z) | SeekErr.

(* Seek (:173-197). The additions are int64 additions. *)
Definition seek (r : multi) (offset : Z) (w : whence) : seek_res * multi :=
  let target :=
    match w with
    | SeekBad _ => None
    | SeekStart => Some offset
    | SeekCurrent => Some (wrap64 (offset + m_off r))
    | SeekEnd => Some (wrap64 (offset + m_upper r))
    end in
  match target with
  | None => (SeekErr, r)
  | Some offset' =>
      if offset' <? 0 then (SeekErr, r)
      else if m_upper r <=? offset'
      then (SeekOk offset', Multi (length (m_r r)) offset' (m_upper r) (m_r r) (m_t r))
      else
        match search offset' (m_r r) with
        (* search returning -1 would set idx to -1; the next Read then panics.
           Represented by an out of range index. *)
        | None => (SeekOk offset', Multi (S (length (m_r r))) offset' (m_upper r) (m_r r) (m_t r))
        | Some i => (SeekOk offset', Multi i offset' (m_upper r) (m_r r) (m_t r))
        end
  end.

(* readAt (:224-255). *)
Definition read_at1 (r : multi) (t : nat) (buflen off : Z) : list byte * merr :=
  if (off <? 0) || (m_upper r <=? off) then ([], MEof)
  else
    match search off (m_r r) with
    | None => ([], MEof)
    | Some i =>
        match nth_error (m_r r) i with
        | None => ([], MEof)
        | Some rr =>
            let readerOff := off - sz_head rr in
            let (data, e) := sg_read (sz_seg rr) t buflen readerOff in
            (data, classify r i i rr readerOff off buflen (zlen data) e)
        end
    end.

(* The loop of ReadAt (:209-220). [acc] is what was already copied. *)
Fixpoint read_at_loop (fuel : nat) (r : multi) (t : nat) (buflen off : Z)
    (maxExceeded : bool) (acc : list byte) : mres :=
  match fuel with
  | O => MHang
  | S fuel' =>
      let (data, e) := read_at1 r t buflen off in
      let nn := zlen data in
      let is_nil := match e with MNil => true | _ => false end in
      if (nn =? buflen) || negb is_nil
      then MOk (acc ++ data) (if maxExceeded && is_nil then MEof else e)
      else read_at_loop fuel' r (S t) (buflen - nn) (off + nn) maxExceeded (acc ++ data)
  end.

(* ReadAt (:200-221). The state is not modified (only the call counter moves on,
   by the number of segments plus one, which bounds the calls made). *)
Definition read_at (fuel : nat) (r : multi) (buflen off : Z) : mres :=
  if (off <? 0) || (m_upper r <=? off) then MOk [] MEof
  else
    let max := m_upper r - off in
    if max <? buflen then read_at_loop fuel r (m_t r) max off true []
    else read_at_loop fuel r (m_t r) buflen off false [].

(* One operation of a history. *)
Inductive mop := ORead (buflen : Z) | OReadAt (buflen off : Z) | OSeek (offset : Z) (w : whence).
Inductive mout := OutRead (x : mres) | OutSeek (x : seek_res).

Definition mstep (r : multi) (o : mop) : mout * multi :=
  match o with
  | ORead l => let (x, r') := read r l in (OutRead x, r')
  | OReadAt l off =>
      (OutRead (read_at (S (length (m_r r))) r l off),
       Multi (m_idx r) (m_off r) (m_upper r) (m_r r) (S (length (m_r r)) + m_t r))
  | OSeek offset w => let (x, r') := seek r offset w in (OutSeek x, r')
  end.

Fixpoint mrun (r : multi) (ops : list mop) : list mout * multi :=
  match ops with
  | [] => ([], r)
  | o :: rest =>
      let (x, r') := mstep r o in
      let (xs, r'') := mrun r' rest in (x :: xs, r'')
  end.
