(* Model of readers of package stream put inside one another: stream/repeat.go,
   stream/seq_reader_at.go and stream/multi_read_at_closer.go with io.SectionReader, each
   keeping its own state between calls. *)
From Verif Require Import Common MultiRead_Model SeqRead_Model.
Open Scope Z_scope.

(* RLeaf is a reader the caller brings (a file, an HTTP reader), answering by call number;
   RRepeat is ByteRepeater (repeat.go:14-16), RSection io.SectionReader, RSeq seqReaderAt,
   RMulti multiReadAtSeekCloser over SizedReaderAt values (Size, R). *)
Inductive rd :=
| RLeaf (s : segment) (t : nat)
| RRepeat (b : byte)
| RSection (base limit : Z) (r : rd)
| RSeq (w : source) (q : seqr)
| RMulti (rs : list (Z * rd)).

(* The cause at the end of the chain of Unwrap; MultiReadError adds only to the message. *)
Inductive cause := CFault (code : N) | CNegative | CInvalidSize | CUnexpectedEOF.
Inductive xerr := XNil | XEof | XErr (c : cause).

Definition of_rerr (e : rerr) : xerr :=
  match e with RNil => XNil | REof => XEof | ROther c => XErr (CFault c) end.
Definition of_serr (e : serr) : xerr :=
  match e with SNil => XNil | SEof => XEof | SErr c => XErr (CFault c) | SNegOff => XErr CNegative end.

(* io.NewSectionReader: the limit saturates. *)
Definition new_section (r : rd) (off n : Z) : rd :=
  RSection off (if off <=? max_int64 - n then n + off else max_int64) r.

(* translated and accum of NewMultiReadAtSeekCloser (multi_read_at_closer.go:120-134), with
   int64 additions. *)
Fixpoint heads (accum : Z) (rs : list (Z * rd)) : list sized :=
  match rs with
  | [] => []
  | (z, _) :: rs => Sized (Seg (fun _ _ _ => ([], RNil)) z) accum :: heads (wrap64 (accum + z)) rs
  end.
Fixpoint upper (accum : Z) (rs : list (Z * rd)) : Z :=
  match rs with [] => accum | (z, _) :: rs => upper (wrap64 (accum + z)) rs end.

Fixpoint set_nth {A} (i : nat) (x : A) (l : list A) : list A :=
  match l, i with
  | [], _ => []
  | _ :: l, O => x :: l
  | y :: l, S i => y :: set_nth i x l
  end.

(* The error of one segment (:157-168, :242-253): [rem] is what the segment should still
   hold, [more] says whether segments follow. *)
Definition seg_err (rem n : Z) (more : bool) (e : xerr) : xerr :=
  match e with
  | XErr c => XErr c
  | _ =>
      let eof := match e with XEof => true | _ => false end in
      if rem <? n then XErr CInvalidSize
      else if eof && (n =? 0) && (0 <? rem) then XErr CUnexpectedEOF
      else if eof && more then XNil
      else e
  end.

Definition answer := option (list byte * xerr * rd).

(* readAt (:224-255); [ask] is R.ReadAt of a segment. *)
Definition multi_read1 (ask : rd -> Z -> Z -> answer) (rs : list (Z * rd)) (len off : Z)
    : option (list byte * xerr * list (Z * rd)) :=
  if (off <? 0) || (upper 0 rs <=? off) then Some ([], XEof, rs)
  else
    match search off (heads 0 rs) with
    | None => Some ([], XEof, rs)
    | Some i =>
        match nth_error (heads 0 rs) i, nth_error rs i with
        | Some h, Some (z, r) =>
            match ask r len (off - sz_head h) with
            | None => None
            | Some (data, e, r') =>
                Some (data, seg_err (z - (off - sz_head h)) (zlen data) (Z.of_nat i <? zlen rs - 1) e,
                      set_nth i (z, r') rs)
            end
        | _, _ => Some ([], XEof, rs)
        end
    end.

(* The loop of ReadAt (:209-220). *)
Fixpoint multi_loop (fuel : nat) (ask : rd -> Z -> Z -> answer) (rs : list (Z * rd)) (len off : Z)
    (maxExceeded : bool) (acc : list byte) : option (list byte * xerr * list (Z * rd)) :=
  match fuel with
  | O => None
  | S fuel =>
      match multi_read1 ask rs len off with
      | None => None
      | Some (data, e, rs) =>
          let is_nil := match e with XNil => true | _ => false end in
          if (zlen data =? len) || negb is_nil
          then Some (acc ++ data, if maxExceeded && is_nil then XEof else e, rs)
          else multi_loop fuel ask rs (len - zlen data) (off + zlen data) maxExceeded (acc ++ data)
      end
  end.

(* ReadAt (:200-221). *)
Definition multi_read_at (ask : rd -> Z -> Z -> answer) (rs : list (Z * rd)) (len off : Z)
    : option (list byte * xerr * list (Z * rd)) :=
  if (off <? 0) || (upper 0 rs <=? off) then Some ([], XEof, rs)
  else
    let max := upper 0 rs - off in
    if max <? len then multi_loop (S (length rs)) ask rs max off true []
    else multi_loop (S (length rs)) ask rs len off false [].

(* ReadAt(p, off) with len(p) = len: ByteRepeater (repeat.go:28-33) looks at no offset,
   io.SectionReader shifts and clips, seqReaderAt is seq_read_at. [k] bounds how deep readers
   are nested; None says that it was not enough. *)
Fixpoint rd_read (k : nat) (r : rd) (len off : Z) : answer :=
  match r with
  | RLeaf s t => let (data, e) := sg_read s t len off in Some (data, of_rerr e, RLeaf s (S t))
  | RRepeat b => Some (repeat b (Z.to_nat len), XNil, r)
  | RSeq w q =>
      match seq_read_at w q len off with
      | (SOk data e, q') => Some (data, of_serr e, RSeq w q')
      | (SHang, _) => None
      end
  | RSection base limit r0 =>
      match k with
      | O => None
      | S k =>
          if (off <? 0) || (limit - base <=? off) then Some ([], XEof, r)
          else
            let max := limit - (off + base) in
            if max <? len then
              match rd_read k r0 max (off + base) with
              | None => None
              | Some (data, e, r1) =>
                  Some (data, match e with XNil => XEof | _ => e end, RSection base limit r1)
              end
            else
              match rd_read k r0 len (off + base) with
              | None => None
              | Some (data, e, r1) => Some (data, e, RSection base limit r1)
              end
      end
  | RMulti rs =>
      match k with
      | O => None
      | S k =>
          match multi_read_at (rd_read k) rs len off with
          | None => None
          | Some (data, e, rs') => Some (data, e, RMulti rs')
          end
      end
  end.

Fixpoint depth (r : rd) : nat :=
  match r with
  | RSection _ _ r => S (depth r)
  | RMulti rs => S (list_max (map (fun p => depth (snd p)) rs))
  | _ => O
  end.

(* A history of ReadAt calls on one reader. *)
Fixpoint rd_run (k : nat) (r : rd) (calls : list (Z * Z)) : option (list (list byte * xerr) * rd) :=
  match calls with
  | [] => Some ([], r)
  | (len, off) :: calls =>
      match rd_read k r len off with
      | None => None
      | Some (data, e, r) =>
          match rd_run k r calls with None => None | Some (outs, r) => Some ((data, e) :: outs, r) end
      end
  end.

(* Size() of the readers that have it (seq_reader_at.go:55, io.SectionReader.Size) and
   SizedReadersFromReadAtSizer (multi_read_at_closer.go:87-96). None: T has no such method. *)
Definition size_method (r : rd) : option Z :=
  match r with RSection base limit _ => Some (limit - base) | RSeq _ q => Some (q_size q) | _ => None end.
Fixpoint sized_of_sizers (rs : list rd) : option (list (Z * rd)) :=
  match rs with
  | [] => Some []
  | r :: rs =>
      match size_method r, sized_of_sizers rs with
      | Some z, Some l => Some ((z, r) :: l)
      | _, _ => None
      end
  end.

(* SizedReadersFromFileLike (:63-76): each file with what its Stat answers, the size or an
   error. *)
Fixpoint sized_of_files (fs : list (rd * (Z + N))) : list (Z * rd) + N :=
  match fs with
  | [] => inl []
  | (_, inr c) :: _ => inr c
  | (r, inl z) :: fs => match sized_of_files fs with inl l => inl ((z, r) :: l) | inr c => inr c end
  end.

(* The cursor of multiReadAtSeekCloser (:111-116) and Read (:136-171); None stands for a
   panic or too small a [k]. *)
Record tcur := TCur { c_idx : nat; c_off : Z; c_rs : list (Z * rd) }.
Definition new_tcur (rs : list (Z * rd)) : tcur := TCur 0 0 rs.
Definition t_read (k : nat) (c : tcur) (len : Z) : option (list byte * xerr * tcur) :=
  if upper 0 (c_rs c) <=? c_off c then Some ([], XEof, c)
  else
    match search (c_off c) (skipn (c_idx c) (heads 0 (c_rs c))) with
    | None => None
    | Some i =>
        match nth_error (heads 0 (c_rs c)) (c_idx c + i), nth_error (c_rs c) (c_idx c + i) with
        | Some h, Some (z, r) =>
            match rd_read k r len (c_off c - sz_head h) with
            | None => None
            | Some (data, e, r') =>
                let n := zlen data in
                let eof := match e with XEof => true | _ => false end in
                let rs' := set_nth (c_idx c + i) (z, r') (c_rs c) in
                let c' := if (0 <? n) || eof then TCur (c_idx c + i) (c_off c + n) rs'
                          else TCur (c_idx c) (c_off c) rs' in
                Some (data, seg_err (z - (c_off c - sz_head h)) n (Z.of_nat (c_idx c') <? zlen rs' - 1) e, c')
            end
        | _, _ => None
        end
    end.

(* io.ReadAll and io.Copy: Read with buffers of the given lengths until an error. *)
Fixpoint t_drain (k : nat) (c : tcur) (lens : list Z) : option (list byte * option xerr * tcur) :=
  match lens with
  | [] => Some ([], None, c)
  | len :: lens =>
      match t_read k c len with
      | None => None
      | Some (data, XNil, c') =>
          match t_drain k c' lens with
          | None => None
          | Some (rest, e, c'') => Some (data ++ rest, e, c'')
          end
      | Some (data, e, c') => Some (data, Some e, c')
      end
  end.
