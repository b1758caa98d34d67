(* Model of stream/fileserver/chunk.go: large objects stored as numbered chunks. *)
From Verif Require Import Common MultiRead_Model SeqRead_Model.
Open Scope Z_scope.

(* chunkCount (chunk.go:19-25). Go's / truncates; the sum is an int64 sum. *)
Definition chunk_count (total chunk : Z) : Z :=
  if total =? 0 then 1 else Z.quot (wrap64 (wrap64 (total + chunk) - 1)) chunk.

(* expectedChunkSize (:30-44). *)
Definition expected_chunk_size (i total chunk : Z) : Z :=
  let n := chunk_count total chunk in
  if i <? n - 1 then chunk
  else if total =? 0 then 0
  else
    let rem := Z.rem total chunk in
    if rem =? 0 then chunk else rem.

(* The indices i, i+1, ..., of a Go loop running [k] times. *)
Fixpoint zrange (i : Z) (k : nat) : list Z :=
  match k with O => [] | S k' => i :: zrange (i + 1) k' end.

(* ---- ChunkedSource ---- *)

(* The reader returned by ChunkedSource.Open: a multiReadAtSeekCloser over one
   seqReaderAt per chunk. [cr_seqs] holds the states of those readers. *)
Record cread := CRead {
  cr_idx : nat;
  cr_off : Z;
  cr_seqs : list (source * seqr)
}.

(* What a seqReaderAt answers, as the error values MultiReadAtSeekCloser sees. A negative
   offset never reaches it; SHang is shown unreachable in SeqRead_Proofs. *)
Definition seg_answer (x : sres) : list byte * rerr :=
  match x with
  | SOk data SNil => (data, RNil)
  | SOk data SEof => (data, REof)
  | SOk data (SErr c) => (data, ROther c)
  | SOk data SNegOff => (data, ROther 0)
  | SHang => ([], ROther 0)
  end.

Definition seg_of (p : source * seqr) : segment :=
  Seg (fun _ len off => seg_answer (fst (seq_read_at (fst p) (snd p) len off))) (q_size (snd p)).

Definition multi_of (st : cread) : multi :=
  let segs := map seg_of (cr_seqs st) in
  Multi (cr_idx st) (cr_off st) (accum_sizes 0 segs) (translate 0 segs) 0.

Fixpoint update_nth {A} (k : nat) (f : A -> A) (l : list A) : list A :=
  match l, k with
  | [], _ => []
  | x :: r, O => f x :: r
  | x :: r, S k' => x :: update_nth k' f r
  end.

(* One Read on it: MultiReadAtSeekCloser.Read, whose call into the chunk it located
   also advances that chunk's seqReaderAt. *)
Definition cread_read (st : cread) (len : Z) : mres * cread :=
  let m := multi_of st in
  let (x, m') := read m len in
  let seqs' :=
    if m_upper m <=? m_off m then cr_seqs st
    else
      match search (m_off m) (skipn (m_idx m) (m_r m)) with
      | None => cr_seqs st
      | Some i =>
          match nth_error (skipn (m_idx m) (m_r m)) i with
          | None => cr_seqs st
          | Some rr =>
              update_nth (m_idx m + i)
                (fun p => (fst p, snd (seq_read_at (fst p) (snd p) len (m_off m - sz_head rr))))
                (cr_seqs st)
          end
      end in
  (x, CRead (m_idx m') (m_off m') seqs').

Fixpoint cread_run (st : cread) (lens : list Z) : list mres * cread :=
  match lens with
  | [] => ([], st)
  | l :: rest =>
      let (x, st') := cread_read st l in
      let (xs, st'') := cread_run st' rest in (x :: xs, st'')
  end.

(* Results of Open: an error, io.NopCloser over the empty string, or the reader. *)
Inductive copen := COErr | COEmpty | COReader (st : cread).

(* ChunkedSource.Open (:98-150). [srv i] is the object named name(i) behind
   client.Get: its bytes and how Get and the body behave. *)
Definition chunked_open (srv : Z -> source) (total chunk offset : Z) : copen :=
  if offset <? 0 then COErr
  else if total <? offset then COErr
  else if offset =? total then COEmpty
  else
    let nChunks := chunk_count total chunk in
    let firstChunk := Z.quot offset chunk in
    let intra := Z.rem offset chunk in
    let idxs := zrange firstChunk (Z.to_nat (nChunks - firstChunk)) in
    let seqs := map (fun i => (srv i, new_seq (expected_chunk_size i total chunk))) idxs in
    let st := CRead 0 0 seqs in
    if 0 <? intra then
      match seek (multi_of st) intra SeekStart with
      | (SeekErr, _) => COErr
      | (SeekOk _, m) => COReader (CRead (m_idx m) (m_off m) seqs)
      end
    else COReader st.

(* ---- ChunkedSink ---- *)

(* The file server: object name -> bytes. Names are an arbitrary key type, here Z. *)
Definition objects := Z -> option (list byte).

Definition put_obj (s : objects) (k : Z) (v : list byte) : objects :=
  fun k' => if k' =? k then Some v else s k'.

(* State (:199-221). [fail i] is an error of Stat on chunk i other than fs.ErrNotExist. *)
Inductive state_res := StErr (code : N) | StOk (offset : Z) (complete : bool).

Fixpoint state_loop (s : objects) (name : Z -> Z) (fail : Z -> option N) (total chunk : Z)
    (idxs : list Z) : state_res :=
  match idxs with
  | [] => StOk total true
  | i :: rest =>
      match fail i with
      | Some c => StErr c
      | None =>
          match s (name i) with
          | None => StOk (i * chunk) false
          | Some v =>
              if negb (zlen v =? expected_chunk_size i total chunk) then StOk (i * chunk) false
              else state_loop s name fail total chunk rest
          end
      end
  end.

Definition sink_state (s : objects) (name : Z -> Z) (fail : Z -> option N) (total chunk : Z)
    : state_res :=
  state_loop s name fail total chunk (zrange 0 (Z.to_nat (chunk_count total chunk))).

(* The io.Reader given to Append: the bytes it will deliver, then io.EOF (None) or an error. *)
Record areader := AReader { ar_data : list byte; ar_err : option N }.

(* What can go wrong while handling one chunk: creating or rewinding the temporary file,
   or the PUT; a PUT that fails may have left nothing or a prefix of the body behind. *)
Inductive put_out := PutOk | PutFail (left_ : option nat).
Record chunk_env := ChunkEnv { ce_tmp : bool; ce_seek : bool; ce_put : put_out }.

Inductive append_res :=
| AOk | AUnaligned | ATmp (i : Z) | ASpool (i : Z) (code : N) | AShort (i got want : Z)
| ASeek (i : Z) | APut (i : Z).

(* The loop of Append (:250-300). *)
Fixpoint append_loop (s : objects) (name : Z -> Z) (env : Z -> chunk_env) (total chunk nChunks : Z)
    (idxs : list Z) (r : areader) : append_res * objects :=
  match idxs with
  | [] => (AOk, s)
  | i :: rest =>
      let expected := expected_chunk_size i total chunk in
      if ce_tmp (env i) then (ATmp i, s)
      else
        (* io.CopyN(tmp, r, expected): a short copy carries the reader's error *)
        let data := zslice (ar_data r) 0 expected in
        let written := zlen data in
        let short := written <? expected in
        match (if short then ar_err r else None) with
        | Some c => (ASpool i c, s)
        | None =>
            if short && (i <? nChunks - 1) then (AShort i written expected, s)
            else if ce_seek (env i) then (ASeek i, s)
            else
              match ce_put (env i) with
              | PutFail None => (APut i, s)
              | PutFail (Some k) => (APut i, put_obj s (name i) (firstn k data))
              | PutOk =>
                  append_loop (put_obj s (name i) data) name env total chunk nChunks rest
                    (AReader (skipn (Z.to_nat expected) (ar_data r)) (ar_err r))
              end
        end
  end.

(* Append (:236-301). *)
Definition sink_append (s : objects) (name : Z -> Z) (env : Z -> chunk_env) (total chunk : Z)
    (offset : Z) (r : areader) : append_res * objects :=
  if negb (Z.rem offset chunk =? 0) then (AUnaligned, s)
  else
    let startChunk := Z.quot offset chunk in
    let nChunks := chunk_count total chunk in
    append_loop s name env total chunk nChunks
      (zrange startChunk (Z.to_nat (nChunks - startChunk))) r.

(* One upload session as Push drives it for a non-empty file (fsutil/resumable.go:460-; all
   of Push is in Transfer_Model): State, then, unless
   complete, Append of what the source delivers from that offset. [se_len] is how many
   bytes the source delivers before ending with [se_err]. *)
Record session := Session {
  se_stat : Z -> option N;
  se_env : Z -> chunk_env;
  se_len : nat;
  se_err : option N
}.

Inductive session_res := SeState (code : N) | SeComplete | SeAppend (x : append_res).

Definition run_session (d : list byte) (name : Z -> Z) (chunk : Z) (s : objects) (se : session)
    : session_res * objects :=
  let total := zlen d in
  match sink_state s name (se_stat se) total chunk with
  | StErr c => (SeState c, s)
  | StOk _ true => (SeComplete, s)
  | StOk offset false =>
      let (x, s') := sink_append s name (se_env se) total chunk offset
                       (AReader (firstn (se_len se) (skipn (Z.to_nat offset) d)) (se_err se)) in
      (SeAppend x, s')
  end.

Definition run_sessions (d : list byte) (name : Z -> Z) (chunk : Z) (s : objects)
    (ses : list session) : objects :=
  fold_left (fun s0 se => snd (run_session d name chunk s0 se)) ses s.
