(* Model of one transfer through all its layers: fsutil's Push (resumable.go:460-523) over
   ChunkedSink (chunk.go:156-312) over HTTPClient, and ChunkedSource over HTTPClient. *)
From Verif Require Import Common MultiRead_Model SeqRead_Model Chunk_Model FileClient_Model.
Open Scope Z_scope.

Section Transfer.
(* The server: its state and its answer to a request. *)
Context {S : Type}.
Variable srv : S -> hreq -> doing * S.
Variable base : str.
(* The name of each chunk, as given to NewChunkedSink and NewChunkedSource. *)
Variable name : Z -> str.
Variables total chunk : Z.

(* ChunkedSink.State (chunk.go:199-221) with its Stat calls. *)
Inductive ssres := SSErr | SSOk (offset : Z) (complete : bool).
Fixpoint state_over (idxs : list Z) (w : S) : ssres * S :=
  match idxs with
  | [] => (SSOk total true, w)
  | i :: rest =>
      match client_step srv base w (FStat (name i)) with
      | (RStat (TOk sz), w1) =>
          if negb (sz =? expected_chunk_size i total chunk) then (SSOk (i * chunk) false, w1)
          else state_over rest w1
      | (RStat (TErr CNotExist), w1) => (SSOk (i * chunk) false, w1)
      | (_, w1) => (SSErr, w1)
      end
  end.
Definition sink_state_over (w : S) : ssres * S := state_over (zrange 0 (Z.to_nat (chunk_count total chunk))) w.

(* ChunkedSink.Append (:236-301) with its Put calls. [tmp i]: creating the temporary file of
   chunk i fails; [rewind i]: rewinding it does. True is a nil error. *)
Variables tmp rewind : Z -> bool.
Fixpoint append_over (idxs : list Z) (r : areader) (w : S) : bool * S :=
  match idxs with
  | [] => (true, w)
  | i :: rest =>
      let expected := expected_chunk_size i total chunk in
      if tmp i then (false, w)
      else
        let data := zslice (ar_data r) 0 expected in
        let short := zlen data <? expected in
        if short && match ar_err r with Some _ => true | None => false end then (false, w)
        else if short && (i <? chunk_count total chunk - 1) then (false, w)
        else if rewind i then (false, w)
        else
          match client_step srv base w (FPut (name i) (zlen data) data) with
          | (RPut None, w1) => append_over rest (AReader (skipn (Z.to_nat expected) (ar_data r)) (ar_err r)) w1
          | (_, w1) => (false, w1)
          end
  end.
Definition sink_append_over (offset : Z) (r : areader) (w : S) : bool * S :=
  if negb (Z.rem offset chunk =? 0) then (false, w)
  else
    let start := Z.quot offset chunk in
    append_over (zrange start (Z.to_nat (chunk_count total chunk - start))) r w.

(* Push (resumable.go:460-523). The local file: whether opening, Stat and Seek fail, its size
   as Stat says, and what reading it from an offset up to that size delivers. The sink keeps
   no ETag, and its Commit (chunk.go:310-312) does nothing. *)
Record local := Local { l_open : bool; l_stat : bool; l_seek : bool; l_size : Z; l_read : Z -> areader }.
Inductive pushed := PushErr | PushComplete | PushCommitted.
Definition push_over (l : local) (info_size : Z) (w : S) : pushed * S :=
  if l_open l then (PushErr, w)
  else if l_stat l then (PushErr, w)
  else if (0 <=? info_size) && negb (info_size =? l_size l) then (PushErr, w)
  else
    match sink_state_over w with
    | (SSErr, w1) => (PushErr, w1)
    | (SSOk _ true, w1) => (PushComplete, w1)
    | (SSOk off false, w1) =>
        let offset := if l_size l <? off then 0 else off in
        if offset =? l_size l then (PushCommitted, w1)
        else if (0 <? offset) && l_seek l then (PushErr, w1)
        else
          let (ok, w2) := sink_append_over offset (l_read l offset) w1 in
          (if ok then PushCommitted else PushErr, w2)
    end.
End Transfer.

(* The open callback ChunkedSource gives to NewSeqReaderAt for chunk [i] (:124-128): a Get.
   The [t]-th call of that reader finds the server in state [at_ t]; a body that was handed
   over delivers as [rd] says and is the object's bytes from the offset on. *)
Definition chunk_source {S} (srv : S -> hreq -> doing * S) (base : str) (name : Z -> str)
    (at_ : Z -> nat -> S) (obj : Z -> list byte) (close : Z -> nat -> option N) (rd : Z -> nat -> Z -> Z -> Z * rerr) (i : Z) : source :=
  Source (obj i)
    (fun t off => match fst (client_step srv base (at_ i t) (FGet (name i) off)) with RGet (GOk _ _) => None | _ => Some 1%N end)
    (close i) (rd i).
