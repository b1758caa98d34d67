(* C13, C14, C15: chunked objects of stream/fileserver/chunk.go. *)
From Verif Require Import Common CommonLemmas MultiRead_Model SeqRead_Model SeqRead_Spec SeqRead_Proofs
  Chunk_Model Chunk_Spec Chunk_Proofs.
Open Scope Z_scope.

(* C13: chunkCount is the least number of chunks that covers the total. *)
Theorem C13_count_is_least_cover :
  forall total chunk, sizes_fit total chunk -> is_count total chunk (chunk_count total chunk).
Proof. exact chunk_count_is_count. Qed.
Print Assumptions C13_count_is_least_cover.

(* C13: every chunk is at most chunkSize, positive unless the object is empty, and full
   unless it is the last one. *)
Theorem C13_sizes_full_except_last :
  forall total chunk i, sizes_fit total chunk -> 0 <= i < chunk_count total chunk ->
    expected_chunk_size i total chunk <= chunk /\
    (0 < total -> 0 < expected_chunk_size i total chunk) /\
    (i < chunk_count total chunk - 1 -> expected_chunk_size i total chunk = chunk).
Proof. exact expected_props. Qed.
Print Assumptions C13_sizes_full_except_last.

Theorem C13_sizes_sum_to_total :
  forall total chunk, sizes_fit total chunk ->
    zsum (map (fun i => expected_chunk_size i total chunk)
            (zrange 0 (Z.to_nat (chunk_count total chunk)))) = total.
Proof. exact sum_expected. Qed.
Print Assumptions C13_sizes_sum_to_total.

(* C13: the size expected of chunk i is the length of the i-th slice of the file. *)
Theorem C13_expected_size_is_slice_length :
  forall (d : list byte) chunk i, sizes_fit (zlen d) chunk -> 0 <= i < chunk_count (zlen d) chunk ->
    expected_chunk_size i (zlen d) chunk = zlen (chunk_of d chunk i).
Proof. exact expected_is_slice. Qed.
Print Assumptions C13_expected_size_is_slice_length.

(* Outside sizes_fit the int64 sum wraps: MaxInt64 bytes in chunks of 2 give a count <= 0. *)
Theorem C13_near_max_int64_refuted :
  exists total chunk, 0 <= total <= max_int64 /\ 0 < chunk <= max_int64 /\ chunk_count total chunk <= 0.
Proof. exact c13_overflow. Qed.
Print Assumptions C13_near_max_int64_refuted.

Example C13_hypotheses_met :
  sizes_fit 10 4 /\ chunk_count 10 4 = 3 /\
  map (fun i => expected_chunk_size i 10 4) [0; 1; 2] = [4; 4; 2] /\
  map (fun i => expected_chunk_size i 8 4) [0; 1] = [4; 4] /\ expected_chunk_size 0 0 4 = 0.
Proof. unfold sizes_fit, max_int64. repeat split; try lia; vm_compute; reflexivity. Qed.

(* C14: whatever fails and whenever, every Read on the reader Open returns delivers the
   file's next bytes from the requested offset on; io.EOF only at the end; no panic. *)
Theorem C14_open_streams_tail :
  forall srv d chunk offset lens,
    sizes_fit (zlen d) chunk -> srv_holds srv d chunk -> 0 <= offset < zlen d ->
    Forall (fun l => 0 <= l) lens ->
    exists st, chunked_open srv (zlen d) chunk offset = COReader st /\
      reads_ok d offset lens (fst (cread_run st lens)) /\
      ((forall i, 0 <= i -> i * chunk < zlen d -> fault_free (srv i)) ->
         Forall no_error (fst (cread_run st lens)) /\
         Forall (fun p => (length (q_opens (snd p)) <= 1)%nat) (cr_seqs (snd (cread_run st lens)))).
Proof. exact chunked_open_reads. Qed.
Print Assumptions C14_open_streams_tail.

(* C14: outside the file Open fails, at its end there is nothing to read, and only there. *)
Theorem C14_open_bounds : forall srv total chunk offset,
  (offset < 0 \/ total < offset -> chunked_open srv total chunk offset = COErr) /\ (0 <= offset -> offset = total -> chunked_open srv total chunk offset = COEmpty) /\
  (chunked_open srv total chunk offset = COEmpty -> 0 <= offset /\ offset = total).
Proof. exact open_bounds. Qed.
Print Assumptions C14_open_bounds.

(* C14: without faults, enough reads deliver exactly the tail and then io.EOF, with at
   most one GET per chunk. *)
Theorem C14_drain_is_tail_with_one_get_per_chunk :
  forall srv d chunk offset lens,
    sizes_fit (zlen d) chunk -> srv_holds srv d chunk -> 0 <= offset < zlen d ->
    (forall i, 0 <= i -> i * chunk < zlen d -> fault_free (srv i)) ->
    Forall (fun l => 0 < l) lens -> zlen d - offset < zlen lens ->
    exists st, chunked_open srv (zlen d) chunk offset = COReader st /\
      concat (map res_data (fst (cread_run st lens))) = zslice d offset (zlen d - offset) /\
      Exists is_eof (fst (cread_run st lens)) /\
      Forall (fun p => (length (q_opens (snd p)) <= 1)%nat) (cr_seqs (snd (cread_run st lens))).
Proof. exact chunked_drain. Qed.
Print Assumptions C14_drain_is_tail_with_one_get_per_chunk.

Definition ex_srv (d : list byte) (chunk i : Z) : source := drip (chunk_of d chunk i).

Example C14_hypotheses_met :
  let d := [1;2;3;4;5;6;7]%N in
  sizes_fit (zlen d) 3 /\ srv_holds (ex_srv d 3) d 3 /\
  (forall i, 0 <= i -> i * 3 < zlen d -> fault_free (ex_srv d 3 i)) /\
  match chunked_open (ex_srv d 3) (zlen d) 3 4 with
  | COReader st => fst (cread_run st [2; 5; 5]) =
      [MOk [5;6]%N MNil; MOk [7]%N MEof; MOk [] MEof]
  | _ => False
  end /\
  chunked_open (ex_srv d 3) (zlen d) 3 7 = COEmpty /\ chunked_open (ex_srv d 3) (zlen d) 3 8 = COErr.
Proof.
  cbn zeta. split; [unfold sizes_fit, max_int64; cbn; lia|].
  split; [intros i _ _; split; [reflexivity|apply drip_ok]|].
  split; [intros i _ _; apply drip_ok|].
  split; [vm_compute; reflexivity|]. split; vm_compute; reflexivity.
Qed.

(* C15: after any history of upload sessions, failing anywhere, State counts only bytes
   that are stored, and says complete only when every chunk is exact. *)
Theorem C15_state_counts_only_stored_bytes :
  forall d name chunk ses fail s0, sizes_fit (zlen d) chunk ->
    let n := chunk_count (zlen d) chunk in names_distinct name n -> store_inv d name chunk n s0 ->
    let s := run_sessions d name chunk s0 ses in
    match sink_state s name fail (zlen d) chunk with
    | StErr c => exists i, 0 <= i < n /\ fail i = Some c
    | StOk off true => off = zlen d /\ forall i, 0 <= i < n -> s (name i) = Some (chunk_of d chunk i)
    | StOk off false => exists j, off = j * chunk /\ 0 <= j < n /\
        (forall i, 0 <= i < j -> s (name i) = Some (chunk_of d chunk i)) /\
        s (name j) <> Some (chunk_of d chunk j)
    end.
Proof. exact c15_state. Qed.
Print Assumptions C15_state_counts_only_stored_bytes.

(* C15: after any such history one undisturbed session ends with exactly the file. *)
Theorem C15_undisturbed_session_completes :
  forall d name chunk ses se s0, sizes_fit (zlen d) chunk ->
    let n := chunk_count (zlen d) chunk in names_distinct name n -> store_inv d name chunk n s0 ->
    se_stat se = nofail -> se_env se = clean_env -> (length d <= se_len se)%nat ->
    forall x s', run_session d name chunk (run_sessions d name chunk s0 ses) se = (x, s') ->
    (x = SeComplete \/ x = SeAppend AOk) /\
    (forall i, 0 <= i < n -> s' (name i) = Some (chunk_of d chunk i)) /\
    concat (map (chunk_of d chunk) (zrange 0 (Z.to_nat n))) = d.
Proof. exact c15_final. Qed.
Print Assumptions C15_undisturbed_session_completes.

(* C15: acknowledged progress is never lost by later sessions. *)
Theorem C15_progress_never_lost :
  forall d name chunk ses ses2 s0 o c o' c', sizes_fit (zlen d) chunk ->
    let n := chunk_count (zlen d) chunk in names_distinct name n -> store_inv d name chunk n s0 ->
    sink_state (run_sessions d name chunk s0 ses) name nofail (zlen d) chunk = StOk o c ->
    sink_state (run_sessions d name chunk (run_sessions d name chunk s0 ses) ses2) name nofail (zlen d) chunk
      = StOk o' c' ->
    o <= o' /\ (c = true -> c' = true).
Proof. exact c15_progress. Qed.
Print Assumptions C15_progress_never_lost.

(* C15: sessions never touch objects that are not chunks of this file. *)
Theorem C15_other_objects_untouched :
  forall d name chunk, sizes_fit (zlen d) chunk ->
    let n := chunk_count (zlen d) chunk in names_distinct name n ->
    forall ses s, store_inv d name chunk n s ->
    let s' := run_sessions d name chunk s ses in
    store_inv d name chunk n s' /\
    (forall key, (forall i, 0 <= i < n -> key <> name i) -> s' key = s key) /\
    (forall j, 0 <= j <= n -> (forall i, 0 <= i < j -> s (name i) = Some (chunk_of d chunk i)) ->
        (forall i, 0 <= i < j -> s' (name i) = Some (chunk_of d chunk i))).
Proof. exact sessions_inv. Qed.
Print Assumptions C15_other_objects_untouched.

(* C15 findings: Append returns nil although the source ended inside the last chunk (the
   short chunk is stored), and although the source had surplus bytes. *)
Theorem C15_source_ending_early_reported_refuted :
  exists d chunk r s',
    sizes_fit (zlen d) chunk /\ ar_err r = None /\ zlen (ar_data r) < zlen d /\
    sink_append (fun _ => None) (fun i => i) clean_env (zlen d) chunk 0 r = (AOk, s') /\
    s' 1 <> Some (chunk_of d chunk 1).
Proof. exact c15_short_refuted. Qed.
Print Assumptions C15_source_ending_early_reported_refuted.

Theorem C15_surplus_reported_refuted :
  exists (d : list byte) chunk r,
    sizes_fit (zlen d) chunk /\ zlen d < zlen (ar_data r) /\
    fst (sink_append (fun _ => None) (fun i => i) clean_env (zlen d) chunk 0 r) = AOk.
Proof. exact c15_long_refuted. Qed.
Print Assumptions C15_surplus_reported_refuted.

(* A PUT of chunk 1 that dies after one byte, then a source that dies, then a clean run. *)
Definition ex_ses : list session :=
  [Session nofail (fun i => ChunkEnv false false (if i =? 1 then PutFail (Some 1%nat) else PutOk)) 100 None;
   Session nofail clean_env 1 (Some 5%N)].

Example C15_hypotheses_met :
  let d := [1;2;3;4;5;6;7]%N in
  sizes_fit (zlen d) 3 /\ names_distinct (fun i => 10 + i) 3 /\
  store_inv d (fun i => 10 + i) 3 3 (fun _ => None) /\
  (let s := run_sessions d (fun i => 10 + i) 3 (fun _ => None) ex_ses in
   s 10 = Some [1;2;3]%N /\ s 11 = Some [4]%N /\ s 12 = None /\
   sink_state s (fun i => 10 + i) nofail 7 3 = StOk 3 false /\
   (let (x, s') := run_session d (fun i => 10 + i) 3 s (Session nofail clean_env 7 None) in
    x = SeAppend AOk /\ s' 11 = Some [4;5;6]%N /\ s' 12 = Some [7]%N /\
    sink_state s' (fun i => 10 + i) nofail 7 3 = StOk 7 true)).
Proof.
  cbn zeta. split; [unfold sizes_fit, max_int64; cbn; lia|].
  split; [intros i j _ _; lia|]. split; [apply store_inv_empty|].
  vm_compute. repeat split.
Qed.
