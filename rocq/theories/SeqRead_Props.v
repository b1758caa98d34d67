(* C04: the sequential-source ReaderAt of stream/seq_reader_at.go. *)
From Verif Require Import Common CommonLemmas MultiRead_Model SeqRead_Model SeqRead_Spec SeqRead_Proofs.
Open Scope Z_scope.

(* For every history of ReadAt and Close calls, with open, close and stream reads
   failing at arbitrary moments, every ReadAt returns bytes of the content at its own
   offset: all of them with nil, up to the end with io.EOF, or a prefix with the error. *)
Theorem C04_any_history_returns_own_slice :
  forall w ops, stream_ok w ->
    Forall (fun o => match o with SReadAt l _ => 0 <= l | SClose => True end) ops ->
    Forall2 (out_ok (src_data w)) ops (fst (srun w (new_seq (zlen (src_data w))) ops)).
Proof. exact seq_history. Qed.
Print Assumptions C04_any_history_returns_own_slice.

(* Without faults the result is exactly the slice with the io.ReaderAt EOF rule. *)
Theorem C04_fault_free_history_is_random_access :
  forall w ops, stream_ok w -> fault_free w ->
    Forall (fun o => match o with SReadAt l off => 0 <= l /\ 0 <= off < zlen (src_data w) | SClose => True end) ops ->
    Forall2 (fun o x => match o with SReadAt l off => seq_read_exact (src_data w) l off x
                                   | SClose => x = SOutClose None end) ops
      (fst (srun w (new_seq (zlen (src_data w))) ops)).
Proof. exact seq_history_exact. Qed.
Print Assumptions C04_fault_free_history_is_random_access.

(* A contiguous run of reads inside the content opens the source once, at its start. *)
Theorem C04_contiguous_reads_open_once :
  forall w lens off, stream_ok w -> fault_free w -> Forall (fun l => 0 < l) lens ->
    lens <> [] -> 0 <= off -> off + zsum lens < zlen (src_data w) ->
    q_opens (snd (srun w (new_seq (zlen (src_data w))) (contiguous off lens))) = [off].
Proof. exact seq_one_open. Qed.
Print Assumptions C04_contiguous_reads_open_once.

Example C04_hypotheses_met :
  stream_ok (drip [1;2;3;4;5;6;7]%N) /\ fault_free (drip [1;2;3;4;5;6;7]%N) /\
  fst (srun (drip [1;2;3;4;5;6;7]%N) (new_seq 7)
        [SReadAt 3 1; SReadAt 2 4; SReadAt 5 0; SReadAt 9 5; SClose]) =
  [SOutRead (SOk [2;3;4]%N SNil); SOutRead (SOk [5;6]%N SNil); SOutRead (SOk [1;2;3;4;5]%N SNil);
   SOutRead (SOk [6;7]%N SEof); SOutClose None] /\
  q_opens (snd (srun (drip [1;2;3;4;5;6;7]%N) (new_seq 7) (contiguous 1 [3; 2]))) = [1].
Proof.
  split; [apply drip_ok|]. split; [apply drip_ok|]. split; vm_compute; reflexivity.
Qed.
