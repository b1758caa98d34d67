(* C31: sparse files are reconstructed exactly. *)
From Verif Require Import Common MultiRead_Model MultiRead_Spec TarSparse_Model TarSparse_Spec TarSparse_Proofs.
Open Scope Z_scope.

(* Any history of Read, ReadAt and Seek on the opened file is a history of one cursor over
   the file the map describes. [pre] and [post] are the archive around the stored bytes. *)
Theorem C31_reads_the_described_file : forall pre stored post spd size ops,
  legal spd size -> zlen stored = stored_len spd -> size <= max_int64 -> Forall op_ok ops ->
  exists content, is_sparse_file spd stored size content /\
  let m := new_multi (make_reader (pre ++ stored ++ post) (zlen pre) (invert spd size) size) in
  exists outs, fst (mrun m ops) = outs /\ cur_run content 0 ops outs (m_off (snd (mrun m ops))).
Proof. exact sparse_history. Qed.
Print Assumptions C31_reads_the_described_file.

(* That file is unique. *)
Theorem C31_described_file_is_unique : forall spd stored size c1 c2,
  is_sparse_file spd stored size c1 -> is_sparse_file spd stored size c2 ->
  0 <= size -> Forall (fun e => 0 <= fst e) spd -> c1 = c2.
Proof. exact sparse_file_unique. Qed.
Print Assumptions C31_described_file_is_unique.

(* The stored bytes end where Sections says, which places the next header. *)
Theorem C31_body_end : forall spd size he, legal spd size -> body_end he size (invert spd size) = he + stored_len spd.
Proof. exact body_end_spec. Qed.
Print Assumptions C31_body_end.

(* The doc comment's example, with an empty fragment, adjacent fragments and no final hole. *)
Example C31_hypotheses_met :
  legal [(2, 2); (4, 3); (9, 0); (18, 3)] 21 /\
  invert [(2, 2); (4, 3); (9, 0); (18, 3)] 21 = [(0, 2); (7, 11); (21, 0)] /\
  stored_len [(2, 2); (4, 3); (9, 0); (18, 3)] = 8 /\
  fst (mrun (new_multi (make_reader ([7; 7] ++ [1; 2; 3; 4; 5; 6; 7; 8] ++ [9])%N 2 (invert [(2, 2); (4, 3); (9, 0); (18, 3)] 21) 21))
    [OReadAt 30 0; OSeek (-4) SeekEnd; ORead 9; ORead 9]) =
  [OutRead (MOk [0; 0; 1; 2; 3; 4; 5; 0; 0; 0; 0; 0; 0; 0; 0; 0; 0; 0; 6; 7; 8]%N MEof);
   OutSeek (SeekOk 17); OutRead (MOk [0]%N MNil); OutRead (MOk [6; 7; 8]%N MNil)].
Proof. vm_compute. repeat split; discriminate. Qed.
