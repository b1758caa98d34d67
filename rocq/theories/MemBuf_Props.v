(* C37: an in-memory file is an array of bytes with holes. C38: appends. *)
From Coq Require Import Permutation.
From Verif Require Import Common Views_Model Views_Props MemBuf_Model MemBuf_Spec MemBuf_Proofs.
Open Scope Z_scope.

(* Every history over any number of handles gives the results of the abstract file, as long
   as no call asks for more memory than Go can allocate at once. *)
Theorem C37_file_is_an_array_with_holes fl g cs : Forall op_fits cs -> affordable fl g a_fresh cs ->
  snd (mrun fl g fresh_mem cs) = snd (a_run fl a_fresh cs) /\ shows (fst (mrun fl g fresh_mem cs)) (fst (a_run fl a_fresh cs)).
Proof. exact (mem_refines fl g cs). Qed.
Print Assumptions C37_file_is_an_array_with_holes.

(* A single call from any state that shows a file: the file's answer, or a panic that leaves
   the content alone and only comes from asking for too much. *)
Theorem C37_one_call fl g s f c : minv s -> shows s f -> op_fits c ->
  let '(s1, r) := mstep fl g s c in
  let '(f1, r') := a_step fl f c in
  minv s1 /\ ((r = Some MPanic /\ max_alloc g < wants fl f c /\ m_buf s1 = m_buf s) \/ (r = r' /\ shows s1 f1)).
Proof. exact (step_spec fl g s f c). Qed.
Print Assumptions C37_one_call.

Definition ex_heap : goheap := {| spare := fun n => Z.to_nat (n + 8); max_alloc := 140737488355328 |}.
Definition ex_ops : list (nat * mop) :=
  [(0%nat, MOpen 2); (0%nat, MOpen 1025); (0%nat, MWrite [1%N; 2%N; 3%N; 4%N]); (0%nat, MTruncate 1); (1%nat, MWrite [9%N]);
   (0%nat, MWriteAt [7%N] 5); (0%nat, MSeek (-6) 2); (0%nat, MRead 9); (1%nat, MRead 1); (0%nat, MTruncate 3); (0%nat, MTruncate 4); (0%nat, MReadAt 4 0)].
Example C37_hypotheses_met : Forall op_fits ex_ops /\ affordable linux_flags ex_heap a_fresh ex_ops /\
  nth 7 (snd (mrun linux_flags ex_heap fresh_mem ex_ops)) None = Some (MOk 6 [1%N; 9%N; 0%N; 0%N; 0%N; 7%N] e_eof) /\
  nth 8 (snd (mrun linux_flags ex_heap fresh_mem ex_ops)) None = Some (MOk 0 [] e_badf) /\
  nth 11 (snd (mrun linux_flags ex_heap fresh_mem ex_ops)) None = Some (MOk 4 [1%N; 9%N; 0%N; 0%N] e_nil).
Proof.
  split; [|split; [|split; [|split]]]; try reflexivity.
  - unfold ex_ops. repeat (apply Forall_cons; [unfold op_fits, in_int64, min_int64, max_int64; cbn; lia|]). apply Forall_nil.
  - unfold affordable. repeat (split; [vm_compute; discriminate|]). exact I.
Qed.

(* A size no allocation can have makes Truncate panic instead of failing. *)
Theorem C37_truncate_always_returns_refuted : exists fl g cs c, Forall op_fits (cs ++ [c]) /\ affordable fl g a_fresh cs /\
  snd (mstep fl g (fst (mrun fl g fresh_mem cs)) c) = Some MPanic.
Proof.
  exists linux_flags, ex_heap, [(0%nat, MOpen 2)], (0%nat, MTruncate 4611686018427387904). split; [|split; [|reflexivity]].
  - repeat (apply Forall_cons; [unfold op_fits, in_int64, min_int64, max_int64; cbn; lia|]). apply Forall_nil.
  - split; [vm_compute; discriminate|exact I].
Qed.
Print Assumptions C37_truncate_always_returns_refuted.

(* Any number of goroutines appending through one handle, in any interleaving of the locked
   sections, to a file of any history: each write appears once, whole. *)
Theorem C38_one_handle_loses_nothing_partial g h0 cs fl f ts is :
  let s := fst (mrun fl g fresh_mem cs) in
  Forall op_fits cs -> affordable fl g f cs -> f = a_fresh ->
  Forall idle ts -> Forall (fun t => t_handle t = h0) ts ->
  s_len (m_buf s) + zlen (concat (todo ts)) <= max_int64 -> s_len (m_buf s) + zlen (concat (todo ts)) <= max_alloc g ->
  let c := crun g (ready (m_buf s) ts) is in
  s_bytes (c_buf c) = s_bytes (m_buf s) ++ concat (c_written c) /\ Permutation (c_written c ++ todo (c_threads c)) (todo ts).
Proof. exact (appends_one_handle g h0 cs fl f ts is). Qed.
Print Assumptions C38_one_handle_loses_nothing_partial.

Definition writer (h : nat) (ps : list (list byte)) : thread := {| t_handle := h; t_pc := None; t_todo := ps |}.
Example C38_hypotheses_met : Forall idle [writer 0 [[1%N]; [2%N; 3%N]]; writer 0 [[4%N]]] /\
  s_bytes (c_buf (crun ex_heap (ready (m_buf fresh_mem) [writer 0 [[1%N]; [2%N; 3%N]]; writer 0 [[4%N]]]) [0; 1; 0; 1; 0; 1; 0; 0; 0]%nat)) = [1%N; 4%N; 2%N; 3%N].
Proof. split; [repeat (apply Forall_cons; [reflexivity|]); apply Forall_nil|reflexivity]. Qed.

(* Through two handles a write can be overwritten: both look up the length first. *)
Theorem C38_two_handles_lose_a_write_refuted : exists g ts is,
  let c := crun g (ready (m_buf fresh_mem) ts) is in
  Forall idle ts /\ todo (c_threads c) = [] /\ c_written c = [[1%N; 2%N]; [3%N]] /\ s_bytes (c_buf c) = [3%N; 2%N].
Proof. exists ex_heap, [writer 0 [[1%N; 2%N]]; writer 1 [[3%N]]], [0; 1; 0; 1]%nat. cbn zeta. split; [repeat (apply Forall_cons; [reflexivity|]); apply Forall_nil|]. repeat split. Qed.
Print Assumptions C38_two_handles_lose_a_write_refuted.
