(* C79: goroutines on the handles of one in-memory file. *)
From Verif Require Import Common Views_Model Views_Props MemBuf_Model MemBuf_Spec MemBuf_Proofs MemRace_Model MemRace_Spec MemRace_Proofs.
Open Scope Z_scope.

(* Any goroutines making any calls on any handles of a file of any history, in any schedule,
   as long as whoever appends does so through the one handle that changes the file: there is an
   order of the calls that respects who returned before whom called, in which each call is one
   step of the abstract file, and which leaves the bytes that are there. *)
Theorem C79_calls_happen_in_some_order_partial fl g cs progs sched :
  let s := fst (mrun fl g fresh_mem cs) in let f := fst (a_run fl a_fresh cs) in
  Forall op_fits cs -> affordable fl g a_fresh cs -> roomy g ->
  calls_ok (length (m_handles s)) progs -> orderly fl (m_handles s) progs ->
  let w := run fl g (start s progs) sched in explained fl f (w_ev w) (s_bytes (w_buf w)).
Proof. exact (linearizable_reached fl g cs progs sched). Qed.
Print Assumptions C79_calls_happen_in_some_order_partial.

Definition big_heap : goheap := {| spare := fun n => Z.to_nat (n + 8); max_alloc := max_int64 |}.
Definition ex_cs : list (nat * mop) := [(0%nat, MOpen 2); (0%nat, MOpen 1025); (0%nat, MOpen 0); (0%nat, MWrite [1%N; 2%N])].
Definition ex_progs : list (list (nat * cop)) :=
  [[(0%nat, CWrite [7%N; 8%N]); (0%nat, CClose)]; [(0%nat, CWriteAt [5%N] 1); (2%nat, CRead 9)]; [(0%nat, CTruncate 3); (0%nat, CStat)]].
Example C79_order_ex :
  let s := fst (mrun linux_flags big_heap fresh_mem ex_cs) in
  let w := run linux_flags big_heap (start s ex_progs) [0;0;0;1;1;2;2;0;1;0;2;0;0;2;1;1;2;2;2;1;1;1;1;1;1;1;0;0;0;0]%nat in
  Forall op_fits ex_cs /\ affordable linux_flags big_heap a_fresh ex_cs /\ roomy big_heap /\
  calls_ok (length (m_handles s)) ex_progs /\ orderly linux_flags (m_handles s) ex_progs /\
  s_bytes (w_buf w) = [1%N; 5%N; 7%N] /\ rets 1 (w_ev w) = [(0%nat, CWriteAt [5%N] 1, MOk 1 [] e_nil); (2%nat, CRead 9, MOk 3 [1%N; 5%N; 7%N] e_eof)].
Proof.
  cbn zeta. split; [|split; [|split; [|split; [|split; [|split]]]]].
  - unfold ex_cs. repeat (apply Forall_cons; [unfold op_fits, in_int64, min_int64, max_int64; cbn; lia|]). apply Forall_nil.
  - unfold affordable. repeat (split; [vm_compute; discriminate|]). exact I.
  - unfold roomy. cbn. lia.
  - unfold calls_ok, ex_progs. repeat (apply Forall_cons; [repeat (apply Forall_cons; [split; [vm_compute; lia|unfold op_fits, in_int64, min_int64, max_int64; cbn; lia]|]); apply Forall_nil|]). apply Forall_nil.
  - intros h c p Hin Hc Hw Ha. exfalso. vm_compute in Hin. repeat (destruct Hin as [E|Hin]; [inversion E; subst; vm_compute in Hc; inversion Hc; subst; vm_compute in Ha; discriminate|]). exact Hin.
  - vm_compute. reflexivity.
  - vm_compute. reflexivity.
Qed.

(* Not so when a file is truncated while somebody appends: the length was looked up before. *)
Theorem C79_append_with_truncate_refuted : exists fl g cs progs sched,
  let s := fst (mrun fl g fresh_mem cs) in let f := fst (a_run fl a_fresh cs) in
  let w := run fl g (start s progs) sched in
  Forall op_fits cs /\ affordable fl g a_fresh cs /\ roomy g /\ calls_ok (length (m_handles s)) progs /\
  all_returned progs (w_ev w) /\ s_bytes (m_buf s) = [1%N; 2%N] /\ progs = [[(1%nat, CWrite [9%N])]; [(0%nat, CTruncate 0)]] /\
  s_bytes (w_buf w) = [0%N; 0%N; 9%N] /\ ~ explained fl f (w_ev w) (s_bytes (w_buf w)).
Proof.
  exists linux_flags, big_heap, ex_cs, [[(1%nat, CWrite [9%N])]; [(0%nat, CTruncate 0)]], [0;0;0;0;1;1;1;1;0;0;0;0]%nat. cbn zeta.
  split; [|split; [|split; [|split; [|split; [|split; [|split; [|split]]]]]]].
  - exact (proj1 C79_order_ex).
  - exact (proj1 (proj2 C79_order_ex)).
  - unfold roomy. cbn. lia.
  - unfold calls_ok. repeat (apply Forall_cons; [repeat (apply Forall_cons; [split; [vm_compute; lia|unfold op_fits, in_int64, min_int64, max_int64; cbn; lia]|]); apply Forall_nil|]). apply Forall_nil.
  - intros [|[|i]] p H; cbn in H; [| |destruct i; discriminate]; apply CommonLemmas.some_inj in H; subst p; vm_compute; reflexivity.
  - vm_compute. reflexivity.
  - reflexivity.
  - vm_compute. reflexivity.
  - assert (w_ev (run linux_flags big_heap (start (fst (mrun linux_flags big_heap fresh_mem ex_cs)) [[(1%nat, CWrite [9%N])]; [(0%nat, CTruncate 0)]]) [0;0;0;0;1;1;1;1;0;0;0;0]%nat)
      = [Inv 0 1 (CWrite [9%N]); Inv 1 0 (CTruncate 0); Ret 1 0 (CTruncate 0) (MOk 0 [] e_nil); Ret 0 1 (CWrite [9%N]) (MOk 1 [] e_nil)]) as -> by (vm_compute; reflexivity).
    assert (s_bytes (w_buf (run linux_flags big_heap (start (fst (mrun linux_flags big_heap fresh_mem ex_cs)) [[(1%nat, CWrite [9%N])]; [(0%nat, CTruncate 0)]]) [0;0;0;0;1;1;1;1;0;0;0;0]%nat))
      = [0%N; 0%N; 9%N]) as -> by (vm_compute; reflexivity).
    intros (l & f' & Hl & Hp & _ & Hb).
    destruct (two_orders l (1%nat, CWrite [9%N], MOk 1 [] e_nil) (0%nat, CTruncate 0, MOk 0 [] e_nil) _ Hp) as [E|E]; try reflexivity;
      [intros [|[|i]] L; [lia|lia|reflexivity]| |]; subst l; cbn [fst snd] in Hl; apply legal_two in Hl as (f1 & H1 & H2);
      apply happens_step in H1; try discriminate; apply happens_step in H2; try discriminate; subst f1 f'; vm_compute in Hb; discriminate.
Qed.
Print Assumptions C79_append_with_truncate_refuted.

(* A call made through a handle after a Close of it returned is refused, whatever else goes on. *)
Theorem C79_closed_handles_refuse fl g s progs sched i h o r :
  called_after_close (w_ev (run fl g (start s progs) sched)) i h o r -> can_be_refused o -> r = refused.
Proof. exact (closed_refuses fl g s progs sched i h o r). Qed.
Print Assumptions C79_closed_handles_refuse.

(* And none is refused before somebody called Close. *)
Theorem C79_refused_only_when_closed fl g s progs sched i h o :
  In (Ret i h o refused) (w_ev (run fl g (start s progs) sched)) -> exists j, In (Inv j h CClose) (w_ev (run fl g (start s progs) sched)).
Proof. exact (refused_closed fl g s progs sched i h o). Qed.
Print Assumptions C79_refused_only_when_closed.

Example C79_close_ex :
  let w := run linux_flags big_heap (start (fst (mrun linux_flags big_heap fresh_mem ex_cs)) [[(0%nat, CClose)]; [(0%nat, CRead 1)]; [(2%nat, CRead 1)]]) [1;2;0;0;0;1;1;1;2;2;2;2;2;2;2]%nat in
  w_ev w = [Inv 1 0 (CRead 1); Inv 2 2 (CRead 1); Inv 0 0 CClose; Ret 0 0 CClose (MOk 0 [] e_nil); Ret 1 0 (CRead 1) refused; Ret 2 2 (CRead 1) (MOk 1 [1%N] e_nil)] /\
  let w2 := run linux_flags big_heap (start (fst (mrun linux_flags big_heap fresh_mem ex_cs)) [[(0%nat, CClose)]; [(0%nat, CWrite [3%N])]]) [0;0;0;1;1;1]%nat in
  called_after_close (w_ev w2) 1 0 (CWrite [3%N]) refused.
Proof.
  cbn zeta. split; [vm_compute; reflexivity|]. exists [Inv 0 0 CClose], 0%nat, (MOk 0 [] e_nil), [], [], []. split; [vm_compute; reflexivity|constructor].
Qed.

(* But closing does not wait: a write that got past the check changes the file after Close
   returned, with no handle open. *)
Theorem C79_close_waits_for_calls_refuted : exists fl g cs progs sched1 sched2,
  let s := fst (mrun fl g fresh_mem cs) in
  Forall op_fits cs /\ affordable fl g a_fresh cs /\ roomy g /\ calls_ok (length (m_handles s)) progs /\ length (m_handles s) = 1%nat /\
  In (Ret 0 0 CClose (MOk 0 [] e_nil)) (w_ev (run fl g (start s progs) sched1)) /\
  s_bytes (w_buf (run fl g (start s progs) sched1)) = [1%N; 2%N] /\
  s_bytes (w_buf (run fl g (start s progs) (sched1 ++ sched2))) = [1%N; 2%N; 9%N].
Proof.
  exists linux_flags, big_heap, [(0%nat, MOpen 2); (0%nat, MWrite [1%N; 2%N])], [[(0%nat, CClose)]; [(0%nat, CWrite [9%N])]], [1;1;0;0;0]%nat, [1;1;1;1;1]%nat. cbn zeta.
  split; [|split; [|split; [|split; [|split; [vm_compute; reflexivity|split; [|split; vm_compute; reflexivity]]]]]].
  - repeat (apply Forall_cons; [unfold op_fits, in_int64, min_int64, max_int64; cbn; lia|]). apply Forall_nil.
  - unfold affordable. repeat (split; [vm_compute; discriminate|]). exact I.
  - unfold roomy. cbn. lia.
  - unfold calls_ok. repeat (apply Forall_cons; [repeat (apply Forall_cons; [split; [vm_compute; lia|unfold op_fits, in_int64, min_int64, max_int64; cbn; lia]|]); apply Forall_nil|]). apply Forall_nil.
  - vm_compute. auto.
Qed.
Print Assumptions C79_close_waits_for_calls_refuted.

(* Nobody waits forever: from wherever a schedule has led, the goroutines can be run so that
   every call returns. *)
Theorem C79_every_call_can_return fl g s progs sched : calls_ok (length (m_handles s)) progs ->
  exists sched', all_returned progs (w_ev (run fl g (start s progs) (sched ++ sched'))).
Proof. exact (all_can_return fl g s progs sched). Qed.
Print Assumptions C79_every_call_can_return.

Example C79_return_ex :
  let s := fst (mrun linux_flags big_heap fresh_mem ex_cs) in
  calls_ok (length (m_handles s)) [[(0%nat, CWrite [7%N])]; [(0%nat, CRead 1)]] /\
  w_ev (run linux_flags big_heap (start s [[(0%nat, CWrite [7%N])]; [(0%nat, CRead 1)]]) ([0;0;0;1;1;1;1] ++ [0;0;0;0;1;1;1;1;1])%nat)
    = [Inv 0 0 (CWrite [7%N]); Inv 1 0 (CRead 1); Ret 0 0 (CWrite [7%N]) (MOk 1 [] e_nil); Ret 1 0 (CRead 1) (MOk 0 [] e_eof)].
Proof.
  cbn zeta. split; [|vm_compute; reflexivity].
  unfold calls_ok. repeat (apply Forall_cons; [repeat (apply Forall_cons; [split; [vm_compute; lia|unfold op_fits, in_int64, min_int64, max_int64; cbn; lia]|]); apply Forall_nil|]). apply Forall_nil.
Qed.
