(* C78: the streaming lane of httprange under several goroutines. *)
From Verif Require Import Common CommonLemmas HttpLane_Model HttpLane_Spec HttpLane_Proofs.
Open Scope Z_scope.

(* An object 0,1,2,…: two readers, one after the other's bytes, one far off, and a closer. *)
Definition counting : Z -> byte := fun k => Z.to_N k.
Definition three_reads : list (Z * Z) := [(100, 3); (103, 2); (500, 4)].
Definition s1 (i : nat) (n : Z) : nat * ans := (i, {| a_grant := Some 110; a_refusal := Otherwise; a_n := n; a_err := RNil |}).
Definition in_turn : list (nat * ans) :=
  map (fun i => s1 i 2) [0; 0; 0; 0; 0; 0; 0; 0; 0; 1; 1; 1; 1; 1; 1; 1; 2; 2; 2; 4; 3; 4; 4; 3; 3; 3]%nat.
Example C78_sane : sane three_reads.
Proof. repeat constructor. Qed.
Example C78_in_turn :
  let m := run 100 counting (start 100 three_reads 1) in_turn in
  m_log m = [(100, 3, Served [0; 1; 2]%N KNil); (103, 2, Served [3; 4]%N KNil)] /\
  Forall over (m_pcs m) /\ l_requests (m_lane m) = 1%nat /\ l_closes (m_lane m) = 1%nat /\ l_pos (m_lane m) = 105.
Proof. vm_compute. repeat split; repeat constructor. Qed.

(* The lane makes one request at most, and closes no body twice nor one it does not have. *)
Theorem C78_one_request : forall base body reads closers sched, sane reads ->
  let l := m_lane (run base body (start base reads closers) sched) in
  (l_closes l <= l_bodies l /\ l_bodies l <= l_requests l /\ l_requests l <= 1)%nat.
Proof. exact lane_counts. Qed.
Print Assumptions C78_one_request.

(* Whatever the goroutines do, a read that comes back served has the object's bytes. *)
Theorem C78_served_bytes : forall base body reads closers sched i off len r, sane reads ->
  let m := run base body (start base reads closers) sched in
  nth_error (m_pcs m) i = Some (Ended off len r) -> read_right base (l_limit (m_lane m)) body off len r.
Proof. exact lane_right. Qed.
Print Assumptions C78_served_bytes.

(* The reads it serves follow one another without a gap or a byte twice, from the start of the
   view to where the lane stands. *)
Theorem C78_in_order_once : forall base body reads closers sched, sane reads ->
  let m := run base body (start base reads closers) sched in
  contiguous base (m_log m) /\ object_bytes base body base (handed_out (m_log m)) /\
  (l_mu (m_lane m) = None -> l_pos (m_lane m) = base + zlen (handed_out (m_log m))) /\
  (forall i off len r, nth_error (m_pcs m) i = Some (Ended off len r) -> r <> NotServed -> In (off, len, r) (m_log m)).
Proof. exact lane_in_order. Qed.
Print Assumptions C78_in_order_once.

(* Once every goroutine is through, a lane marked dead has closed its body, one that is not has
   not, and a lane somebody was to close is dead; the mutex is free. *)
Theorem C78_body_closed : forall base body reads closers sched, sane reads ->
  let m := run base body (start base reads closers) sched in
  (forall i p, nth_error (m_pcs m) i = Some p -> over p) ->
  l_mu (m_lane m) = None /\ (l_dead (m_lane m) = true -> l_closes (m_lane m) = l_bodies (m_lane m)) /\
  (l_dead (m_lane m) = false -> l_closes (m_lane m) = 0%nat) /\ ((0 < closers)%nat -> l_dead (m_lane m) = true).
Proof. exact all_closed. Qed.
Print Assumptions C78_body_closed.

(* Nobody waits for ever: as long as a goroutine is not through one can go on, and no more than
   [bound] steps get anybody further. *)
Theorem C78_calls_return : forall base body reads closers sched, sane reads ->
  let m := run base body (start base reads closers) sched in
  ((exists i p, nth_error (m_pcs m) i = Some p /\ ~ over p) ->
   exists i p, nth_error (m_pcs m) i = Some p /\ ~ over p /\ ~ blocked (m_lane m) p) /\
  (all_useful base body (start base reads closers) sched -> zlen sched <= bound reads closers).
Proof. exact lane_returns. Qed.
Print Assumptions C78_calls_return.
Example C78_useful : exists sched, all_useful 100 counting (start 100 [(100, 3)] 1) sched /\ zlen sched = 12 /\ bound [(100, 3)] 1 = 14.
Proof.
  exists (map (fun i => s1 i 2) [0; 0; 0; 0; 0; 0; 0; 0; 1; 0; 1; 1]%nat). split; [|split; reflexivity].
  repeat (split; [eexists; split; [vm_compute; reflexivity|];
    split; [intros []|]; split; [vm_compute; first [intros H; apply H; reflexivity | intros []] | discriminate] |]).
  exact I.
Qed.

(* A read at an offset the lane has not reached, or before the view, never waits for it. *)
Theorem C78_ahead_never_waits : forall base body reads closers sched i off len, sane reads ->
  let m := run base body (start base reads closers) sched in
  nth_error (m_pcs m) i = Some (Wait off len) -> base <= off <= l_pos (m_lane m).
Proof. exact lane_ahead. Qed.
Print Assumptions C78_ahead_never_waits.

(* The comments say mu is taken only by a read the lane is going to serve: a read that asks for
   the byte another is about to read queues behind it and is then sent away. *)
Theorem C78_unserved_never_queue_refuted : ~ unserved_never_queue.
Proof. exact queues_unserved. Qed.
Print Assumptions C78_unserved_never_queue_refuted.
