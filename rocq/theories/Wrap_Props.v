(* C88: aferofs: handles that several goroutines share. *)
From Verif Require Import Common Wrap_Model Wrap_Spec Wrap_Proofs.
Open Scope nat_scope.

(* Whatever the interleaving, each goroutine's calls happen one after the other as it makes them:
   each enters the inner file once and returns its answer, or is refused without entering it. *)
Theorem C88_each_call : forall progs s, let ev := w_ev (run (start progs) s) in
  (forall i p, nth_error progs i = Some p -> told i p (own i ev)) /\ (forall e, In e ev -> nth_error progs (who e) <> None).
Proof. exact (fun progs s => conj (each_call progs s) (only_callers progs s)). Qed.
Print Assumptions C88_each_call.

(* No call is refused before somebody called Close. *)
Theorem C88_refused_only_after_close : forall progs s i m l r, w_ev (run (start progs) s) = l ++ Ret i m Refused :: r -> exists j, In (Inv j MClose) l.
Proof. exact refused_after_close. Qed.
Print Assumptions C88_refused_only_after_close.

(* Once a Close has returned, a call made after that does not enter the inner file and is refused; only Name still answers. *)
Theorem C88_closed_refuses : forall progs s e1 j r e2 i m e3, m <> MName -> w_ev (run (start progs) s) = e1 ++ Ret j MClose r :: e2 ++ Inv i m :: e3 ->
  own i e3 = [] \/ exists l, own i e3 = Ret i m Refused :: l.
Proof. exact closed_refuses. Qed.
Print Assumptions C88_closed_refuses.

(* A Close is never lost: when all calls have returned and one was Close, the inner file was closed. *)
Theorem C88_some_close_enters : forall progs s j, let ev := w_ev (run (start progs) s) in no_call_open ev -> In (Inv j MClose) ev -> exists k a, In (Reach k MClose a) ev.
Proof. exact some_close_enters. Qed.
Print Assumptions C88_some_close_enters.

(* If only one goroutine closes, the inner file is closed at most once, however often it calls Close. *)
Theorem C88_closed_once_partial : forall progs k s, one_closer k progs -> length (closings (w_ev (run (start progs) s))) <= 1.
Proof. exact closed_once. Qed.
Print Assumptions C88_closed_once_partial.

Definition t_ (l : list nat) : list (nat * N) := map (fun i => (i, N.of_nat i)) l.
Definition c88_progs : list (list meth) := [[MOther 1; MClose; MClose; MName]; [MOther 2; MOther 3]].
Definition c88_sched : list (nat * N) := t_ [0;0;0;0; 1;1;1;1; 0;0;0;0;0; 1;1;1; 0;0;0; 0;0;0;0].
Example C88_ex : one_closer 0 c88_progs /\
  w_ev (run (start c88_progs) c88_sched) =
    [Inv 0 (MOther 1); Reach 0 (MOther 1) 0; Ret 0 (MOther 1) (Got 0); Inv 1 (MOther 2); Reach 1 (MOther 2) 1; Ret 1 (MOther 2) (Got 1);
     Inv 0 MClose; Reach 0 MClose 0; Ret 0 MClose (Got 0); Inv 1 (MOther 3); Ret 1 (MOther 3) Refused; Inv 0 MClose; Ret 0 MClose Refused; Inv 0 MName; Reach 0 MName 0; Ret 0 MName (Got 0)] /\
  no_call_open (w_ev (run (start c88_progs) c88_sched)) /\ length (closings (w_ev (run (start c88_progs) c88_sched))) = 1.
Proof.
  split; [|split; [vm_compute; reflexivity|split; vm_compute; reflexivity]].
  intros [|[|i]] p E H; [reflexivity| |destruct i; discriminate]. injection E as <-. destruct H as [H|[H|[]]]; discriminate.
Qed.

(* Two goroutines that close at the same time both close the inner file: the check and the mark are two sections. *)
Theorem C88_closed_once_refuted : exists progs s, no_call_open (w_ev (run (start progs) s)) /\ length (closings (w_ev (run (start progs) s))) = 2 /\
  forall i m r, In (Ret i m r) (w_ev (run (start progs) s)) -> r <> Refused.
Proof.
  exists [[MClose]; [MClose]], (t_ [0;1;0;1;0;1;0;1;0;1]). split; [vm_compute; reflexivity|]. split; [vm_compute; reflexivity|].
  intros i m r H. vm_compute in H. intuition (try discriminate); congruence.
Qed.
Print Assumptions C88_closed_once_refuted.

(* A call that passed the check before a Close enters the inner file after it was closed. *)
Theorem C88_no_use_after_close_refuted : exists progs s l j a i m b r, w_ev (run (start progs) s) = l ++ Reach j MClose a :: Ret j MClose (Got a) :: Reach i m b :: r /\ m <> MName /\ m <> MClose.
Proof.
  exists [[MClose]; [MOther 7]], (t_ [1;1;0;0;0;0;0;1]), [Inv 1 (MOther 7); Inv 0 MClose], 0, 0%N, 1, (MOther 7), 1%N, []. split; [vm_compute; reflexivity|]. split; discriminate.
Qed.
Print Assumptions C88_no_use_after_close_refuted.

(* ObservableFs and its files: every call is noted, passed on as it is, its results noted and returned, in this
   order and one call after the other for each goroutine. *)
Theorem C88_recorded : forall progs s i p, nth_error progs i = Some p -> recorded i p (oown i (o_ev (orun (ostart progs) s))).
Proof. exact each_recorded. Qed.
Print Assumptions C88_recorded.

(* The history is these notes, in the order in which they were made; none is lost or doubled. *)
Theorem C88_history : forall progs s, let w := orun (ostart progs) s in o_hist w = records (o_ev w).
Proof. exact hist_records. Qed.
Print Assumptions C88_history.

(* At every point of the history no more calls of a method have ended than begun, and as many once all have returned. *)
Theorem C88_balanced : forall progs s fsys method,
  (forall h1 h2, o_hist (orun (ostart progs) s) = h1 ++ h2 -> count fsys false method h1 <= count fsys true method h1) /\
  (all_answered (o_ev (orun (ostart progs) s)) -> count fsys true method (o_hist (orun (ostart progs) s)) = count fsys false method (o_hist (orun (ostart progs) s))).
Proof. exact (fun progs s f m => conj (fun h1 h2 => balanced progs s h1 h2 f m) (answered progs s f m)). Qed.
Print Assumptions C88_balanced.

Definition p_ (l : list (nat * nat)) : list (nat * N) := map (fun p => (fst p, N.of_nat (snd p))) l.
Definition c88_call (m x : N) : ocall := {| c_fsys := true; c_method := m; c_args := x |}.
Definition c88_note (b : bool) (m x : N) : entry := {| n_fsys := true; n_before := b; n_method := m; n_args := x |}.
Example C88_history_ex : let w := orun (ostart [[c88_call 5 1; c88_call 6 2]; [c88_call 5 3]]) (p_ [(0,0);(0,0);(1,0);(1,0);(1,40);(0,41);(1,0);(0,0);(0,0);(1,0);(0,0);(0,0);(0,42);(0,0);(0,0)]) in
  o_hist w = [c88_note true 5 1; c88_note true 5 3; c88_note false 5 40; c88_note false 5 41; c88_note true 6 2; c88_note false 6 42] /\ all_answered (o_ev w) /\ In (ORet 0 (c88_call 5 1) 41) (o_ev w).
Proof. cbn zeta. split; [vm_compute; reflexivity|]. split; [vm_compute; reflexivity|]. vm_compute. tauto. Qed.

(* But the history does not say which results belong to which call: two runs with the same history give the same call different results. *)
Theorem C88_history_pairs_refuted : exists progs s1 s2 c a b,
  o_hist (orun (ostart progs) s1) = o_hist (orun (ostart progs) s2) /\ all_answered (o_ev (orun (ostart progs) s1)) /\ all_answered (o_ev (orun (ostart progs) s2)) /\
  In (ORet 0 c a) (o_ev (orun (ostart progs) s1)) /\ In (ORet 0 c b) (o_ev (orun (ostart progs) s2)) /\ a <> b /\ (forall x, In (ORet 0 c x) (o_ev (orun (ostart progs) s1)) -> x = a).
Proof.
  exists [[c88_call 5 1]; [c88_call 5 3]], (p_ [(0,0);(1,0);(0,0);(1,0);(0,8);(1,9);(0,0);(1,0);(0,0);(1,0)]), (p_ [(0,0);(1,0);(0,0);(1,0);(0,9);(1,8);(1,0);(0,0);(0,0);(1,0)]), (c88_call 5 1), 8%N, 9%N.
  split; [vm_compute; reflexivity|]. split; [vm_compute; reflexivity|]. split; [vm_compute; reflexivity|]. split; [vm_compute; tauto|]. split; [vm_compute; tauto|]. split; [discriminate|].
  intros x H. vm_compute in H. intuition (try discriminate); congruence.
Qed.
Print Assumptions C88_history_pairs_refuted.
