(* C09: concurrent reads never mix two versions of the object (stream/httprange). *)
From Verif Require Import Common ContentRange_Model MultiRead_Model HttpRange_Model HttpRange_Spec
  HttpPin_Model HttpPin_Spec HttpPin_Proofs.
Open Scope nat_scope.

(* Whatever the schedule, a property once pinned (or known beforehand) never changes. *)
Theorem C09_pinned_identity_never_changes :
  forall m rs sched1 sched2,
    let w1 := wrun (winit m rs) sched1 in
    let w2 := wrun w1 sched2 in
    extends m (contents (sh_cell (fst w1))) /\
    extends (contents (sh_cell (fst w1))) (contents (sh_cell (fst w2))).
Proof. exact pin_keeps. Qed.
Print Assumptions C09_pinned_identity_never_changes.

(* A response accepted is one whose every statement is pinned, then and from then on; a
   response refused contradicts what is pinned. *)
Theorem C09_verdicts_are_right :
  forall m rs sched i r t,
    let w := wrun (winit m rs) sched in
    (verdict w i r t true -> pinned_by (contents (sh_cell (fst w))) r t) /\
    (verdict w i r t false -> contradicts (contents (sh_cell (fst w))) r t).
Proof. exact pin_verdicts. Qed.
Print Assumptions C09_verdicts_are_right.

(* So any two accepted responses agree on everything both state. *)
Theorem C09_accepted_responses_agree :
  forall m rs sched i j r1 t1 r2 t2,
    let w := wrun (winit m rs) sched in
    verdict w i r1 t1 true -> verdict w j r2 t2 true -> same_object r1 t1 r2 t2.
Proof. exact pin_agree. Qed.
Print Assumptions C09_accepted_responses_agree.

(* And no goroutine retries for ever: sixteen steps of its own decide its response,
   whatever the others do in between. *)
Theorem C09_verification_is_bounded :
  forall m rs sched i r t,
    nth_error rs i = Some (r, t) -> 16 <= count_occ Nat.eq_dec sched i ->
    exists ok, verdict (wrun (winit m rs) sched) i r t ok.
Proof. exact pin_terminates. Qed.
Print Assumptions C09_verification_is_bounded.

(* Two goroutines racing with different ETags: one wins, the other is refused, after
   losing the swap once. *)
Definition ex_resp (etag : list byte) : resp :=
  {| rs_status := 206; rs_crange := []; rs_etag := etag; rs_lastmod := []; rs_origin := [];
     rs_header := 0; rs_enc_ok := true; rs_clen := 0;
     rs_body := {| bd_data := []; bd_read := fun _ _ _ => (0%Z, REof) |} |}.
Example C09_example :
  let w := wrun (winit None [(ex_resp [97%N], 5%Z); (ex_resp [98%N], 5%Z)]) [0; 1; 1; 0; 0; 0] in
  verdict w 1 (ex_resp [98%N]) 5%Z true /\ verdict w 0 (ex_resp [97%N]) 5%Z false.
Proof. split; vm_compute; reflexivity. Qed.

(* Probing makes one request, for the first byte, and succeeds exactly on an answer that
   describes an object - by its length, or as empty - and does not contradict what is pinned;
   all it says is pinned then. *)
Theorem C09_probing : forall srv s e s', probe srv s = (e, s') ->
  exists rq a, s_log s' = s_log s ++ [(rq, a)] /\ asks_first_byte rq /\ a = srv (length (s_log s)) rq /\ s_lane s' = s_lane s /\
    (e = HNil <-> exists r total, a = Some r /\ describes r total /\ ~ contradicts (s_meta s) r total) /\
    (forall r total, e = HNil -> a = Some r -> describes r total -> pinned_by (s_meta s') r total).
Proof. exact probe_answer. Qed.
Print Assumptions C09_probing.

Definition ex_unsat : resp :=
  {| rs_status := 416; rs_crange := [98; 121; 116; 101; 115; 32; 42; 47; 48]%N; rs_etag := [97%N]; rs_lastmod := []; rs_origin := [];
     rs_header := 0; rs_enc_ok := true; rs_clen := 0;
     rs_body := {| bd_data := []; bd_read := fun _ _ _ => (0%Z, REof) |} |}.
Example C09_probing_ex :
  fst (probe (fun _ _ => Some ex_unsat) {| s_meta := None; s_lane := LNone; s_log := [] |}) = HNil /\
  known_size (s_meta (snd (probe (fun _ _ => Some ex_unsat) {| s_meta := None; s_lane := LNone; s_log := [] |}))) = Some 0%Z /\
  fst (probe (fun _ _ => Some ex_unsat) {| s_meta := Some (meta_of_resp (ex_resp [98%N]) 0); s_lane := LNone; s_log := [] |}) = HChanged.
Proof. vm_compute. auto. Qed.
