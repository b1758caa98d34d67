(* C05 (cancellable reader), C06 (closing aggregates). *)
From Verif Require Import Common MultiRead_Model StreamMisc_Model StreamMisc_Spec StreamMisc_Proofs.
Open Scope nat_scope.

(* C05: over every history of reads and every moment of cancellation. The last index
   of [canc_history] counts the calls that reached the source. *)
Theorem C05_cancellable_history :
  forall w ls, ctx_monotone w ->
    exists xs calls c', canc_run w new_canc ls = (xs, c') /\ ca_calls c' = calls /\
      canc_history w ls xs calls.
Proof. exact canc_new_history. Qed.
Print Assumptions C05_cancellable_history.

Example C05_hypotheses_met :
  let w := CWorld (fun t => if Nat.leb 3 t then Some 7%N else None) (fun _ _ => ([1;2]%N, RNil)) in
  ctx_monotone w /\
  fst (canc_run w new_canc [2; 2; 2; 2]%Z) =
    [([1;2]%N, None); ([1;2]%N, None); ([], Some (CCtx 7)); ([], Some (CCtx 7))] /\
  ca_calls (snd (canc_run w new_canc [2; 2; 2; 2]%Z)) = 2.
Proof.
  cbn zeta. split; [|split; vm_compute; reflexivity].
  intros t t' k Ht. cbn [cw_ctx].
  destruct (Nat.leb_spec 3 t), (Nat.leb_spec 3 t'); try lia; auto; discriminate.
Qed.

(* C06: Close of NewMultiReadAtSeekCloser / NewMultiReadCloser calls each closer
   exactly once, in order; it is nil iff no closer failed; every error is found by
   errors.Is in the result, and nothing else is. *)
Theorem C06_close_calls_every_member_and_reports_every_error :
  forall members,
    fst (close_all members) = closer_indexes 0 members /\
    (snd (close_all members) = None <-> Forall (fun m => ~ member_fails m) members) /\
    (forall code, opt_is (snd (close_all members)) code = existsb (member_is code) members).
Proof. exact close_all_spec. Qed.
Print Assumptions C06_close_calls_every_member_and_reports_every_error.

(* C06, Gather used on its own. *)
Theorem C06_gather_nil_iff_all_nil_and_keeps_errors :
  forall es,
    (gather es = None <-> Forall (fun e => e = None) es) /\
    (forall code, opt_is (gather es) code = existsb (fun e => opt_is e code) es).
Proof. exact gather_all. Qed.
Print Assumptions C06_gather_nil_iff_all_nil_and_keeps_errors.

Example C06_example :
  close_all [Some None; None; Some (Some (GLeaf 4)); Some (Some (GLeaf 5))] =
    ([0; 2; 3]%N, Some (GGathered [Some (GPrefixed 0 None); Some (GPrefixed 2 (Some (GLeaf 4)));
                                   Some (GPrefixed 3 (Some (GLeaf 5)))])) /\
  gather [None; Some (GLeaf 1); None] = Some (GGathered [Some (GLeaf 1)]).
Proof. split; vm_compute; reflexivity. Qed.
