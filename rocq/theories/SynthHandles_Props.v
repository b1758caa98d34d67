(* C52 for synthfs, and C55: handles and the guard on removing open files. *)
From Verif Require Import Common ContentRange_Model PathLex_Model Synth_Model SynthHandles_Model SynthHandles_Spec SynthHandles_Proofs.
Open Scope nat_scope.

Definition name_f : list byte := [102%N].
Definition name_g : list byte := [103%N].
Definition creating : oreq := {| o_create := true; o_excl := false; o_write := true; o_mode := 420; o_tag := 7; o_opens := true; o_allocs := true |}.
(* f is opened twice, renamed to g, and the first handle is closed twice. *)
Definition two_handles : list hsop :=
  [HDo (OOpen 0 name_f creating); HDo (OOpen 0 name_f creating); HDo (ORename 0 name_f name_g); HCloseAt 0; HCloseAt 0].
Definition after_two : hsstate := match hs_run true (hs_new 493) two_handles with Some st => st | None => hs_new 493 end.

(* After any history of calls and closes, on any roots, each node's reference count is the
   number of handles open on it. *)
Theorem C52_synth_counts_handles bc mode es st n : hs_run bc (hs_new mode) es = Some st ->
  ref_of (st_heap (h_state st)) n = live_count n (h_hands st).
Proof. exact (synth_counts bc mode es st n). Qed.
Print Assumptions C52_synth_counts_handles.

Example C52_synth_ex : hs_run true (hs_new 493) two_handles = Some after_two /\
  lookup (st_heap (h_state after_two)) 0 name_g = Some 1 /\ live_count 1 (h_hands after_two) = 1 /\ length (h_hands after_two) = 2.
Proof. vm_compute. auto. Qed.

(* With the option, removing what may be removed at all succeeds exactly when no handle is
   open on it, whatever it was called when it was opened; otherwise nothing changes. *)
Theorem C52_synth_remove_needs_no_handle mode es st i name b d base n : hs_run true (hs_new mode) es = Some st ->
  nth_error (st_roots (h_state st)) i = Some b -> resolve_parent (st_heap (h_state st)) b name = Ok (d, base) ->
  lookup (st_heap (h_state st)) d base = Some n -> holds_something (st_heap (h_state st)) n = false ->
  forall st' r, hs_step true st (HDo (ORemove i name)) = Some (st', r) ->
    (r = Ok tt <-> live_count n (h_hands st) = 0) /\ (r = Err ESharing <-> 0 < live_count n (h_hands st)) /\ (r <> Ok tt -> st' = st).
Proof. exact (sharing_iff mode es st i name b d base n). Qed.
Print Assumptions C52_synth_remove_needs_no_handle.

Example C52_synth_remove_ex :
  option_map snd (hs_step true after_two (HDo (ORemove 0 name_g))) = Some (Err ESharing) /\
  option_map snd (hs_step true (close_at after_two 1) (HDo (ORemove 0 name_g))) = Some (Ok tt) /\
  option_map snd (hs_step true (hs_new 493) (HDo (ORemove 0 name_g))) = Some (Err ENotExist).
Proof. vm_compute. auto. Qed.

(* Closing a handle again changes nothing. *)
Theorem C52_synth_close_counts_once st i : close_at (close_at st i) i = close_at st i.
Proof. exact (synth_double_close st i). Qed.
Print Assumptions C52_synth_close_counts_once.

(* FINDING: opening a file for writing with O_TRUNC never returns when its view opens but
   cannot truncate: the clean-up waits for the lock the call holds. *)
Theorem C55_failed_truncate_never_returns h b name q m v f : resolve h b name true = Ok f -> nodes h (f_node f) = Some (NFile m v) ->
  o_opens q = true -> o_write q = true -> open_truncating h b name q false = None.
Proof. exact (truncate_stuck h b name q m v f). Qed.
Print Assumptions C55_failed_truncate_never_returns.

Theorem C55_open_returns_refuted : exists mode os st b name q m v f, run true (new_state mode) os = Some st /\ nth_error (st_roots st) 0 = Some b /\
  resolve (st_heap st) b name true = Ok f /\ nodes (st_heap st) (f_node f) = Some (NFile m v) /\ o_opens q = true /\ open_truncating (st_heap st) b name q false = None.
Proof. exact stuck_somewhere. Qed.
Print Assumptions C55_open_returns_refuted.

Example C55_refuted_ex : open_truncating (st_heap (h_state after_two)) 0 name_g creating false = None /\
  open_truncating (st_heap (h_state after_two)) 0 name_g creating true <> None.
Proof. vm_compute. split; [reflexivity|discriminate]. Qed.

(* That is the only way: with views that truncate what they open for writing it always
   returns, with the answer of a plain open. *)
Theorem C55_open_returns_partial h b name q truncates :
  (exists r, open_truncating h b name q truncates = Some r) \/
  (truncates = false /\ o_write q = true /\ exists m v f, resolve h b name true = Ok f /\ nodes h (f_node f) = Some (NFile m v) /\ o_opens q = true).
Proof. exact (truncating_returns h b name q truncates). Qed.
Print Assumptions C55_open_returns_partial.

Theorem C55_open_truncates_partial h b name q : open_truncating h b name q true = Some (open_existing h b name q).
Proof. exact (truncating_same h b name q). Qed.
Print Assumptions C55_open_truncates_partial.
