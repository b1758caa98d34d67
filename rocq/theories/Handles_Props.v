(* C52, overlayfs: DisableOpenFileRemoval and the count of open handles. *)
From Verif Require Import Common ContentRange_Model PathLex_Model PathLex_Proofs TempName_Model Overlay_Model Masks_Model Masks_Spec Handles_Model Handles_Spec Handles_Proofs.
Open Scope nat_scope.

Definition in_a : path := [[120%N]; [97%N]].
Definition a_tree : stack := [{| l_tree := [(name_a, ODir 493); (in_a, OFile 420 1); (name_b, OFile 420 2)]; l_wh := []; l_op := [] |}].
Definition ex_events : list hevent :=
  [HRead plain_be in_a true; HRead plain_be in_a true; HClose 0; HClose 0; HRead plain_be name_b true; HClose 2].
Lemma nameable_in : nameable in_a.
Proof. constructor; [|exact nameable_a]. split; [discriminate|]. split; [discriminate|]. split; [discriminate|]. intros [H|[]]; discriminate. Qed.
Lemma ex_sound : sound_names ex_events.
Proof.
  unfold sound_names, ex_events. repeat (constructor; [cbn; first [constructor; [first [exact nameable_in|exact nameable_b]|constructor]|constructor]|]). constructor.
Qed.

(* After any history of opens, closes and calls the tracker holds, for every name, the number
   of handles opened under it and not closed; likewise for every subtree. *)
Theorem C52_tracker_counts st es p : sound_names es -> nameable p ->
  count (o_track (hrun (mounted st) es)) (key p) = how_many (opened_as p) (o_handles (hrun (mounted st) es)) /\
  count_subtree (o_track (hrun (mounted st) es)) (key p) = how_many (opened_in p) (o_handles (hrun (mounted st) es)).
Proof. exact (counts st es p). Qed.
Print Assumptions C52_tracker_counts.

Example C52_counts_ex : sound_names ex_events /\ nameable name_a /\
  count (o_track (hrun (mounted a_tree) ex_events)) (key in_a) = 1 /\
  count (o_track (hrun (mounted a_tree) ex_events)) (key name_b) = 0 /\
  count_subtree (o_track (hrun (mounted a_tree) ex_events)) (key name_a) = 1 /\
  length (o_handles (hrun (mounted a_tree) ex_events)) = 3.
Proof. split; [exact ex_sound|]. split; [exact nameable_a|]. vm_compute. auto. Qed.

(* Remove succeeds only when no open handle was opened under the name. *)
Theorem C52_remove_needs_no_handle st es be p : sound_names es -> nameable p ->
  let s := hrun (mounted st) es in
  err_opt (gated (o_track s) be (CRemove p) (o_stack s)) = None -> how_many (opened_as p) (o_handles s) = 0.
Proof. exact (gated_remove st es be p). Qed.
Print Assumptions C52_remove_needs_no_handle.

(* RemoveAll succeeds only when none was opened under the name or below it, or when there is
   nothing to remove and nothing happens. *)
Theorem C52_remove_all_needs_no_handle st es be p : sound_names es -> nameable p ->
  let s := hrun (mounted st) es in
  err_opt (gated (o_track s) be (CRemoveAll p) (o_stack s)) = None ->
  how_many (opened_in p) (o_handles s) = 0 \/
  (lookup be (o_stack s) p = LMissing /\ gated (o_track s) be (CRemoveAll p) (o_stack s) = ret (o_stack s)).
Proof. exact (gated_remove_all st es be p). Qed.
Print Assumptions C52_remove_all_needs_no_handle.

Example C52_remove_ex :
  let s := hrun (mounted a_tree) ex_events in
  err_opt (gated (o_track s) plain_be (CRemove name_b) (o_stack s)) = None /\
  err_opt (gated (o_track s) plain_be (CRemove in_a) (o_stack s)) = Some EOther /\
  err_opt (gated (o_track s) plain_be (CRemoveAll name_a) (o_stack s)) = Some EOther /\
  err_opt (gated (o_track s) plain_be (CRemoveAll name_b) (o_stack s)) = None.
Proof. vm_compute. auto. Qed.

(* A removal with such a handle open changes nothing at all. *)
Theorem C52_refusal_changes_nothing st es be p : sound_names es -> nameable p ->
  let s := hrun (mounted st) es in
  (0 < how_many (opened_as p) (o_handles s) -> states_of (gated (o_track s) be (CRemove p) (o_stack s)) = [] /\ end_of (gated (o_track s) be (CRemove p) (o_stack s)) = o_stack s) /\
  (0 < how_many (opened_in p) (o_handles s) -> states_of (gated (o_track s) be (CRemoveAll p) (o_stack s)) = [] /\ end_of (gated (o_track s) be (CRemoveAll p) (o_stack s)) = o_stack s).
Proof. exact (refused_unchanged st es be p). Qed.
Print Assumptions C52_refusal_changes_nothing.

(* With no such handle the option changes nothing: the removal is the one C45 speaks of. *)
Theorem C52_gate_is_only_for_handles st es be p : sound_names es -> nameable p ->
  let s := hrun (mounted st) es in
  (how_many (opened_as p) (o_handles s) = 0 -> gated (o_track s) be (CRemove p) (o_stack s) = run_call be (CRemove p) (o_stack s)) /\
  (how_many (opened_in p) (o_handles s) = 0 -> gated (o_track s) be (CRemoveAll p) (o_stack s) = run_call be (CRemoveAll p) (o_stack s)).
Proof. exact (gate_open st es be p). Qed.
Print Assumptions C52_gate_is_only_for_handles.

(* Closing a handle again changes nothing. *)
Theorem C52_close_counts_once s i : hstep (hstep s (HClose i)) (HClose i) = hstep s (HClose i).
Proof. exact (double_close s i). Qed.
Print Assumptions C52_close_counts_once.

Example C52_close_ex :
  let s := hrun (mounted a_tree) [HRead plain_be in_a true; HRead plain_be in_a true] in
  o_track (hstep s (HClose 0)) = [(key in_a, 1)] /\ o_track s = [(key in_a, 2)].
Proof. vm_compute. auto. Qed.

(* As long as nothing was renamed, no removal takes away a file a handle is open on. *)
Theorem C52_open_files_stay_partial st es be p : sound_names es -> nameable p -> existsb renames es = false ->
  let s := hrun (mounted st) es in
  (err_opt (gated (o_track s) be (CRemove p) (o_stack s)) = None -> how_many (open_now p) (o_handles s) = 0) /\
  (err_opt (gated (o_track s) be (CRemoveAll p) (o_stack s)) = None -> lookup be (o_stack s) p <> LMissing -> how_many (open_now_in p) (o_handles s) = 0).
Proof. exact (no_rename_guards st es be p). Qed.
Print Assumptions C52_open_files_stay_partial.

Example C52_open_files_ex : existsb renames ex_events = false /\
  how_many (open_now in_a) (o_handles (hrun (mounted a_tree) ex_events)) = 1.
Proof. vm_compute. auto. Qed.

(* FINDING: a rename keeps the count under the old name: the renamed file can be removed with
   a handle open on it. *)
Theorem C52_rename_loses_handle_refuted : exists st es be p, sound_names es /\ nameable p /\
  let s := hrun (mounted st) es in
  err_opt (gated (o_track s) be (CRemove p) (o_stack s)) = None /\ 0 < how_many (open_now p) (o_handles s).
Proof. exact rename_loses_handle. Qed.
Print Assumptions C52_rename_loses_handle_refuted.

(* FINDING: and a new file under the old name cannot be removed though no handle is on it. *)
Theorem C52_stale_name_refuted : exists st es be p, sound_names es /\ nameable p /\
  let s := hrun (mounted st) es in
  how_many (open_now p) (o_handles s) = 0 /\ err_opt (run_call be (CRemove p) (o_stack s)) = None /\
  err_opt (gated (o_track s) be (CRemove p) (o_stack s)) <> None.
Proof. exact stale_name. Qed.
Print Assumptions C52_stale_name_refuted.
