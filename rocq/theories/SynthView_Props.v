(* C43: when the view behind a file is closed. *)
From Verif Require Import Common ContentRange_Model PathLex_Model PathLex_Proofs Synth_Model Synth_Spec Synth_Proofs SynthTree_Proofs SynthPath_Proofs SynthEffect_Proofs SynthView_Proofs.
Open Scope nat_scope.

(* Without hard links and renames of a name to itself: after every history a listed file's view
   has not been closed, no view is closed twice and no two files share one; and ([strict], when
   no AddFunc answers Keep about a directory coming in where a file is) the view of a file
   listed nowhere has been closed exactly once. *)
Theorem C43_released_with_the_last_name_partial strict busy mode os st : sane busy (new_state mode) os -> view_ops strict busy (new_state mode) os ->
  run busy (new_state mode) os = Some st -> views_ok strict (st_heap st).
Proof. exact (run_views strict busy mode os st). Qed.
Print Assumptions C43_released_with_the_last_name_partial.

Definition na : list byte := [97%N].
Definition nb : list byte := [98%N].
Definition nf : list byte := [102%N].
Definition ng : list byte := [103%N].
Definition create (t : N) : oreq := {| o_create := true; o_excl := false; o_write := true; o_mode := 420; o_tag := t; o_opens := true; o_allocs := true |}.
Definition heap_after (os : list sop) : heap := st_heap (match run false (new_state 493) os with Some st => st | None => new_state 493 end).

(* Three files: one removed with its directory, one replaced by AddFile, one still listed. *)
Definition ex_ops : list sop :=
  [OMkdirAll 0 (join_sep [na; nb]) 493; OOpen 0 (join_sep [na; nb; nf]) (create 7); OOpen 0 nf (create 8); OOpen 0 ng (create 9);
   OAddFile 0 nf 10 420 493 true merge_overwrite; ORemoveAll 0 na].
Example C43_ex : sane false (new_state 493) ex_ops /\ view_ops true false (new_state 493) ex_ops /\
  map (closed (heap_after ex_ops)) [0; 1; 2; 3] = [1; 1; 0; 0] /\ option_map (view_of (heap_after ex_ops)) (lookup (heap_after ex_ops) 0 nf) = Some (Some 3) /\ option_map (view_of (heap_after ex_ops)) (lookup (heap_after ex_ops) 0 ng) = Some (Some 2).
Proof.
  split; [|split; [|vm_compute; repeat split; reflexivity]].
  - rewrite <- (app_nil_r ex_ops). eapply sane_prefix; [reflexivity|vm_compute; reflexivity|exact I].
  - cbn [view_ops view_op ex_ops]. repeat (split; [exact I|]; destruct (step _ _ _) as [[? ?]|]; [|exact I]). exact I.
Qed.

(* A hard-linked file: removing one name closes the view while the other name is listed, and
   removing the other closes it again. *)
Definition linked : list sop := [OOpen 0 nf (create 7); OLink 0 nf ng; ORemove 0 nf].
Definition still_listed (h : heap) (nm : list byte) (v : nat) : Prop := exists k, lookup h 0 nm = Some k /\ view_of h k = Some v.
Theorem C43_hard_link_refuted : exists os st, run false (new_state 493) os = Some st /\ still_listed (st_heap st) ng 0 /\ closed (st_heap st) 0 = 1.
Proof. exists linked. eexists. split; [vm_compute; reflexivity|]. split; [exists 2; split; vm_compute; reflexivity|vm_compute; reflexivity]. Qed.
Print Assumptions C43_hard_link_refuted.

Theorem C43_closed_once_refuted : exists os st, run false (new_state 493) os = Some st /\ closed (st_heap st) 0 = 2.
Proof. exists (linked ++ [ORemove 0 ng]). eexists. split; vm_compute; reflexivity. Qed.
Print Assumptions C43_closed_once_refuted.

(* Rename(f, f) succeeds and closes f's view; f stays listed. *)
Theorem C43_self_rename_refuted : exists os st, run false (new_state 493) os = Some st /\ still_listed (st_heap st) nf 0 /\ closed (st_heap st) 0 = 1.
Proof. exists [OOpen 0 nf (create 7); ORename 0 nf nf]. eexists. split; [vm_compute; reflexivity|]. split; [exists 1; split; vm_compute; reflexivity|vm_compute; reflexivity]. Qed.
Print Assumptions C43_self_rename_refuted.

(* A directory added over a file with MergeKeep drops the file without closing it. *)
Definition kept_over : list sop := [OOpen 0 nf (create 7); OAddFS 0 nf (SDir 493 [] true) 493 merge_keep].
Lemma kept_over_unlisted d nm : lookup (heap_after kept_over) d nm <> Some 1.
Proof.
  unfold lookup. assert (d = 0 \/ d = 1 \/ d = 2 \/ 3 <= d) as [-> | [-> | [-> | Hd]]] by lia; [vm_compute| vm_compute; discriminate|vm_compute; discriminate|].
  - repeat match goal with |- context [match ?x with _ => _ end] => destruct x end; discriminate.
  - replace (nodes (heap_after kept_over) d) with (@None node); [discriminate|]. symmetry. apply (t_fresh (heap_after kept_over)); [|vm_compute; exact Hd]. apply (run_tree false 493 kept_over). vm_compute. reflexivity.
Qed.
Theorem C43_keep_over_file_leaks_refuted : exists os st, run false (new_state 493) os = Some st /\ view_of (st_heap st) 1 = Some 0 /\ ~ listed (st_heap st) 1 /\ closed (st_heap st) 0 = 0.
Proof.
  exists kept_over, (match run false (new_state 493) kept_over with Some st => st | None => new_state 493 end). split; [vm_compute; reflexivity|]. split; [vm_compute; reflexivity|]. split; [|vm_compute; reflexivity].
  intros (d & nm & E). exact (kept_over_unlisted d nm E).
Qed.
Print Assumptions C43_keep_over_file_leaks_refuted.

(* A file put over a directory leaves the views below it open, out of anyone's reach. *)
Definition over_dir : list sop := [OMkdir 0 na 493; OOpen 0 (join_sep [na; nf]) (create 7); OAddFile 0 na 8 420 493 true merge_overwrite].
Lemma over_dir_lost : ~ reach (heap_after over_dir) 0 2.
Proof.
  intros Hr. apply reach_at in Hr. destruct Hr as (l & Hl). destruct l as [|c l]; [vm_compute in Hl; discriminate|]. cbn [at_path] in Hl.
  assert (lookup (heap_after over_dir) 0 c = Some 3 \/ lookup (heap_after over_dir) 0 c = None) as [E|E].
  { vm_compute. repeat match goal with |- context [match ?x with _ => _ end] => destruct x end; auto. }
  - rewrite E in Hl. destruct l as [|c2 l]; [cbn in Hl; discriminate|]. cbn [at_path] in Hl. replace (lookup (heap_after over_dir) 3 c2) with (@None nat) in Hl by (vm_compute; reflexivity). discriminate.
  - rewrite E in Hl. discriminate.
Qed.
Theorem C43_file_over_directory_leaks_refuted : exists os st, run false (new_state 493) os = Some st /\ view_of (st_heap st) 2 = Some 0 /\ ~ reach (st_heap st) 0 2 /\ closed (st_heap st) 0 = 0.
Proof.
  exists over_dir, (match run false (new_state 493) over_dir with Some st => st | None => new_state 493 end). split; [vm_compute; reflexivity|]. split; [vm_compute; reflexivity|]. split; [exact over_dir_lost|vm_compute; reflexivity].
Qed.
Print Assumptions C43_file_over_directory_leaks_refuted.
