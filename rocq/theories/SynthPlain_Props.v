(* C89: a synthfs root is one plain tree through any history. *)
From Verif Require Import Common CommonLemmas ContentRange_Model PathLex_Model Synth_Model Synth_Spec Synth_Proofs SynthPath_Proofs SynthPlain_Spec SynthPlain_Proofs.
Open Scope nat_scope.

(* Whatever is done through a root, each call answers what the plain tree answers, the call returns,
   and the root goes on showing the plain tree; renames of a directory into itself are left out. *)
Theorem C89_history_partial mode os : fit (start mode) os ->
  exists st, trace (new_state mode) os = Some (st, answers (start mode) os) /\ shows (st_heap st) (after (start mode) os).
Proof. exact (history mode os). Qed.
Print Assumptions C89_history_partial.

(* A name leads where it leads in the tree, to the node that shows what the tree has there. *)
Theorem C89_lookups mode os st rs name fo : fit (start mode) os -> trace (new_state mode) os = Some (st, rs) ->
  match leads_to (after (start mode) os) name fo with
  | Ok p => exists f, resolve (st_heap st) 0 name fo = Ok f /\ seen (st_heap st) (f_node f) = pat (after (start mode) os) p /\ pat (after (start mode) os) p <> None
  | Err e => resolve (st_heap st) 0 name fo = Err e
  end.
Proof. exact (looks mode os st rs name fo). Qed.
Print Assumptions C89_lookups.

Theorem C89_listings mode os st rs name p : fit (start mode) os -> trace (new_state mode) os = Some (st, rs) -> leads_to (after (start mode) os) name true = Ok p ->
  exists f, resolve (st_heap st) 0 name true = Ok f /\ NoDup (listing (st_heap st) (f_node f)) /\ forall c, In c (listing (st_heap st) (f_node f)) <-> pat (after (start mode) os) (p ++ [c]) <> None.
Proof. exact (lists mode os st rs name p). Qed.
Print Assumptions C89_listings.

(* The tree is one: whatever is in it is in a directory of it. *)
Theorem C89_tree mode os p c : fit (start mode) os -> pat (after (start mode) os) (p ++ [c]) <> None -> dir_at (after (start mode) os) p = true.
Proof. exact (rooted_tree mode os p c). Qed.
Print Assumptions C89_tree.

(* In the plain tree a rename loses no file but the one it replaces. *)
Theorem C89_plain_renames t i old new p m v : snd (plain t (ORename i old new)) = Ok tt -> pat t p = Some (LookFile m v) -> place_of t new <> Ok p ->
  exists q, pat (fst (plain t (ORename i old new))) q = Some (LookFile m v).
Proof. exact (rename_keeps t i old new p m v). Qed.
Print Assumptions C89_plain_renames.

(* A busy history: /d/s made, a file written, a link to it, a second name, a dangling link that an
   added file's parents replace, a tree merged in, renames over an empty directory and of a file
   onto its second name, modes, refusals. *)
Definition kd : list byte := [100%N]. Definition ks : list byte := [115%N]. Definition kf : list byte := [102%N]. Definition kl : list byte := [108%N]. Definition kg : list byte := [103%N].
Definition kw : oreq := {| o_create := true; o_excl := true; o_write := true; o_mode := 420; o_tag := 7; o_opens := true; o_allocs := true |}.
Definition kops : list sop :=
  [OMkdirAll 0 (join_sep [kd; ks]) 493; OOpen 0 (join_sep [kd; ks; kf]) kw; OSymlink 0 (join_sep [ks; kf]) (join_sep [kd; kl]) 511;
   OLink 0 (join_sep [kd; kl]) kg; OLink 0 (join_sep [kd; kl]) kg; OMkdir 0 (join_sep [kd; kl; kf]) 493; OOpen 0 (join_sep [kd; kl]) kw;
   OSymlink 0 kd (join_sep [kd; ks; ks]) 511; OAddFile 0 (join_sep [kd; ks; ks; ks; kf]) 9 384 448 true merge_overwrite;
   OAddFS 0 kd (SDir 493 [(ks, SDir 448 [(kg, SFile 420 11 true)] true); (kl, SLink 511 kd true); (kf, SFail)] true) 493 merge_overwrite;
   OMkdir 0 kf 448; ORename 0 (join_sep [kd; ks]) kf; ORename 0 kf (join_sep [dot :: dot :: []; kd]); ORename 0 kg (join_sep [kf; kg]); ORename 0 kf kf;
   ORemove 0 kd; OChmod 0 (join_sep [kd; kl]) false 256; ORemoveAll 0 (join_sep [kd; kl]); ORemove 0 (join_sep [kd; dot :: []]); OOpenRoot 0 kd; OCloseHandle 3].
Example C89_busy_history :
  fit (start 493) kops /\
  answers (start 493) kops = [Ok tt; Ok tt; Ok tt; Ok tt; Err EExist; Err ENotDir; Err EExist; Ok tt; Ok tt; Err EOther; Ok tt; Ok tt; Err EEscapes; Ok tt; Err ENotEmpty; Err ENotEmpty; Ok tt; Ok tt; Ok tt; Err ENotExist; Ok tt] /\
  option_map snd (trace (new_state 493) kops) = Some (answers (start 493) kops) /\
  leads_to (after (start 493) kops) (join_sep [kf; ks; dot :: dot :: []; kg]) true = Ok [kf; kg] /\
  map (pat (after (start 493) kops)) [[kd]; [kg]; [kf]; [kf; kg]; [kf; kf]; [kf; ks]; [kf; ks; ks; kf]] =
    [None; None; Some (LookDir 493); Some (LookFile 420 0); Some (LookFile 420 0); Some (LookDir 448); Some (LookFile 384 1)] /\
  option_map (fun x => map (seen_at (st_heap (fst x)) 0) [[kd]; [kg]; [kf]; [kf; kg]; [kf; kf]; [kf; ks]; [kf; ks; ks; kf]]) (trace (new_state 493) kops) =
    Some [None; None; Some (LookDir 493); Some (LookFile 420 0); Some (LookFile 420 0); Some (LookDir 448); Some (LookFile 384 1)] /\
  t_files (after (start 493) kops) = [7%N; 9%N; 11%N].
Proof. split; [apply fitb_fit; vm_compute; reflexivity|]. repeat split; vm_compute; reflexivity. Qed.

(* So a root loses no file by a rename but the one replaced. *)
Theorem C89_renames_partial mode os st rs old new st' p m v : fit (start mode) os -> trace (new_state mode) os = Some (st, rs) -> ~ into_itself (after (start mode) os) (ORename 0 old new) -> step false st (ORename 0 old new) = Some (st', Ok tt) ->
  seen_at (st_heap st) 0 p = Some (LookFile m v) -> place_of (after (start mode) os) new <> Ok p -> exists q, seen_at (st_heap st') 0 q = Some (LookFile m v).
Proof. exact (renames_keep mode os st rs old new st' p m v). Qed.
Print Assumptions C89_renames_partial.

(* A directory moved into itself is answered with success, and everything in it is gone. *)
Definition lost_ops : list sop := [OMkdir 0 kd 493; OOpen 0 (join_sep [kd; kf]) kw].
Definition lost_move : sop := ORename 0 kd (join_sep [kd; kg]).
Lemma lost : ~ (forall mode os st rs o st' old new p m v, fit (start mode) os -> trace (new_state mode) os = Some (st, rs) -> o = ORename 0 old new -> step false st o = Some (st', Ok tt) ->
  seen_at (st_heap st) 0 p = Some (LookFile m v) -> place_of (after (start mode) os) new <> Ok p -> exists q, seen_at (st_heap st') 0 q = Some (LookFile m v)).
Proof.
  intros H. destruct (trace (new_state 493) lost_ops) as [[st rs]|] eqn:E; [|vm_compute in E; discriminate]. destruct (step false st lost_move) as [[st' r]|] eqn:E2; [|revert E2; apply some_inj in E; apply (f_equal fst) in E; cbn [fst] in E; subst st; vm_compute; discriminate].
  assert (r = Ok tt) as -> by (apply some_inj in E; apply (f_equal fst) in E; cbn [fst] in E; subst st; apply (f_equal (option_map snd)) in E2; vm_compute in E2; congruence).
  destruct (H 493%N lost_ops st rs lost_move st' kd (join_sep [kd; kg]) [kd; kf] 420%N 0) as [q Hq]; auto.
  - apply fitb_fit. vm_compute. reflexivity.
  - apply some_inj in E. apply (f_equal fst) in E. cbn [fst] in E. subst st. vm_compute. reflexivity.
  - vm_compute. discriminate.
  - apply some_inj in E. apply (f_equal fst) in E. cbn [fst] in E. subst st. apply some_inj in E2. apply (f_equal fst) in E2. cbn [fst] in E2. subst st'. destruct q as [|c q]; vm_compute in Hq; discriminate.
Qed.
Theorem C89_renames_lose_nothing_refuted : ~ (forall mode os st rs o st' old new p m v, fit (start mode) os -> trace (new_state mode) os = Some (st, rs) -> o = ORename 0 old new -> step false st o = Some (st', Ok tt) ->
  seen_at (st_heap st) 0 p = Some (LookFile m v) -> place_of (after (start mode) os) new <> Ok p -> exists q, seen_at (st_heap st') 0 q = Some (LookFile m v)).
Proof. exact lost. Qed.
Print Assumptions C89_renames_lose_nothing_refuted.
