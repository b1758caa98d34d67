(* C60: sqlvfs's locks. C61: sqlvfs's names. *)
From Verif Require Import Common PathLex_Model FileClient_Model FileClient_Spec SqlVfs_Model SqlVfs_Spec SqlVfs_Proofs.
Open Scope nat_scope.

(* Any number of handles, any interleaving of their calls, of the waits inside flock, and of
   failing releases: whoever holds RESERVED or more is alone. *)
Theorem C60_a_writer_is_alone :
  forall cs ops, Forall (fun c => fst c = true) cs -> Forall asks ops -> Forall survives ops ->
    excludes (vrun (vinit cs) ops).
Proof. exact locks_exclude. Qed.
Print Assumptions C60_a_writer_is_alone.

(* A handle opened for reading never gets to write. *)
Theorem C60_read_only_handles_stay_below_reserved :
  forall cs ops, Forall asks ops ->
    forall i f, file_at (vrun (vinit cs) ops) i f -> v_ro f = true -> v_level f <= l_shared.
Proof. exact readonly_never_writes. Qed.
Print Assumptions C60_read_only_handles_stay_below_reserved.

(* A level rises only when the lock is got that a call waits for, to the level it asked for: a
   Lock that fails leaves the level as it was. *)
Theorem C60_only_a_lock_got_raises_the_level :
  forall cs ops o i f f',
    let s := vrun (vinit cs) ops in
    file_at s i f -> file_at (vstep s o) i f' -> v_locks f = true -> v_level f < v_level f' ->
    o = AGrant i /\ exists up how, v_pc f = Wait up (v_level f') how.
Proof. exact only_grants_raise. Qed.
Print Assumptions C60_only_a_lock_got_raises_the_level.

(* Once all others have given up their locks a waiting call gets the level it asked for. *)
Theorem C60_a_free_lock_is_granted :
  forall cs ops i f up l how, Forall (fun c => fst c = true) cs -> Forall asks ops -> Forall no_failure ops ->
    file_at (vrun (vinit cs) ops) i f -> v_pc f = Wait up l how ->
    (forall j g, j <> i -> file_at (vrun (vinit cs) ops) j g -> v_pc g = Idle /\ v_level g = l_none) ->
    exists f', file_at (vrun (vinit cs) (ops ++ [AGrant i])) i f' /\ v_pc f' = Idle /\ v_level f' = l.
Proof. exact free_lock_is_granted. Qed.
Print Assumptions C60_a_free_lock_is_granted.

(* What a handle reads while it is locked does not change, if locks are only taken from NONE or
   among the writing levels, and only given up entirely. *)
Theorem C60_a_locked_handle_sees_one_version_partial :
  forall cs ops, Forall (fun c => fst c = true) cs -> Forall asks ops -> Forall survives ops ->
    no_conversions (vinit cs) ops -> current (vrun (vinit cs) ops).
Proof. exact snapshots_hold. Qed.
Print Assumptions C60_a_locked_handle_sees_one_version_partial.

(* Finding: flock gives up the shared lock before it gets the exclusive one, so another writer
   gets in between; the upgraded handle holds RESERVED over pages it read before that. *)
Theorem C60_upgrade_keeps_the_version_refuted :
  exists cs ops, Forall (fun c => fst c = true) cs /\ Forall asks ops /\ Forall no_failure ops /\
    ~ current (vrun (vinit cs) ops).
Proof. exact upgrade_stale. Qed.
Print Assumptions C60_upgrade_keeps_the_version_refuted.

(* Finding: the same on the way down to SHARED. *)
Theorem C60_downgrade_keeps_the_version_refuted :
  exists cs ops, Forall (fun c => fst c = true) cs /\ Forall asks ops /\ Forall no_failure ops /\
    ~ current (vrun (vinit cs) ops) /\ (forall i f, file_at (vrun (vinit cs) ops) i f -> v_pc f = Idle).
Proof. exact downgrade_stale. Qed.
Print Assumptions C60_downgrade_keeps_the_version_refuted.

(* Finding: a conversion that fails has lost the lock but keeps the level. *)
Theorem C60_failed_conversion_excludes_refuted :
  exists cs ops, Forall (fun c => fst c = true) cs /\ Forall asks ops /\ ~ excludes (vrun (vinit cs) ops).
Proof. exact failure_breaks. Qed.
Print Assumptions C60_failed_conversion_excludes_refuted.

(* On a backend without locks there is no exclusion, and no error says so. *)
Theorem C60_backend_without_locks_excludes_refuted :
  exists cs ops, Forall asks ops /\ Forall no_failure ops /\ ~ excludes (vrun (vinit cs) ops).
Proof. exact no_locker_breaks. Qed.
Print Assumptions C60_backend_without_locks_excludes_refuted.

(* Three handles, one of them read-only; a writer, a waiting reader, a failed release. *)
Definition C60_ops : list vop :=
  [ALock 0 1; AGrant 0; AUnlock 0 0; ALock 0 2; AGrant 0; ALock 1 1; AGrant 1; AWrite 0; ALock 0 4; AGrant 0;
   AUnlockFail 0 0; AGrant 1; ALock 2 2; ALock 0 1; AGrant 0; AGrant 1].
Example C60_example :
  Forall (fun c => fst c = true) [(true, false); (true, false); (true, true)] /\ Forall asks C60_ops /\ Forall survives C60_ops /\
  no_conversions (vinit [(true, false); (true, false); (true, true)]) C60_ops /\
  vs_files (vrun (vinit [(true, false); (true, false); (true, true)]) C60_ops) =
    [VFile true false 1 OSh Idle 1; VFile true false 1 OSh Idle 1; VFile true true 0 ONone Idle 0].
Proof.
  split; [repeat constructor|]. split; [unfold C60_ops; repeat constructor; cbn; unfold l_exclusive, l_shared; lia|].
  split; [unfold C60_ops; repeat constructor|]. split; [|vm_compute; reflexivity].
  unfold C60_ops. cbn [no_conversions].
  repeat split; intros f Hf; vm_compute in Hf; injection Hf as <-; unfold l_none, l_shared, l_reserved; cbn; lia.
Qed.
Example C60_waits_met :
  exists f, file_at (vrun (vinit [(true, false); (true, false)]) [ALock 0 2; AGrant 0; ALock 1 1; AUnlock 0 0]) 1 f /\
    v_pc f = Wait true 1 OSh.
Proof. eexists. split; reflexivity. Qed.

(* Whatever sqlite asks for, the file system is asked for a clean local path or for none. *)
Theorem C61_names_are_local :
  forall n, clean_path n = [] \/ (is_local (clean_path n) = true /\ clean (clean_path n) = clean_path n).
Proof. exact clean_path_local. Qed.
Print Assumptions C61_names_are_local.

(* FullPathname's answer means the same file when it comes back. *)
Theorem C61_full_pathname_is_stable :
  forall n, clean_path (clean_path n) = clean_path n.
Proof. exact clean_path_idem. Qed.
Print Assumptions C61_full_pathname_is_stable.

(* The journal and the like, named by appending, lie beside the database under its name. *)
Theorem C61_appended_names_are_siblings :
  forall n s, clean_path n <> [] -> ~ In sep s ->
    clean_path (clean_path n ++ s) = clean_path n ++ s /\
    dir (clean_path n ++ s) = dir (clean_path n) /\ base (clean_path n ++ s) = base (clean_path n) ++ s.
Proof. exact suffix_is_sibling. Qed.
Print Assumptions C61_appended_names_are_siblings.

(* DSN: sqlite reads back the name, whatever bytes it has and whatever the query. *)
Theorem C61_dsn_names_the_file :
  forall name q, octets name -> uri_name (dsn name q) = Some (sep :: clean_path name) /\ clean_path (sep :: clean_path name) = clean_path name.
Proof. exact dsn_names. Qed.
Print Assumptions C61_dsn_names_the_file.

(* "../a//b?.db" is the file "a/b?.db". *)
Example C61_example :
  clean_path [46; 46; 47; 97; 47; 47; 98; 63; 46; 100; 98]%N = [97; 47; 98; 63; 46; 100; 98]%N /\
  dsn [46; 46; 47; 97; 47; 47; 98; 63; 46; 100; 98]%N [120]%N =
    [102; 105; 108; 101; 58; 47; 97; 47; 98; 37; 51; 70; 46; 100; 98; 63; 120]%N /\
  dir (clean_path [97; 47; 98]%N ++ [45; 119; 97; 108]%N) = [97]%N.
Proof. vm_compute. auto. Qed.
