(* C90: sqlite's files through sqlvfs. *)
From Verif Require Import Common ContentRange_Model PathLex_Model SqlVfs_Model SqlFile_Model SqlFile_Spec SqlFile_Proofs.
Open Scope nat_scope.

(* Any calls of sqlite, whatever the backend calls behind them fail with and however it wraps its
   errors: sqlite is told what plain files under plain names would tell it, and those are the
   files the backend is left with. *)
Theorem C90_history_partial :
  forall v b cs, sound b -> all_fit v (plain_of b) cs ->
    sqlite_sees v b cs = snd (prun v (plain_of b) cs) /\ holds (left_by v b cs) (fst (prun v (plain_of b) cs)).
Proof. exact sql_files. Qed.
Print Assumptions C90_history_partial.

(* No descriptor of the backend is leaked or shared, and none that is closed keeps a lock,
   whatever fails, whether or not the calls fit. *)
Theorem C90_descriptors :
  forall v b cs, sound b -> tidy (fst (srun v (sinit b) cs)) /\ lets_go (fst (srun v (sinit b) cs)).
Proof. exact sql_tidy. Qed.
Print Assumptions C90_descriptors.

(* The files that sqlite gives no name never reach the backend. *)
Theorem C90_unnamed_files_stay_in_memory :
  forall v b cs c, private_call (fst (srun v (sinit b) cs)) c ->
    s_back (fst (sstep v (fst (srun v (sinit b) cs)) c)) = s_back (fst (srun v (sinit b) cs)).
Proof. exact private_files. Qed.
Print Assumptions C90_unnamed_files_stay_in_memory.

(* Every open handle has exactly the lock of its level on its descriptor, shared for SHARED and
   exclusive from RESERVED on, whatever lock calls failed. *)
Theorem C90_locks_follow_the_level :
  forall v b cs, sound b -> e_locks v = true -> Forall gives_up cs -> locked_right (fst (srun v (sinit b) cs)).
Proof. exact sql_locks. Qed.
Print Assumptions C90_locks_follow_the_level.

(* Finding: a handle that deletes its file when closed deletes whatever has its name by then. *)
Theorem C90_delete_on_close_spares_others_refuted :
  exists v b cs q, sound b /\ ~ In (TFail IoClose) (sqlite_sees v b cs) /\
    p_node (fst (prun v (plain_of b) cs)) q = Some (NFile 1) /\ entry (left_by v b cs) q = None.
Proof. exact other_file_deleted. Qed.
Print Assumptions C90_delete_on_close_spares_others_refuted.

(* Finding: and if nothing has it, Close fails. *)
Theorem C90_delete_on_close_after_delete_refuted :
  exists v b cs, sound b /\ sqlite_sees v b cs = [TOpened 0 false; TOk; TFail IoClose] /\
    snd (prun v (plain_of b) cs) = [TOpened 0 false; TOk; TOk].
Proof. exact deleted_twice. Qed.
Print Assumptions C90_delete_on_close_after_delete_refuted.

(* Finding: Delete removes an empty directory. *)
Theorem C90_delete_removes_only_files_refuted :
  exists v b cs q, sound b /\ entry b q = Some NDir /\ entry (left_by v b cs) q = None /\ sqlite_sees v b cs = [TOk].
Proof. exact directory_deleted. Qed.
Print Assumptions C90_delete_removes_only_files_refuted.

(* Finding: a directory is opened for reading as if it were a database. *)
Theorem C90_open_refuses_directories_refuted :
  exists v b cs, sound b /\ sqlite_sees v b cs = [TOpened 0 false; TFail IoRead] /\ snd (prun v (plain_of b) cs) = [TFail Cantopen; TNone].
Proof. exact directory_opened. Qed.
Print Assumptions C90_open_refuses_directories_refuted.

(* A database "/d/../d//m" with its journal "d/m-j": the first read of the new file is short though
   the backend wraps io.EOF twice, a write fails half-way, the journal is deleted while open and
   still readable, a temporary file is in memory, one deletes itself. *)
Definition C90_env := Env 2 true true.
Definition C90_calls : list call :=
  [KAccess [100; 47; 109]%N None; KOpen [47; 100; 47; 46; 46; 47; 100; 47; 47; 109]%N rwc None;
   KRead 0 0 2 None; KLock 0 2 None; KOpen [100; 47; 109; 45; 106]%N rwc None; KWrite 1 0 [1; 2; 3]%N None;
   KSync 1 (Some 5); KWrite 0 2 [8; 9]%N (Some (1, 28)); KDelete [100; 47; 109; 45; 106]%N None; KRead 1 1 2 None;
   KRead 0 0 4 None; KOpen [] rwc (Some 5); KWrite 2 1 [4]%N (Some (0, 5)); KRead 2 0 2 None;
   KOpen [100; 47; 109]%N ro None; KLock 3 2 None; KSize 3 None; KWrite 3 0 [1]%N None; KAccess [100; 47; 109; 45; 106]%N None;
   KDelete [100; 47; 109; 45; 106]%N None; KOpen [116]%N rwcd None; KClose 4 None (Some 5) None; KAccess [116]%N None;
   KTruncate 0 1 None; KUnlock 0 0 (Some 9); KLockState 0; KClose 0 None None None; KRead 3 0 1 None].
Example C90_sees :
  sound bare /\ all_fit C90_env (plain_of bare) C90_calls /\
  sqlite_sees C90_env bare C90_calls =
    [TBool false; TOpened 0 false; TShort [0; 0]%N; TOk; TOpened 1 false; TOk; TFail IoFsync; TFail IoWrite; TOk; TPage [2; 3]%N;
     TShort [0; 0; 8; 0]%N; TOpened 2 true; TOk; TPage [0; 4]%N; TOpened 3 false; TFail IoLock; TSize 3; TFail IoWrite; TBool false;
     TFail DeleteNoent; TOpened 4 false; TFail IoClose; TBool false; TOk; TFail IoUnlock; TLevel 0; TOk; TPage [0]%N] /\
  entry (left_by C90_env bare C90_calls) [[100]; [109]]%N = Some (NFile 0) /\
  entry (left_by C90_env bare C90_calls) [[116]]%N = None.
Proof.
  split; [exact bare_sound|]. split.
  - vm_compute. repeat split; intros; congruence.
  - split; [vm_compute; reflexivity|]. split; reflexivity.
Qed.
Example C90_private :
  private_call (fst (srun C90_env (sinit bare) [KOpen [] rwc None; KWrite 0 0 [1]%N None])) (KTruncate 0 4 (Some 3)).
Proof. eexists. reflexivity. Qed.
Example C90_locks :
  Forall gives_up [KOpen [109]%N rwc None; KLock 0 1 None; KLock 0 2 (Some 4); KLock 0 4 None; KUnlock 0 1 None] /\
  e_locks C90_env = true.
Proof. split; [repeat constructor|reflexivity]. Qed.
