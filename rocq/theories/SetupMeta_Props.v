(* Property theorems for C97: modes, times and failures in testhelper.Setup. *)
From Verif Require Import Common CommonLemmas ContentRange_Model PathLex_Model PathLex_Proofs TempName_Model CopyFs_Model
  SetupLines_Model SetupLines_Spec SetupLines_Proofs SetupMeta_Model SetupMeta_Spec SetupMeta_Proofs.
Open Scope nat_scope.

(* Making one file, whichever of its calls fail. Nothing changes away from its place but the
   directories above it, which keep kind and mode. If it reports success, the file is there
   with its bytes, the mode and time asked for (the old or usual mode if none is), below
   directories. If it reports an error and Remove works, nothing half made stays: the place
   is empty or holds what it held. *)
Theorem C97_one_file :
  forall flt part st n b mode mtime st' ok, plain_name n -> setup_file flt part st n b mode mtime = (st', ok) ->
  only_at (split_sep n) st st' /\
  (ok = true ->
     (forall q, q <> [] -> over q (split_sep n) -> exists x, m_at st' q = Some x /\ mn_bytes x = None) /\
     exists x, m_at st' (split_sep n) = Some x /\ mn_bytes x = Some b /\ as_asked mode mtime x /\
       (mode = 0%N -> mn_mode x = match m_at st (split_sep n) with Some o => mn_mode o | None => N.ldiff 438 (m_umask st) end)) /\
  (ok = false -> flt n CRemove = false -> m_at st' (split_sep n) = None \/ m_at st' (split_sep n) = m_at st (split_sep n)).
Proof. exact setup_file_frame. Qed.
Print Assumptions C97_one_file.

(* Making one directory: the same, and a file in its place is not replaced. *)
Theorem C97_one_dir :
  forall flt st n mode mtime st' ok, plain_name n -> setup_dir flt st n mode mtime = (st', ok) ->
  only_at (split_sep n) st st' /\
  (ok = true ->
     (forall q, q <> [] -> over q (split_sep n) -> exists x, m_at st' q = Some x /\ mn_bytes x = None) /\
     exists x, m_at st' (split_sep n) = Some x /\ mn_bytes x = None /\ as_asked mode mtime x) /\
  kind_kept (m_at st (split_sep n)) (m_at st' (split_sep n)).
Proof. exact setup_dir_frame. Qed.
Print Assumptions C97_one_dir.

(* A whole run that reports success, in whatever order its entries were listed: every file
   has its bytes, its mode and its time, though others were made after it. *)
Theorem C97_files_as_asked :
  forall flt part ps st st' n b mode t, apart ps -> msetup flt part st ps = (st', true) -> In (MFile n b mode t) ps ->
  exists x, m_at st' (split_sep n) = Some x /\ mn_bytes x = Some b /\ as_asked mode t x.
Proof. exact setup_files. Qed.
Print Assumptions C97_files_as_asked.

(* Every directory is there with its mode. *)
Theorem C97_dir_modes :
  forall flt part ps st st' n mode t, apart ps -> msetup flt part st ps = (st', true) -> In (MDir n mode t) ps ->
  exists x, m_at st' (split_sep n) = Some x /\ mn_bytes x = None /\ as_asked mode None x.
Proof. exact setup_dirs. Qed.
Print Assumptions C97_dir_modes.

(* A directory has its time if nothing else is made below it. *)
Theorem C97_dir_times_partial :
  forall flt part ps st st' n mode t, apart ps -> msetup flt part st ps = (st', true) -> In (MDir n mode t) ps ->
  (forall p, In p ps -> ~ over (split_sep n) (place p)) ->
  exists x, m_at st' (split_sep n) = Some x /\ mn_bytes x = None /\ as_asked mode t x.
Proof. exact setup_dir_times. Qed.
Print Assumptions C97_dir_times_partial.

(* What is neither an entry nor above one is as it was, whether the run worked or not. *)
Theorem C97_nothing_else :
  forall flt part ps st st' ok q, Forall plainly_named ps -> (forall p, In p ps -> q <> place p /\ ~ over q (place p)) ->
  msetup flt part st ps = (st', ok) -> m_at st' q = m_at st q.
Proof. exact setup_rest. Qed.
Print Assumptions C97_nothing_else.

(* An empty tree at time 1000; nothing fails, or Chmod of "f" does. *)
Definition fresh : mdisk := MDisk (fun q => match q with [] => Some (MNode None 493 0) | _ => None end) 1000%Z 18%N.
Definition no_fault : faults := fun _ _ => false.
Definition chmod_fails : faults := fun n c => match n, c with [102%N], CChmod => true | _, _ => false end.
(* d/ (mode 0700, time 5) and d/f (mode 0640, time 7). *)
Definition two : list mproc := [MFile [100; 47; 102]%N [104; 105]%N 416 (Some 7%Z); MDir [100]%N 448 (Some 5%Z)].

(* A directory asked for with a time does not have it if a file is made in it. *)
Theorem C97_dir_times_refuted :
  exists ps n mode t st', apart ps /\ msetup no_fault [] fresh ps = (st', true) /\ In (MDir n mode (Some t)) ps /\
  forall x, m_at st' (split_sep n) = Some x -> mn_time x <> t.
Proof.
  exists two, [100]%N, 448%N, 5%Z, (fst (msetup no_fault [] fresh two)).
  split; [split|split; [|split]].
  - repeat (apply Forall_cons; [cbn; repeat (apply Forall_cons; [split; [discriminate|split; [discriminate|split; [discriminate|intros [E|[]]; discriminate E]]]|]); apply Forall_nil|]). apply Forall_nil.
  - cbn. constructor; [intros [E|[]]; discriminate E|]. constructor; [intros []|constructor].
  - rewrite (surjective_pairing (msetup no_fault [] fresh two)). reflexivity.
  - right. left. reflexivity.
  - intros x H. assert (m_at (fst (msetup no_fault [] fresh two)) (split_sep [100]%N) = Some (MNode None 448 1005%Z)) as E by (vm_compute; reflexivity).
    rewrite E in H. injection H as <-. discriminate.
Qed.
Print Assumptions C97_dir_times_refuted.

(* A file that was there before is not given back when its replacement fails: it is gone. *)
Theorem C97_old_file_lost_refuted :
  exists st n st' x, setup_file chmod_fails [] st n [104]%N 416 None = (st', false) /\
  m_at st (split_sep n) = Some x /\ m_at st' (split_sep n) = None.
Proof.
  exists (fst (setup_file no_fault [] fresh [102]%N [111; 108; 100]%N 0 None)), [102]%N.
  eexists _, (MNode (Some [111; 108; 100]%N) 420 _). split; [|split]; [|vm_compute; reflexivity|].
  - rewrite (surjective_pairing (setup_file chmod_fails [] _ _ _ _ _)). apply f_equal2; [reflexivity|vm_compute; reflexivity].
  - vm_compute. reflexivity.
Qed.
Print Assumptions C97_old_file_lost_refuted.

(* The two entries again: the file and the mode of the directory are as asked; and a file
   whose Chmod fails is not left behind. *)
Example C97_met :
  m_at (fst (msetup no_fault [] fresh two)) [[100]; [102]]%N = Some (MNode (Some [104; 105]%N) 416 7%Z) /\
  snd (msetup no_fault [] fresh two) = true /\
  (forall p, In p two -> ~ over (split_sep [100; 47; 102]%N) (place p)) /\
  m_at (fst (setup_file chmod_fails [] fresh [102]%N [104]%N 416 None)) [[102]]%N = None /\
  snd (setup_file chmod_fails [] fresh [102]%N [104]%N 416 None) = false /\
  m_at (fst (setup_dir no_fault fresh [100]%N 448 (Some 5%Z))) [[100]]%N = Some (MNode None 448 5%Z).
Proof.
  split; [vm_compute; reflexivity|]. split; [vm_compute; reflexivity|]. split; [|split; [vm_compute; reflexivity|split; vm_compute; reflexivity]].
  intros p [<-|[<-|[]]] (x & r & E); cbn in E; discriminate E.
Qed.
