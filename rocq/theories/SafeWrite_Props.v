(* C20: safe writes are atomic at every crash point. C21: failures change nothing. *)
From Verif Require Import Common CommonLemmas ContentRange_Model PathLex_Model
  TempName_Model TempName_Spec SafeWrite_Model SafeWrite_Spec SafeWrite_Proofs.
Open Scope nat_scope.

(* C20, with other processes acting between the steps (but leaving the temporary name
   alone): every step changes at most the temporary name, except the last step of a
   successful run, which moves the complete new value over the target. *)
Theorem C20_steps_touch_only_temp_until_publish :
  forall V env temp target (w : names V) v0 pre1 pre2 oper post1 post2 ic f res w' tr,
  (forall k s, env k s temp = s temp) -> w temp = Some v0 ->
  safe_operation env temp target w v0 pre1 pre2 oper post1 post2 ic f = (res, w', tr) ->
  schain env 0 w tr w' /\
  run_shape temp target v0 (pre1 ++ pre2 ++ [oper] ++ post1 ++ post2) res w' tr /\
  (res = SErr -> (forall v, snd (remove_run f v) = true) -> w' temp = None) /\
  (res = SPanic -> w' temp <> None).
Proof. exact @safe_operation_shape. Qed.
Print Assumptions C20_steps_touch_only_temp_until_publish.

(* C20 and C21 with the default policy: in every state a crash can leave, and at the end,
   everything but a new temporary name is as before, or the target holds the complete new
   value; nil is returned only in the second case. *)
Theorem C20_random_policy_crash_states :
  forall V rnd io (fresh : V) name pre1 pre2 oper post1 post2 ic f w res w' tr,
  (forall k, uint32 (rnd k)) ->
  w (clean name) <> None \/ (base (clean name) = base name /\ (zlen (base name) <= 240)%Z) ->
  safe_write_random rnd io fresh name pre1 pre2 oper post1 post2 ic f w = (res, w', tr) ->
  let new := produced fresh (pre1 ++ pre2 ++ [oper] ++ post1 ++ post2) in
  exists temp, w temp = None /\ temp <> clean name /\
  Forall (fun s => before_publish w temp s \/ exists v, new = Some v /\ after_publish w temp (clean name) v s) (visited tr) /\
  match res with
  | SOk => exists v, new = Some v /\ after_publish w temp (clean name) v w'
  | SErr => before_publish w temp w' /\ ((forall v, snd (remove_run f v) = true) -> forall p, w' p = w p)
  | SPanic => before_publish w temp w' /\ new = None
  end \/ (res = SErr /\ w' = w /\ Forall (fun s => s = w) (visited tr)).
Proof. exact @safe_write_random_spec. Qed.
Print Assumptions C20_random_policy_crash_states.

(* C20 and C21 with the directory policy, relative to the state in which the temporary
   directory exists. *)
Theorem C20_dir_policy_crash_states :
  forall V td io0 (dirv : V) rnd io fresh name pre1 pre2 oper post1 post2 ic f w res w' tr,
  clean td = td -> (forall k, uint32 (rnd k)) -> ~ dir_temp_form (base (clean name)) ->
  safe_write_dir td io0 dirv rnd io fresh name pre1 pre2 oper post1 post2 ic f w = (res, w', tr) ->
  let new := produced fresh (pre1 ++ pre2 ++ [oper] ++ post1 ++ post2) in
  exists w1, (w1 = w \/ (w td = None /\ w1 = name_set w td (Some dirv))) /\
  exists temp, w1 temp = None /\ temp <> clean name /\
  Forall (fun s => s = w \/ before_publish w1 temp s \/ exists v, new = Some v /\ after_publish w1 temp (clean name) v s) (visited tr) /\
  match res with
  | SOk => exists v, new = Some v /\ after_publish w1 temp (clean name) v w'
  | SErr => before_publish w1 temp w' /\ ((forall v, snd (remove_run f v) = true) -> forall p, w' p = w1 p)
  | SPanic => before_publish w1 temp w' /\ new = None
  end \/ (res = SErr /\ w' = w1 /\ Forall (fun s => s = w \/ s = w1) (visited tr)).
Proof. exact @safe_write_dir_spec. Qed.
Print Assumptions C20_dir_policy_crash_states.

(* C20, CopyFs: as above when opening the directory it just made succeeds. *)
Theorem C20_copyfs_as_write :
  forall V d pat rnd io (fresh : V) name pre1 pre2 oper post1 post2 ic f w,
  safe_write d pat rnd (mkdir_open io (fun _ => None) fresh) fresh name pre1 pre2 oper post1 post2 ic f w =
  safe_write d pat rnd (open_excl io fresh) fresh name pre1 pre2 oper post1 post2 ic f w.
Proof. exact @safe_write_mkdir. Qed.
Print Assumptions C20_copyfs_as_write.

(* C20, Copy: what is published is what the reader delivered, to its end. *)
Theorem C20_copy_produces_source :
  forall chunks eof wf b s v,
  produced (b, s) [copy_script chunks eof wf] = Some v -> eof = true /\ fst v = b ++ concat chunks.
Proof. exact copy_produced. Qed.
Print Assumptions C20_copy_produces_source.

Theorem C20_copy_complete :
  forall chunks s, exists b', produced ([], s) [copy_script chunks true (fun _ => None)] = Some (concat chunks, b').
Proof. exact copy_produced_complete. Qed.
Print Assumptions C20_copy_complete.

(* C20 under power loss: with SyncHook as the last post hook, the target is the old or the
   complete new content after a power loss at any point. *)
Theorem C20_power_loss_with_sync :
  forall rnd io fresh name pre1 pre2 oper post1 hooks sync_ok ic f (w : names fileval) res w' tr old,
  (forall k, uint32 (rnd k)) ->
  w (clean name) = old -> (forall c s, old = Some (c, s) -> s = true) ->
  (old <> None \/ (base (clean name) = base name /\ (zlen (base name) <= 240)%Z)) ->
  safe_write_random rnd io fresh name pre1 pre2 oper post1 (hooks ++ [sync_hook sync_ok]) ic f w = (res, w', tr) ->
  forall s s', In s (visited tr) -> power_loss s s' ->
  s' (clean name) = old \/
  exists c, produced fresh (pre1 ++ pre2 ++ [oper] ++ post1 ++ hooks ++ [sync_hook sync_ok]) = Some (c, true) /\
    s' (clean name) = Some (c, true).
Proof. exact safe_write_power_loss. Qed.
Print Assumptions C20_power_loss_with_sync.

Definition ok_faults : sw_faults fileval := SwFaults fileval false false (fun _ => ([], true)).

(* "f" holds "old" (one byte 1 here, on disk). *)
Definition ex_state : names fileval := fun p => if bytes_eqb p [102]%N then Some ([1]%N, true) else None.

(* Without it the target can end up as neither: the rename may be on disk before the data. *)
Theorem C20_power_loss_without_sync_refuted :
  exists w' tr s', safe_write_random (fun _ => 7%N) (fun _ => None) ([], false) [102]%N [] []
       (copy_script [[2; 3]%N] true (fun _ => None)) [] [] false ok_faults ex_state = (SOk, w', tr) /\
    power_loss w' s' /\ s' [102]%N = Some ([], true) /\
    produced ([], false) [copy_script [[2; 3]%N] true (fun _ => None)] = Some ([2; 3]%N, false).
Proof.
  set (r := safe_write_random _ _ _ _ _ _ _ _ _ _ _ _). destruct r as [[res w'] tr] eqn:E.
  exists w', tr, (fun p => match w' p with None => None | Some (c, true) => Some (c, true) | Some (c, false) => Some ([], true) end).
  assert (res = SOk) as Hr by (change res with (fst (fst (res, w', tr))); rewrite <- E; vm_compute; reflexivity).
  assert (w' [102]%N = Some ([2; 3]%N, false)) as Hw.
  { change w' with (snd (fst (res, w', tr))). rewrite <- E. vm_compute. reflexivity. }
  split; [rewrite <- Hr; reflexivity|]. split; [|split; [rewrite Hw; reflexivity|vm_compute; reflexivity]].
  intros p. destruct (w' p) as [[c [|]]|]; [reflexivity|exists []; reflexivity|reflexivity].
Qed.
Print Assumptions C20_power_loss_without_sync_refuted.

(* The restriction on the target's name matters: with a 255 byte name of the policy's own
   form the temporary name can be the target, which then shows partial content. *)
Theorem C20_temp_can_be_target_refuted :
  exists name r (f : sw_faults fileval) s tr,
  uint32 r /\
  safe_write_random (fun _ => r) (fun _ => None) ([], false) name [] []
    (copy_script [[2; 3]%N] true (fun _ => Some 1)) [] [] false f (fun _ => None) = (SErr, s, tr) /\
  exists t, In t (visited tr) /\ t (clean name) = Some ([2]%N, false) /\
    produced ([], false) [copy_script [[2; 3]%N] true (fun _ => Some 1)] = None.
Proof.
  set (nm := repeat 97%N 240 ++ [46; 48; 48; 48; 48; 48; 48; 48; 48; 48; 55; 46; 116; 109; 112]%N).
  exists nm, 7%N, ok_faults.
  set (r := safe_write_random _ _ _ _ _ _ _ _ _ _ _ _). destruct r as [[res w'] tr] eqn:E. exists w', tr.
  assert (res = SErr) as Hr by (change res with (fst (fst (res, w', tr))); rewrite <- E; vm_compute; reflexivity).
  split; [reflexivity|]. split; [rewrite <- Hr; reflexivity|].
  assert (existsb (fun t => match t (clean nm) with Some (c, false) => bytes_eqb c [2]%N | _ => false end) (visited tr) = true) as Hx.
  { change tr with (snd (res, w', tr)). rewrite <- E. vm_compute. reflexivity. }
  apply existsb_exists in Hx. destruct Hx as (t & Ht & Hx). exists t. split; [exact Ht|].
  split; [|reflexivity]. destruct (t (clean nm)) as [[c [|]]|]; try discriminate Hx.
  apply ContentRange_Proofs.bytes_eqb_eq in Hx. subst c. reflexivity.
Qed.
Print Assumptions C20_temp_can_be_target_refuted.

(* A run that succeeds, and one whose write fails half way. *)
Example C20_concrete :
  let run wf := safe_write_random (fun _ => 7%N) (fun _ => None) ([], false) [102]%N [] []
       (copy_script [[2; 3]%N; [4]%N] true wf) [] [sync_hook true] false ok_faults ex_state in
  fst (fst (run (fun _ => None))) = SOk /\ snd (fst (run (fun _ => None))) [102]%N = Some ([2; 3; 4]%N, true) /\
  fst (fst (run (fun i => if i =? 1 then Some 0 else None))) = SErr /\
  snd (fst (run (fun i => if i =? 1 then Some 0 else None))) [102]%N = Some ([1]%N, true) /\
  length (visited (snd (run (fun i => if i =? 1 then Some 0 else None)))) = 8.
Proof. cbv zeta. repeat split; vm_compute; reflexivity. Qed.

(* C21: an error leaves the target alone, and, when RemoveAll works, leaves everything as it
   was. *)
Theorem C21_error_restores :
  forall V rnd io (fresh : V) name pre1 pre2 oper post1 post2 ic f w w' tr,
  (forall k, uint32 (rnd k)) ->
  w (clean name) <> None \/ (base (clean name) = base name /\ (zlen (base name) <= 240)%Z) ->
  safe_write_random rnd io fresh name pre1 pre2 oper post1 post2 ic f w = (SErr, w', tr) ->
  w' (clean name) = w (clean name) /\
  ((forall v, snd (remove_run f v) = true) -> forall p, w' p = w p).
Proof. exact @safe_write_error. Qed.
Print Assumptions C21_error_restores.

(* C21 for every target name: when RemoveAll works, an error leaves everything as it was. *)
Theorem C21_error_restores_any_name :
  forall V rnd io (fresh : V) name pre1 pre2 oper post1 post2 ic f w w' tr,
  (forall k, uint32 (rnd k)) -> (forall v, snd (remove_run f v) = true) ->
  safe_write_random rnd io fresh name pre1 pre2 oper post1 post2 ic f w = (SErr, w', tr) ->
  forall p, w' p = w p.
Proof. exact @safe_write_error_any. Qed.
Print Assumptions C21_error_restores_any_name.

(* C21 does not extend to panics: the temporary file stays. *)
Theorem C21_panic_leaves_temp_refuted :
  exists rnd io (fresh : fileval) name oper f w w' tr p,
  safe_write_random rnd io fresh name [] [] oper [] [] false f w = (SPanic, w', tr) /\
  (forall v, snd (remove_run f v) = true) /\ w p = None /\ w' p = Some ([5]%N, false).
Proof.
  exists (fun _ => 7%N), (fun _ => None), ([], false), [102]%N, (fun _ => ([([5]%N, false)], OPanic)), ok_faults, ex_state.
  set (r := safe_write_random _ _ _ _ _ _ _ _ _ _ _ _). destruct r as [[res w'] tr] eqn:E.
  exists w', tr, (random_name (random_policy_dir [102]%N) ([102; 46]%N, tmp_ext) 7).
  assert (res = SPanic) as Hr by (change res with (fst (fst (res, w', tr))); rewrite <- E; vm_compute; reflexivity).
  split; [rewrite <- Hr; reflexivity|]. split; [reflexivity|]. split; [vm_compute; reflexivity|].
  change w' with (snd (fst (res, w', tr))). rewrite <- E. vm_compute. reflexivity.
Qed.
Print Assumptions C21_panic_leaves_temp_refuted.

(* ... nor to CopyFs when the directory just made cannot be opened. *)
Theorem C21_copyfs_open_failure_leaves_dir_refuted :
  exists rnd io io2 (fresh : fileval) name oper f w w' tr p,
  safe_write (random_policy_dir name) (policy_pattern name) rnd (mkdir_open io io2 fresh) fresh name [] [] oper [] [] false f w
    = (SErr, w', tr) /\
  (forall v, snd (remove_run f v) = true) /\ w p = None /\ w' p <> None.
Proof.
  exists (fun _ => 7%N), (fun _ => None), (fun _ => Some (EOther 24)), ([], false), [102]%N, (fun _ => ([], OOk)), ok_faults, ex_state.
  set (r := safe_write _ _ _ _ _ _ _ _ _ _ _ _ _ _). destruct r as [[res w'] tr] eqn:E.
  exists w', tr, (random_name (random_policy_dir [102]%N) ([102; 46]%N, tmp_ext) 7).
  assert (res = SErr) as Hr by (change res with (fst (fst (res, w', tr))); rewrite <- E; vm_compute; reflexivity).
  split; [rewrite <- Hr; reflexivity|]. split; [reflexivity|]. split; [vm_compute; reflexivity|].
  change w' with (snd (fst (res, w', tr))). rewrite <- E. vm_compute. discriminate.
Qed.
Print Assumptions C21_copyfs_open_failure_leaves_dir_refuted.

(* Close fails: error, everything as before; with IgnoreCloseErr it is published. *)
Example C21_concrete :
  let f := SwFaults fileval true false (fun _ => ([], true)) in
  let run ic := safe_write_random (fun _ => 7%N) (fun _ => None) ([], false) [102]%N [] []
       (copy_script [[2; 3]%N] true (fun _ => None)) [] [] ic f ex_state in
  fst (fst (run false)) = SErr /\ snd (fst (run false)) [102]%N = Some ([1]%N, true) /\
  snd (fst (run false)) (random_name (random_policy_dir [102]%N) ([102; 46]%N, tmp_ext) 7) = None /\
  fst (fst (run true)) = SOk.
Proof. cbv zeta. repeat split; vm_compute; reflexivity. Qed.
