(* C53 and C56: SftpFs. *)
From Verif Require Import Common ContentRange_Model PathLex_Model PathLex_Proofs Sftp_Model Sftp_Spec Sftp_Proofs SftpRemove_Proofs SftpCalls_Proofs.
Open Scope nat_scope.

(* /b is the base; /b/d holds a file f, a link s to /e and a directory g with a file h; /e holds p. *)
Definition ex_base : list byte := [sep; 98%N].
Definition ex_fs : rfs :=
  [([nm 98], RDir 493); ([nm 98; nm 100], RDir 493); ([nm 98; nm 100; nm 102], RFile 384 [1%N]); ([nm 98; nm 100; nm 115], RLink [sep; 101%N]);
   ([nm 98; nm 100; nm 103], RDir 493); ([nm 98; nm 100; nm 103; nm 104], RFile 420 [2%N]); ([nm 101], RDir 493); ([nm 101; nm 112], RFile 420 [3%N])].
Definition serving : nat -> answer := fun _ => Serve.
(* Request 3, the removal of d/f, is refused. *)
Definition failing : nat -> answer := fun k => if Nat.eqb k 3 then Refuse (EFail 7) else Serve.
Definition fs_after (x : option (srv * rmres)) : rfs := match x with Some (st, _) => r_fs st | None => [] end.
Definition res_after (x : option (srv * rmres)) : option rmres := option_map snd x.

(* A name is sent as the base, or the base followed by ordinary names: those read off it going
   down and up; refused if it is absolute or goes above the base. Any absolute base. *)
Theorem C53_names_resolve_lexically base name : rooted base = true ->
  resolve_path base name = match relative name with None => None | Some [] => Some base | Some l => Some (below_text base l) end.
Proof. exact (resolve_exact base name). Qed.
Print Assumptions C53_names_resolve_lexically.

Theorem C53_resolved_names_are_inside base name abs : rooted base = true -> resolve_path base name = Some abs -> inside base abs.
Proof. exact (resolve_inside base name abs). Qed.
Print Assumptions C53_resolved_names_are_inside.

Example C53_names_ex : resolve_path ex_base [120; sep; dot; dot; sep; sep; 100; sep; dot; sep; 102]%N = Some [sep; 98; sep; 100; sep; 102]%N /\
  resolve_path ex_base [120; sep; dot; dot; sep; dot; dot; sep; 98]%N = None /\ resolve_path ex_base ex_base = None /\ resolve_path ex_base [] = Some ex_base.
Proof. vm_compute. auto. Qed.

(* Every path in every request of every call is the base or below it. *)
Theorem C53_requests_stay_inside base c ok q p : rooted base = true -> In q (requests base c ok) -> In p (req_paths q) -> inside base p.
Proof. exact (requests_inside base c ok q p). Qed.
Print Assumptions C53_requests_stay_inside.

Example C53_requests_ex : requests ex_base (SRename [100; sep; 102] [103] true)%N true = [QRename [sep; 98; sep; 100; sep; 102] [sep; 98; sep; 103] true]%N /\
  requests ex_base (SLink [dot; dot] [103])%N true = [] /\ length (requests ex_base (SOpenFile [102] true 420)%N true) = 2.
Proof. vm_compute. auto. Qed.

(* RemoveAll names only paths strictly below the base, whatever the server answers. *)
Theorem C53_removal_stays_inside ans hops fuel base name st st' x : rooted base = true -> names_ok (r_fs st) ->
  remove_all_of ans hops fuel base name st = Some (st', x) ->
  exists more, r_sent st' = r_sent st ++ more /\ Forall (strictly_inside base) more.
Proof. exact (call_sent ans hops fuel base name st st' x). Qed.
Print Assumptions C53_removal_stays_inside.

(* It removes nothing but what is at the place the name leads to or below it; symlinks in the
   subtree are not followed. Whatever the server refuses or reports. *)
Theorem C53_only_the_subtree_goes ans hops fuel base name st st' x : rooted base = true -> names_ok (r_fs st) ->
  remove_all_of ans hops fuel base name st = Some (st', x) ->
  match resolve_path base name with
  | Some abs => only_removed (place_of hops (r_fs st) abs) (r_fs st) (r_fs st')
  | None => st' = st
  end.
Proof. exact (call_only ans hops fuel base name st st' x). Qed.
Print Assumptions C53_only_the_subtree_goes.

Example C53_removal_ex : names_ok ex_fs /\ well_formed ex_fs /\
  fs_after (remove_all_of serving 40 6 ex_base [100%N] (ready ex_fs)) = [([nm 98], RDir 493); ([nm 101], RDir 493); ([nm 101; nm 112], RFile 420 [3%N])] /\
  res_after (remove_all_of serving 40 6 ex_base [100%N] (ready ex_fs)) = Some (RmDone None) /\
  leads_to 40 ex_fs [sep; 98; sep; 100]%N [nm 98; nm 100] /\
  res_after (remove_all_of failing 40 6 ex_base [100%N] (ready ex_fs)) = Some (RmDone (Some (EFail 7))) /\
  length (fs_after (remove_all_of failing 40 6 ex_base [100%N] (ready ex_fs))) = 5.
Proof.
  split; [apply names_ok_by; vm_compute; reflexivity|]. split; [apply parent_dirs_wf; vm_compute; reflexivity|].
  split; [vm_compute; reflexivity|]. split; [vm_compute; reflexivity|]. split; [split; vm_compute; reflexivity|]. split; vm_compute; reflexivity.
Qed.

(* The base itself, names ending in "." and names outside are refused without a request. *)
Theorem C53_base_is_refused ans hops fuel base name st : rooted base = true ->
  ends_with_dot name = true \/ relative name = None \/ relative name = Some [] -> remove_all_of ans hops fuel base name st = Some (st, RmRefused).
Proof. exact (call_refuses ans hops fuel base name st). Qed.
Print Assumptions C53_base_is_refused.

Example C53_refused_ex : ends_with_dot [100; sep; dot]%N = true /\ relative [100; sep; dot; dot; sep; dot; dot]%N = None /\ relative [100; sep; dot; dot]%N = Some [].
Proof. vm_compute. auto. Qed.

(* Success means that nothing of the subtree is left, if the server does not report things missing
   that are there, and the way to the name does not run through the subtree itself. *)
Theorem C53_success_means_gone_partial ans hops fuel base name abs st st' p : rooted base = true -> names_ok (r_fs st) -> well_formed (r_fs st) -> honest ans ->
  resolve_path base name = Some abs -> leads_to hops (r_fs st) abs p ->
  remove_all_of ans hops fuel base name st = Some (st', RmDone None) -> gone p (r_fs st').
Proof. exact (call_gone ans hops fuel base name abs st st' p). Qed.
Print Assumptions C53_success_means_gone_partial.

(* When the server serves every request it succeeds. *)
Theorem C53_removes_all_when_served_partial ans hops fuel base name abs st st' r p : rooted base = true -> names_ok (r_fs st) -> well_formed (r_fs st) -> (forall k, ans k = Serve) ->
  resolve_path base name = Some abs -> leads_to hops (r_fs st) abs p ->
  remove_all_of ans hops fuel base name st = Some (st', RmDone r) -> r = None /\ gone p (r_fs st').
Proof. exact (call_served ans hops fuel base name abs st st' r p). Qed.
Print Assumptions C53_removes_all_when_served_partial.

(* It ends: the recursion is no deeper than the server's tree. *)
Theorem C53_removal_ends ans hops fuel base name st : rooted base = true -> names_ok (r_fs st) -> height (r_fs st) + 1 < fuel ->
  exists x, remove_all_of ans hops fuel base name st = Some x.
Proof. exact (call_ends ans hops fuel base name st). Qed.
Print Assumptions C53_removal_ends.

(* FINDING: without that last condition RemoveAll can report success and leave the directory: its
   own symlink was on the way to it, and with that gone the rest is "missing". *)
Theorem C53_success_means_gone_refuted : exists fs base name abs st' p, names_ok fs /\ well_formed fs /\ rooted base = true /\
  resolve_path base name = Some abs /\ place_of 40 fs abs = WAt p /\
  remove_all_of (fun _ => Serve) 40 (height fs + 2) base name (ready fs) = Some (st', RmDone None) /\ rget (r_fs st') p <> None.
Proof. exact loop_survives. Qed.
Print Assumptions C53_success_means_gone_refuted.

(* FINDING: opening an existing file with O_CREATE gives it the permissions asked for the case it
   is created; Create(name) makes a private file 0666. *)
Theorem C56_create_replaces_permissions hops fs base name abs p m d perm dflt excl : resolve_path base name = Some abs -> target_of hops fs abs = WAt p -> p <> [] ->
  rget fs p = Some (RFile m d) -> perm <> 0%N -> excl = false ->
  exists fs', open_file hops fs base name true excl perm dflt = Some fs' /\ rget fs' p = Some (RFile perm d) /\ same_but p fs fs'.
Proof. exact (open_existing_mode hops fs base name abs p m d perm dflt excl). Qed.
Print Assumptions C56_create_replaces_permissions.

(* So does MkdirAll with a directory that is there. *)
Theorem C56_mkdir_all_replaces_permissions hops fs base name abs p m perm : resolve_path base name = Some abs -> target_of hops fs abs = WAt p -> p <> [] ->
  rget fs p = Some (RDir m) -> perm <> 0%N ->
  exists fs', mkdir_all_there hops fs base name perm = Some fs' /\ rget fs' p = Some (RDir perm) /\ same_but p fs fs'.
Proof. exact (mkdir_all_mode hops fs base name abs p m perm). Qed.
Print Assumptions C56_mkdir_all_replaces_permissions.

Lemma private_opened : exists hops fs base name abs p m d fs' m', resolve_path base name = Some abs /\ target_of hops fs abs = WAt p /\
  rget fs p = Some (RFile m d) /\ open_file hops fs base name true false 438 420 = Some fs' /\ rget fs' p = Some (RFile m' d) /\ m <> m'.
Proof.
  exists 40, ex_fs, ex_base, [100; sep; 102]%N. do 6 eexists. split; [vm_compute; reflexivity|]. split; [vm_compute; reflexivity|]. split; [vm_compute; reflexivity|].
  split; [vm_compute; reflexivity|]. split; [vm_compute; reflexivity|discriminate].
Qed.
Theorem C56_existing_permissions_stay_refuted : exists hops fs base name abs p m d fs' m', resolve_path base name = Some abs /\ target_of hops fs abs = WAt p /\
  rget fs p = Some (RFile m d) /\ open_file hops fs base name true false 438 420 = Some fs' /\ rget fs' p = Some (RFile m' d) /\ m <> m'.
Proof. exact private_opened. Qed.
Print Assumptions C56_existing_permissions_stay_refuted.

(* Without O_CREATE, or with permissions 0, an existing file is left as it is. *)
Theorem C56_existing_permissions_stay_partial hops fs base name abs p n create excl perm dflt : resolve_path base name = Some abs -> target_of hops fs abs = WAt p ->
  rget fs p = Some n -> perm = 0%N \/ create = false -> open_file hops fs base name create excl perm dflt = if create && excl then None else Some fs.
Proof. exact (open_existing_kept hops fs base name abs p n create excl perm dflt). Qed.
Print Assumptions C56_existing_permissions_stay_partial.

(* A file it creates gets the permissions asked for, and nothing else changes. *)
Theorem C56_new_file_permissions hops fs base name abs p perm dflt excl : resolve_path base name = Some abs -> target_of hops fs abs = WAt p -> p <> [] -> rget fs p = None -> perm <> 0%N ->
  exists fs', open_file hops fs base name true excl perm dflt = Some fs' /\ rget fs' p = Some (RFile perm []) /\ same_but p fs fs'.
Proof. exact (open_new_mode hops fs base name abs p perm dflt excl). Qed.
Print Assumptions C56_new_file_permissions.

Example C56_ex : target_of 40 ex_fs [sep; 98; sep; 100; sep; 102]%N = WAt [nm 98; nm 100; nm 102] /\ rget ex_fs [nm 98; nm 100; nm 102] = Some (RFile 384 [1%N]) /\
  option_map (fun fs => rget fs [nm 98; nm 100; nm 102]) (open_file 40 ex_fs ex_base [100; sep; 102]%N true false 438 420) = Some (Some (RFile 438 [1%N])) /\
  target_of 40 ex_fs [sep; 98; sep; 122]%N = WAt [nm 98; nm 122] /\ rget ex_fs [nm 98; nm 122] = None.
Proof. vm_compute. auto. Qed.
