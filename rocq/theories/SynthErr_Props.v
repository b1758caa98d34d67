(* C81: the errors of synthfs name what stands in the way. *)
From Verif Require Import Common ContentRange_Model PathLex_Model PathLex_Proofs OsFs_Spec Synth_Model Synth_Spec SynthErr_Spec SynthErr_Proofs.
Open Scope nat_scope.

(* What a name leads to, or why it leads nowhere: exactly one of the two. *)
Theorem C81_names : forall busy mode os st i b fo name n, run busy (new_state mode) os = Some st -> nth_error (st_roots st) i = Some b ->
  ((exists f, resolve (st_heap st) b name fo = Ok f /\ f_node f = n) <-> leads (st_heap st) b fo name n) /\
  (forall e, resolve (st_heap st) b name fo = Err e <-> lost (st_heap st) b fo name e).
Proof. exact run_names. Qed.
Print Assumptions C81_names.

(* The entry a name speaks of, or why there is no such place. *)
Theorem C81_places : forall busy mode os st i b name d base, run busy (new_state mode) os = Some st -> nth_error (st_roots st) i = Some b ->
  (resolve_parent (st_heap st) b name = Ok (d, base) <-> place (st_heap st) b name d base) /\
  (forall e, resolve_parent (st_heap st) b name = Err e <-> no_place (st_heap st) b name e).
Proof. exact run_places. Qed.
Print Assumptions C81_places.

(* Each call fails exactly for these reasons, so it succeeds exactly when none of them holds. *)
Theorem C81_mkdir : forall busy mode os st i b name perm e, run busy (new_state mode) os = Some st -> nth_error (st_roots st) i = Some b ->
  (snd (mkdir (st_heap st) b name perm) = Err e <-> make_fault (st_heap st) b name e).
Proof. exact (fun busy mode os st i b name perm e E Eb => let (H, Hb) := run_at busy mode os st i b E Eb in mkdir_err _ b H Hb name perm e). Qed.
Print Assumptions C81_mkdir.

Theorem C81_symlink : forall busy mode os st i b target name perm e, run busy (new_state mode) os = Some st -> nth_error (st_roots st) i = Some b ->
  (snd (symlink (st_heap st) b target name perm) = Err e <-> make_fault (st_heap st) b name e).
Proof. exact (fun busy mode os st i b target name perm e E Eb => let (H, Hb) := run_at busy mode os st i b E Eb in symlink_err _ b H Hb target name perm e). Qed.
Print Assumptions C81_symlink.

Theorem C81_link : forall busy mode os st i b old new e, run busy (new_state mode) os = Some st -> nth_error (st_roots st) i = Some b ->
  (snd (link (st_heap st) b old new) = Err e <-> link_fault (st_heap st) b old new e).
Proof. exact (fun busy mode os st i b old new e E Eb => let (H, Hb) := run_at busy mode os st i b E Eb in link_err _ b H Hb old new e). Qed.
Print Assumptions C81_link.

Theorem C81_mkdir_all : forall busy mode os st i b name perm e, run busy (new_state mode) os = Some st -> nth_error (st_roots st) i = Some b ->
  (snd (mkdir_all (st_heap st) b name perm) = Err e <-> mkdir_all_fault (st_heap st) b name e).
Proof. exact (fun busy mode os st i b name perm e E Eb => let (H, Hb) := run_at busy mode os st i b E Eb in mkdir_all_err _ b H Hb name perm e). Qed.
Print Assumptions C81_mkdir_all.

Theorem C81_remove : forall busy mode os st i b name e, run busy (new_state mode) os = Some st -> nth_error (st_roots st) i = Some b ->
  (snd (remove busy (st_heap st) b name) = Err e <-> remove_fault busy (st_heap st) b name e).
Proof. exact (fun busy mode os st i b name e E Eb => let (H, Hb) := run_at busy mode os st i b E Eb in remove_err _ b H Hb busy name e). Qed.
Print Assumptions C81_remove.

Theorem C81_remove_all : forall busy mode os st i b fuel name e, run busy (new_state mode) os = Some st -> nth_error (st_roots st) i = Some b ->
  ((exists h', remove_all fuel (st_heap st) b name = Some (h', Err e)) <-> remove_all_fault (st_heap st) b name e).
Proof. exact (fun busy mode os st i b fuel name e E Eb => let (H, Hb) := run_at busy mode os st i b E Eb in remove_all_err _ b H Hb fuel name e). Qed.
Print Assumptions C81_remove_all.

Theorem C81_rename : forall busy mode os st i b old new e, run busy (new_state mode) os = Some st -> nth_error (st_roots st) i = Some b ->
  (snd (rename (st_heap st) b old new) = Err e <-> rename_fault (st_heap st) b old new e).
Proof. exact (fun busy mode os st i b old new e E Eb => let (H, Hb) := run_at busy mode os st i b E Eb in rename_err _ b H Hb old new e). Qed.
Print Assumptions C81_rename.

Theorem C81_open : forall busy mode os st i b name q e, run busy (new_state mode) os = Some st -> nth_error (st_roots st) i = Some b ->
  (snd (open_file (st_heap st) b name q) = Err e <-> if o_create q then create_fault (st_heap st) b name q e else open_fault (st_heap st) b name q e).
Proof. exact (fun busy mode os st i b name q e E Eb => let (H, Hb) := run_at busy mode os st i b E Eb in open_err _ b H Hb name q e). Qed.
Print Assumptions C81_open.

Theorem C81_chmod : forall busy mode os st i b follow name perm e, run busy (new_state mode) os = Some st -> nth_error (st_roots st) i = Some b ->
  (snd (chmod (st_heap st) b name follow perm) = Err e <-> lost (st_heap st) b follow name e).
Proof. exact (fun busy mode os st i b follow name perm e E Eb => let (H, Hb) := run_at busy mode os st i b E Eb in chmod_err _ b H Hb follow name perm e). Qed.
Print Assumptions C81_chmod.

Theorem C81_open_root : forall busy mode os st i b name e, run busy (new_state mode) os = Some st -> nth_error (st_roots st) i = Some b ->
  (open_root (st_heap st) b name = Err e <-> sub_root_fault (st_heap st) b name e).
Proof. exact (fun busy mode os st i b name e E Eb => let (H, Hb) := run_at busy mode os st i b E Eb in open_root_err _ b H Hb name e). Qed.
Print Assumptions C81_open_root.

(* AddFile of a view whose Stat works, with an AddFunc that always decides. *)
Theorem C81_add_file : forall busy mode os st i b name t perm scaffold cb e, run busy (new_state mode) os = Some st -> nth_error (st_roots st) i = Some b ->
  (forall p inc ex, cb p inc ex <> None) ->
  (snd (add_file (st_heap st) b name t perm scaffold true cb) = Err e <-> parents_fault (st_heap st) b name e).
Proof. exact (fun busy mode os st i b name t perm sc cb e E Eb => let (H, Hb) := run_at busy mode os st i b E Eb in add_file_err _ b H Hb name t perm sc cb e). Qed.
Print Assumptions C81_add_file.

(* AddFS: other errors than those of its source and its AddFunc. *)
Theorem C81_add_fs : forall busy mode os st i b name s scaffold cb e, run busy (new_state mode) os = Some st -> nth_error (st_roots st) i = Some b -> e <> EOther ->
  ((exists h', add_fs (st_heap st) b name s scaffold cb = Some (h', Err e)) <-> ~ means name [] /\ parents_fault (st_heap st) b name e).
Proof. exact (fun busy mode os st i b name s sc cb e E Eb => let (H, Hb) := run_at busy mode os st i b E Eb in add_fs_err _ b H Hb name s sc cb e). Qed.
Print Assumptions C81_add_fs.

(* a/b is a directory and a/f a file; o is a link to itself, x a link to nothing, t a link to /a
   and u a link to ../a. *)
Definition n_ (c : N) : list byte := [c].
Definition creating : oreq := {| o_create := true; o_excl := false; o_write := true; o_mode := 420; o_tag := 7; o_opens := true; o_allocs := true |}.
Definition reading : oreq := {| o_create := false; o_excl := false; o_write := false; o_mode := 0; o_tag := 0; o_opens := true; o_allocs := true |}.
Definition ex_tree : list sop :=
  [OMkdirAll 0 (join_sep [n_ 97; n_ 98]) 493; OOpen 0 (join_sep [n_ 97; n_ 102]) creating; OSymlink 0 (n_ 111) (n_ 111) 511; OSymlink 0 (n_ 110) (n_ 120) 511;
   OSymlink 0 (sep :: n_ 97) (n_ 116) 511; OSymlink 0 (join_sep [[dot; dot]; n_ 97]) (n_ 117) 511].
Definition st_of (os : list sop) : sstate := match run false (new_state 493) os with Some st => st | None => new_state 493 end.
Definition ex_heap : heap := st_heap (st_of ex_tree).
Example ex_tree_runs : run false (new_state 493) ex_tree = Some (st_of ex_tree) /\ nth_error (st_roots (st_of ex_tree)) 0 = Some 0.
Proof. split; vm_compute; reflexivity. Qed.
Definition err_of {A} (r : sres A) : option serr := match r with Err e => Some e | Ok _ => None end.
Definition tail_of (l : list (list byte)) : list byte := join_sep l.
Example C81_ex :
  map (fun n => err_of (resolve ex_heap 0 n true))
    [tail_of [n_ 97; n_ 98]; n_ 120; n_ 111; n_ 116; n_ 117; tail_of [n_ 97; n_ 102; n_ 98]; [dot; dot]; tail_of [n_ 97; n_ 122]]
  = [None; Some ENotExist; Some ELoop; Some EEscapes; Some EEscapes; Some ENotDir; Some EEscapes; Some ENotExist] /\
  map (fun n => err_of (snd (mkdir ex_heap 0 n 493))) [n_ 97; [dot]; tail_of [n_ 97; n_ 102; n_ 98]; n_ 111; tail_of [n_ 111; n_ 98]; tail_of [n_ 97; n_ 99]]
  = [Some EExist; Some EInval; Some ENotDir; Some EExist; Some ELoop; None] /\
  map (fun n => err_of (snd (remove false ex_heap 0 n))) [n_ 97; tail_of [n_ 97; n_ 98]; tail_of [n_ 97; n_ 99]; [dot]] = [Some ENotEmpty; None; Some ENotExist; Some EInval] /\
  map (fun n => err_of (snd (mkdir_all ex_heap 0 n 493))) [tail_of [n_ 97; n_ 98; n_ 99]; tail_of [n_ 97; n_ 102; n_ 99]; tail_of [n_ 120; n_ 99]; tail_of [n_ 111; n_ 99]; tail_of [n_ 97; n_ 99; n_ 100]]
  = [None; Some ENotEmpty; Some ENotExist; Some ELoop; None] /\
  map (fun p => err_of (snd (rename ex_heap 0 (fst p) (snd p)))) [(tail_of [n_ 97; n_ 102], n_ 97); (n_ 99, n_ 100); (tail_of [n_ 97; n_ 102], tail_of [n_ 120; n_ 99]); (n_ 120, n_ 121)]
  = [Some ENotEmpty; Some ENotExist; Some ENotExist; None] /\
  map (fun n => err_of (snd (add_file ex_heap 0 n 7 420 493 true merge_overwrite))) [tail_of [n_ 97; n_ 102; n_ 99]; tail_of [n_ 120; n_ 99; n_ 100]; tail_of [n_ 111; n_ 99]; [dot]] = [Some ENotDir; None; Some ELoop; Some EInval].
Proof. vm_compute. repeat split. Qed.

(* The errors are not always those of the calls they stand for. MkdirAll over a file says
   "directory not empty"; package os says "not a directory". *)
Theorem C81_mkdir_all_over_file_refuted : exists os st name n, run false (new_state 493) os = Some st /\ leads (st_heap st) 0 true name n /\ is_file_at (st_heap st) n /\
  snd (mkdir_all (st_heap st) 0 name 493) = Err ENotEmpty.
Proof.
  exists ex_tree, (st_of ex_tree), (tail_of [n_ 97; n_ 102]), 3. split; [apply ex_tree_runs|]. destruct ex_tree_runs as [E Eb].
  split; [apply (proj1 (run_names _ _ _ _ _ _ true _ 3 E Eb)); eexists; split; vm_compute; reflexivity|]. split; [eexists _, _; vm_compute; reflexivity|vm_compute; reflexivity].
Qed.
Print Assumptions C81_mkdir_all_over_file_refuted.

(* OpenFile with O_CREATE on a link to a name that does not exist says so, where open(2) makes the
   file the link names. *)
Theorem C81_create_through_link_refuted : exists os st name target, run false (new_state 493) os = Some st /\ snd (open_file (st_heap st) 0 name creating) = Err ENotExist /\
  (exists n m, lookup (st_heap st) 0 name = Some n /\ nodes (st_heap st) n = Some (NLink m target)) /\
  exists n, snd (open_file (st_heap st) 0 target creating) = Ok n.
Proof.
  exists ex_tree, (st_of ex_tree), (n_ 120), (n_ 110). split; [apply ex_tree_runs|]. split; [vm_compute; reflexivity|]. split; [eexists _, _; split; vm_compute; reflexivity|]. eexists. vm_compute. reflexivity.
Qed.
Print Assumptions C81_create_through_link_refuted.

(* Rename puts a file in the place of an empty directory and a directory in the place of a file,
   where rename(2) says EISDIR and ENOTDIR. *)
Theorem C81_rename_mixes_kinds_refuted : exists os st dir file x y, run false (new_state 493) os = Some st /\
  leads (st_heap st) 0 true dir x /\ is_dir_at (st_heap st) x /\ leads (st_heap st) 0 true file y /\ is_file_at (st_heap st) y /\
  snd (rename (st_heap st) 0 file dir) = Ok tt /\ snd (rename (st_heap st) 0 dir file) = Ok tt.
Proof.
  exists ex_tree, (st_of ex_tree), (tail_of [n_ 97; n_ 98]), (tail_of [n_ 97; n_ 102]), 2, 3. split; [apply ex_tree_runs|]. destruct ex_tree_runs as [E Eb].
  split; [apply (proj1 (run_names _ _ _ _ _ _ true _ 2 E Eb)); eexists; split; vm_compute; reflexivity|]. split; [eexists _, _, _; vm_compute; reflexivity|].
  split; [apply (proj1 (run_names _ _ _ _ _ _ true _ 3 E Eb)); eexists; split; vm_compute; reflexivity|]. split; [eexists _, _; vm_compute; reflexivity|]. split; vm_compute; reflexivity.
Qed.
Print Assumptions C81_rename_mixes_kinds_refuted.
