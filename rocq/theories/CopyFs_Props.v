(* C28: tree copies reproduce the source tree and touch nothing else. *)
From Verif Require Import Common ContentRange_Model PathLex_Model PathLex_Proofs TempName_Model HeadTail_Model
  CopyFs_Model CopyFs_Spec CopyFs_Proofs.
Open Scope nat_scope.

(* Whatever fails, CopyAll changes only the destination paths of source entries. *)
Theorem C28_copy_all_frame : forall e root n w r w', wf_tree n -> copy_all e root n w = (r, w') ->
  forall q, (forall p m, node_at n p = Some m -> q <> dst_path root p) -> w' q = w q.
Proof. exact copy_all_frame. Qed.
Print Assumptions C28_copy_all_frame.

(* On success every source entry is at its path: directories with the masked mode, files
   with the source's bytes, links with their target when both sides support them. Where
   the source has a directory the destination must not have had anything else, and no
   ReadDir error may have been ignored. *)
Theorem C28_copy_all_reproduces_tree_partial : forall e root n w w',
  wf_tree n -> never_ignored e -> dirs_free root n w -> copy_all e root n w = (COk, w') ->
  forall p m, node_at n p = Some m -> copied e (w (dst_path root p)) m (w' (dst_path root p)).
Proof. exact copy_all_ok. Qed.
Print Assumptions C28_copy_all_reproduces_tree_partial.

(* With a local root every path written is local. *)
Theorem C28_paths_stay_inside : forall root c q, is_local root = true -> Forall proper c ->
  at_or_above root c q \/ q = dst_path root c -> is_local q = true.
Proof. exact dst_local. Qed.
Print Assumptions C28_paths_stay_inside.

(* Whatever fails, CopyPath changes only the listed paths and directories above them. *)
Theorem C28_copy_path_frame : forall e src root paths w r w', is_local root = true -> copy_path e src root paths w = (r, w') ->
  forall q, (forall path c, In path paths -> clean path = walk_path c -> Forall proper c ->
     ~ at_or_above root c q /\ q <> dst_path root c) -> w' q = w q.
Proof. exact copy_path_frame. Qed.
Print Assumptions C28_copy_path_frame.

(* On success every listed path exists in the source and has been copied. *)
Theorem C28_copy_path_copies_listed_partial : forall e src root paths w w', is_local root = true ->
  copy_path e src root paths w = (COk, w') ->
  (forall path c m ch, In path paths -> clean path = walk_path c -> Forall proper c -> node_at src c = Some (SDir m ch) ->
     w (dst_path root c) = None \/ exists m0, w (dst_path root c) = Some (DDir m0)) ->
  forall path, In path paths ->
  exists c n, Forall proper c /\ clean path = walk_path c /\ node_at src c = Some n /\ holds e n (w' (dst_path root c)).
Proof. exact copy_path_ok. Qed.
Print Assumptions C28_copy_path_copies_listed_partial.

(* A root of two or more elements never works: CopyPath asks the source for the mode of a
   directory above the root and gets an invalid path (copy_fs.go:146-153). *)
Theorem C28_copy_path_nested_root_refuted : forall e src root paths w, is_local root = true ->
  2 <= length (root_elems root) -> paths <> [] -> fst (copy_path e src root paths w) = CErr.
Proof. exact copy_path_nested_root. Qed.
Print Assumptions C28_copy_path_nested_root_refuted.

Definition ok_env : cenv := CEnv (fun _ _ => false) (fun _ => None) (fun _ => None) (fun m => m) true.
Definition ch_a : list byte := [97%N].
Definition ch_d : list byte := [100%N].
Definition ch_f : list byte := [102%N].

(* Success although the destination has a file where the source has a directory: Mkdir's
   ErrExist is accepted and Chmod works on a file. *)
Theorem C28_directory_over_file_refuted : exists e n w w', never_ignored e /\ wf_tree n /\
  copy_all e [dot] n w = (COk, w') /\
  exists p m, node_at n p = Some (SDir m []) /\ exists b m', w' (dst_path [dot] p) = Some (DFile b m').
Proof.
  exists ok_env, (SDir 493 [(ch_d, SDir 493 [])]).
  exists (fun q => if bytes_eqb q [dot] then Some (DDir 493) else if bytes_eqb q ch_d then Some (DFile [1%N] 420) else None).
  eexists. split; [intros d k; discriminate|]. split.
  { cbn. repeat split; try (apply letter_proper; vm_compute; discriminate); repeat constructor; cbn; intuition discriminate. }
  split; [reflexivity|]. exists [ch_d], 493%N. split; [reflexivity|]. vm_compute. eauto.
Qed.
Print Assumptions C28_directory_over_file_refuted.

(* The root .. is not refused: the copy is written above the destination. *)
Theorem C28_dotdot_root_refuted : exists e n w w' q, wf_tree n /\ copy_path e n [dot; dot] [ch_f] w = (COk, w') /\
  is_local q = false /\ w q = None /\ w' q = Some (DFile [7%N] 420).
Proof.
  exists ok_env, (SDir 493 [(ch_f, SFile 420 [7%N])]).
  exists (fun q => if bytes_eqb q [dot] || bytes_eqb q [dot; dot] then Some (DDir 493) else None).
  eexists. exists ([dot; dot] ++ [sep] ++ ch_f). split.
  { cbn. repeat split; try (apply letter_proper; vm_compute; discriminate); repeat constructor; cbn; intuition discriminate. }
  split; [vm_compute; reflexivity|]. split; [reflexivity|]. split; [reflexivity|]. vm_compute. reflexivity.
Qed.
Print Assumptions C28_dotdot_root_refuted.

(* A nested tree copied below root r by CopyAll, and one of its files by CopyPath. *)
Definition ex_tree : snode := SDir 493 [(ch_a, SDir 448 [(ch_f, SFile 420 [1; 2; 3]%N); (ch_d, SLink 511 ch_f)]); (ch_f, SFile 384 [9%N])].
Definition ex_world : world := fun q => if bytes_eqb q [dot] || bytes_eqb q [114%N] then Some (DDir 493) else None.
Definition run_ok (r : cres) : bool := match r with COk => true | CErr => false end.

Example C28_hypotheses_met : wf_tree ex_tree /\ never_ignored ok_env /\ dirs_free [114%N] ex_tree ex_world /\
  run_ok (fst (copy_all ok_env [114%N] ex_tree ex_world)) = true /\
  snd (copy_all ok_env [114%N] ex_tree ex_world) [114; 47; 97; 47; 102]%N = Some (DFile [1; 2; 3]%N 420) /\
  snd (copy_all ok_env [114%N] ex_tree ex_world) [114; 47; 97; 47; 100]%N = Some (DLink ch_f) /\
  run_ok (fst (copy_path ok_env ex_tree [114%N] [[97; 47; 102]%N] ex_world)) = true /\
  snd (copy_path ok_env ex_tree [114%N] [[97; 47; 102]%N] ex_world) [114; 47; 97; 47; 102]%N = Some (DFile [1; 2; 3]%N 420) /\
  snd (copy_path ok_env ex_tree [114%N] [[97; 47; 102]%N] ex_world) [114; 47; 97]%N = Some (DDir 448) /\
  snd (copy_path ok_env ex_tree [114%N] [[97; 47; 102]%N] ex_world) [114; 47; 102]%N = None.
Proof.
  split.
  { cbn. repeat split; try (apply letter_proper; vm_compute; discriminate); repeat constructor; cbn; intuition discriminate. }
  split; [intros d k; discriminate|]. split.
  { intros p m ch Hn. unfold ex_world. destruct (bytes_eqb (dst_path [114%N] p) [dot] || bytes_eqb (dst_path [114%N] p) [114%N]); [right; eauto|left; reflexivity]. }
  vm_compute. repeat split.
Qed.
