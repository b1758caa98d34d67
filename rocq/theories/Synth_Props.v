(* C39, C40, C41: synthfs's roots, its tree under any history, and Rename. *)
From Verif Require Import Common ContentRange_Model PathLex_Model PathLex_Proofs Synth_Model Synth_Spec Synth_Proofs SynthTree_Proofs SynthPath_Proofs SynthEffect_Proofs.
Open Scope nat_scope.

(* A file system with a/b, a file a/b/f, a link l to a/b, a sub-root at a (root 1), and the
   directory a renamed to z while the sub-root is open. *)
Definition na : list byte := [97%N].
Definition nb : list byte := [98%N].
Definition nc : list byte := [99%N].
Definition nf : list byte := [102%N].
Definition nl : list byte := [108%N].
Definition nz : list byte := [122%N].
Definition up : list byte := [dot; dot].
Definition create (t : N) : oreq := {| o_create := true; o_excl := false; o_write := true; o_mode := 420; o_tag := t; o_opens := true; o_allocs := true |}.
Definition ex_before : list sop :=
  [OMkdirAll 0 (join_sep [na; nb]) 493; OOpen 0 (join_sep [na; nb; nf]) (create 7); OSymlink 0 (join_sep [na; nb]) nl 511; OOpenRoot 0 na].
Definition ex_ops : list sop := ex_before ++ [ORename 0 na nz].
Definition state_after (os : list sop) : sstate := match run false (new_state 493) os with Some st => st | None => new_state 493 end.
Definition heap_after (os : list sop) : heap := st_heap (state_after os).
Example ex_runs : run false (new_state 493) ex_ops = Some (state_after ex_ops).
Proof. vm_compute. reflexivity. Qed.
Example ex_sane : sane false (new_state 493) ex_ops.
Proof.
  apply (sane_prefix false ex_before _ (state_after ex_before)); [reflexivity|vm_compute; reflexivity|]. split; [|destruct (step _ _ _) as [[? ?]|]; exact I]. intros b E. vm_compute in E. assert (b = 0) as -> by congruence.
  apply (sane_to_top (heap_after ex_before) 0 na nz 0 na 1 0 nz); [apply (run_tree false 493 ex_before); vm_compute; reflexivity|repeat split; vm_compute; reflexivity| |reflexivity|discriminate].
  do 3 eexists. vm_compute. reflexivity.
Qed.

(* Every name resolved through a root denotes something inside that root's directory. *)
Theorem C39_inside_the_root busy mode os st i b name fo f : run busy (new_state mode) os = Some st -> nth_error (st_roots st) i = Some b ->
  resolve (st_heap st) b name fo = Ok f -> found_in (st_heap st) b f.
Proof. exact (resolve_run_inside busy mode os st i b name fo f). Qed.
Print Assumptions C39_inside_the_root.

(* So is the directory an operation works in. *)
Theorem C39_parent_inside_the_root busy mode os st i b name d base : run busy (new_state mode) os = Some st -> nth_error (st_roots st) i = Some b ->
  resolve_parent (st_heap st) b name = Ok (d, base) -> reach (st_heap st) b d /\ is_dir_at (st_heap st) d /\ proper base.
Proof. exact (resolve_parent_run busy mode os st i b name d base). Qed.
Print Assumptions C39_parent_inside_the_root.

(* And a root opened from a root. *)
Theorem C39_sub_root_inside busy mode os st i b name d : run busy (new_state mode) os = Some st -> nth_error (st_roots st) i = Some b ->
  open_root (st_heap st) b name = Ok d -> reach (st_heap st) b d /\ is_dir_at (st_heap st) d.
Proof. exact (open_root_inside busy mode os st i b name d). Qed.
Print Assumptions C39_sub_root_inside.

(* Resolution finds exactly what following the path would, within 40 links. *)
Theorem C39_is_path_resolution busy mode os st i b name fo f : run busy (new_state mode) os = Some st -> nth_error (st_roots st) i = Some b ->
  (resolve (st_heap st) b name fo = Ok f <-> exists comps k, normalize name = Ok comps /\ k <= max_hops /\ namei (st_heap st) b fo k b comps f).
Proof. exact (resolve_posix busy mode os st i b name fo f). Qed.
Print Assumptions C39_is_path_resolution.

(* Through the sub-root a (now z): b/f is the file; a link in it going up from b stays inside,
   and ../b does not leave it. Through the root, l dangles after the rename. *)
Example C39_ex : nth_error (st_roots (state_after ex_ops)) 1 = Some 1 /\
  resolve (heap_after ex_ops) 1 (join_sep [nb; nf]) true = Ok {| f_node := 3; f_at := Some (2, nf) |} /\
  resolve (heap_after ex_ops) 0 (join_sep [nz; nb; nf]) true = Ok {| f_node := 3; f_at := Some (2, nf) |} /\
  resolve (heap_after ex_ops) 1 (join_sep [up; nz]) true = Err EEscapes /\
  resolve (heap_after ex_ops) 0 nl true = Err ENotExist /\
  resolve (heap_after (ex_before ++ [OSymlink 0 (join_sep [up; up; na]) (join_sep [na; nb; nl]) 511])) 1 (join_sep [nb; nl]) true = Err EEscapes /\
  resolve (heap_after (ex_before ++ [OSymlink 0 (join_sep [up; up; na]) (join_sep [na; nb; nl]) 511])) 0 (join_sep [na; nb; nl; nb]) true = Ok {| f_node := 2; f_at := Some (1, nb) |}.
Proof. vm_compute. repeat split; reflexivity. Qed.

(* After any history: names once per directory, listed nodes there under the name they carry,
   a listed directory's parent the one listing it, nothing listed twice. *)
Theorem C40_stays_a_tree busy mode os st : run busy (new_state mode) os = Some st -> tree_inv (st_heap st).
Proof. exact (run_tree busy mode os st). Qed.
Print Assumptions C40_stays_a_tree.

Theorem C40_listing_is_lookup busy mode os st d nm : run busy (new_state mode) os = Some st ->
  NoDup (listing (st_heap st) d) /\ (In nm (listing (st_heap st) d) <-> lookup (st_heap st) d nm <> None).
Proof. exact (run_listing busy mode os st d nm). Qed.
Print Assumptions C40_listing_is_lookup.

Theorem C40_names_stay_proper busy mode os st : Forall source_op_ok os -> run busy (new_state mode) os = Some st -> good_names (st_heap st).
Proof. exact (run_proper busy mode os st). Qed.
Print Assumptions C40_names_stay_proper.

(* Without renames below themselves every call returns, and no directory contains itself. *)
Theorem C40_ends_and_no_cycles_partial busy mode os : sane busy (new_state mode) os -> exists st, run busy (new_state mode) os = Some st /\ acyclic (st_heap st).
Proof. exact (run_ends busy mode os). Qed.
Print Assumptions C40_ends_and_no_cycles_partial.

(* What each call does to the entry it names; a failing call changes nothing, except a create
   whose new view does not open. *)
Theorem C40_effects busy mode os st o st' r i name b : run busy (new_state mode) os = Some st -> step busy st o = Some (st', r) -> named_by o = Some (i, name) -> nth_error (st_roots st) i = Some b ->
  match r with
  | Err _ => st' = st \/ half_created o
  | Ok _ => match resolve_parent (st_heap st) b name with
            | Ok (d, base) => effect (st_heap st) b o (st_heap st') d base
            | Err _ => exists q, o = OOpen i name q /\ o_create q = false
            end
  end.
Proof. exact (run_effect busy mode os st o st' r i name b). Qed.
Print Assumptions C40_effects.

(* And nothing else: seen from any directory a not below the named entry, every path not going
   through it is as before. *)
Theorem C40_touches_only_what_it_names_partial busy mode os st o st' r i name b : sane busy (new_state mode) os -> run busy (new_state mode) os = Some st ->
  step busy st o = Some (st', r) -> named_by o = Some (i, name) -> nth_error (st_roots st) i = Some b ->
  forall a, is_dir_at (st_heap st) a ->
  match resolve_parent (st_heap st) b name with
  | Err _ => forall l, same_at (st_heap st) (st_heap st') a l
  | Ok (d, base) => (forall n, lookup (st_heap st) d base = Some n -> ~ reach (st_heap st) n a) ->
      forall l, (forall lp, at_path (st_heap st) a lp = Some d -> ~ prefix_of (lp ++ [base]) l) -> same_at (st_heap st) (st_heap st') a l
  end.
Proof. exact (run_touches_only busy mode os st o st' r i name b). Qed.
Print Assumptions C40_touches_only_what_it_names_partial.

(* MkdirAll keeps all there is, and makes the directory. *)
Theorem C40_mkdir_all busy mode os st b name m h' r i : run busy (new_state mode) os = Some st -> nth_error (st_roots st) i = Some b -> mkdir_all (st_heap st) b name m = (h', r) ->
  (forall a, is_dir_at (st_heap st) a -> keeps_all (st_heap st) h' a) /\ (r = Ok tt -> exists f, resolve h' b name true = Ok f /\ is_dir_at h' (f_node f)).
Proof. exact (run_mkdir_all busy mode os st b name m h' r i). Qed.
Print Assumptions C40_mkdir_all.

(* Chmod and its like touch the metadata of one node only. *)
Theorem C40_chmod h b name fo mode h' r : chmod h b name fo mode = (h', r) ->
  match r with
  | Err _ => h' = h
  | Ok _ => exists f, resolve h b name fo = Ok f /\ (forall d nm, lookup h' d nm = lookup h d nm) /\ (forall n, n <> f_node f -> seen h' n = seen h n) /\ seen h' (f_node f) = option_map (set_mode mode) (seen h (f_node f))
  end.
Proof. exact (chmod_effect h b name fo mode h' r). Qed.
Print Assumptions C40_chmod.

Example C40_ex : listing (heap_after ex_ops) 0 = [nl; nz] /\ listing (heap_after ex_ops) 1 = [nb] /\ at_path (heap_after ex_ops) 0 [nz; nb; nf] = Some 3 /\
  seen (heap_after ex_ops) 3 = Some (LookFile 420 0) /\ tag (heap_after ex_ops) 0 = 7%N /\
  at_path (heap_after (ex_ops ++ [ORemoveAll 1 nb])) 0 [nz] = Some 1 /\ listing (heap_after (ex_ops ++ [ORemoveAll 1 nb])) 1 = [] /\ closed (heap_after (ex_ops ++ [ORemoveAll 1 nb])) 0 = 1.
Proof. vm_compute. repeat split; reflexivity. Qed.

(* A directory can be made to contain itself. *)
Definition cyc_ops : list sop := [OMkdirAll 0 (join_sep [na; nb]) 493; OOpenRoot 0 na; ORename 0 na (join_sep [na; nb; nc])].
Lemma cyc_found : exists os st d nm e, run false (new_state 493) os = Some st /\ lookup (st_heap st) d nm = Some e /\ reach (st_heap st) e d.
Proof.
  exists cyc_ops, (state_after cyc_ops), 1, nb, 2. split; [vm_compute; reflexivity|]. split; [vm_compute; reflexivity|]. apply (reach_step _ _ 2 nc 1); [apply reach_self|vm_compute; reflexivity].
Qed.
Theorem C40_no_cycles_refuted : exists os st d nm e, run false (new_state 493) os = Some st /\ lookup (st_heap st) d nm = Some e /\ reach (st_heap st) e d.
Proof. exact cyc_found. Qed.
Print Assumptions C40_no_cycles_refuted.

(* A removal there, through a sub-root, recurses for ever. *)
Lemma cyc_hangs : forall fuel, remove_subtree fuel (heap_after cyc_ops) 2 = None.
Proof.
  intros fuel. assert (remove_subtree fuel (heap_after cyc_ops) 1 = None /\ remove_subtree fuel (heap_after cyc_ops) 2 = None) as [_ H]; [|exact H].
  induction fuel as [|fuel [IH1 IH2]]; [split; reflexivity|]. split; cbn [remove_subtree].
  - replace (nodes (heap_after cyc_ops) 1) with (Some (NDir {| m_name := nc; m_mode := 493; m_ref := 0 |} (Some 2) [(nb, 2)])) by (vm_compute; reflexivity). cbn [fold_left snd]. now rewrite IH2.
  - replace (nodes (heap_after cyc_ops) 2) with (Some (NDir {| m_name := nb; m_mode := 493; m_ref := 0 |} (Some 1) [(nc, 1)])) by (vm_compute; reflexivity). cbn [fold_left snd]. now rewrite IH1.
Qed.
Lemma cyc_remove_all fuel : remove_all fuel (heap_after cyc_ops) 1 nb = None.
Proof.
  unfold remove_all. replace (ends_with_dot nb) with false by reflexivity. replace (normalize nb) with (@Ok (list (list byte)) [nb]) by (vm_compute; reflexivity).
  replace (resolve_parent (heap_after cyc_ops) 1 nb) with (@Ok (nat * list byte) (1, nb)) by (vm_compute; reflexivity). replace (lookup (heap_after cyc_ops) 1 nb) with (Some 2) by (vm_compute; reflexivity). now rewrite cyc_hangs.
Qed.
Lemma cyc_never_ends : exists os st b name, run false (new_state 493) os = Some st /\ nth_error (st_roots st) 1 = Some b /\ forall fuel, remove_all fuel (st_heap st) b name = None.
Proof. exists cyc_ops, (state_after cyc_ops), 1, nb. split; [vm_compute; reflexivity|]. split; [vm_compute; reflexivity|]. exact cyc_remove_all. Qed.
Theorem C40_ends_refuted : exists os st b name, run false (new_state 493) os = Some st /\ nth_error (st_roots st) 1 = Some b /\ forall fuel, remove_all fuel (st_heap st) b name = None.
Proof. exact cyc_never_ends. Qed.
Print Assumptions C40_ends_refuted.

(* A create that fails leaves its entry behind when the new view does not open. *)
Definition half (t : N) : oreq := {| o_create := true; o_excl := true; o_write := true; o_mode := 420; o_tag := t; o_opens := false; o_allocs := true |}.
Theorem C40_failing_create_changes_nothing_refuted : exists st' e, step false (new_state 493) (OOpen 0 nf (half 7)) = Some (st', Err e) /\ lookup (st_heap st') 0 nf <> None.
Proof. eexists _, EOther. split; [vm_compute; reflexivity|vm_compute; discriminate]. Qed.
Print Assumptions C40_failing_create_changes_nothing_refuted.

(* Rename: a failure changes nothing. *)
Theorem C41_failure_changes_nothing h b old new h' e : tree_inv h -> rename h b old new = (h', Err e) -> h' = h.
Proof. exact (rename_fails h b old new h' e). Qed.
Print Assumptions C41_failure_changes_nothing.

(* A success moves one subtree, with everything in it, and touches nothing else; at most an
   empty directory or a leaf was replaced. Shown for names where the new place is not inside
   what is moved. *)
Theorem C41_moves_one_subtree_partial busy mode os st i old new b h' r : sane busy (new_state mode) os -> run busy (new_state mode) os = Some st -> nth_error (st_roots st) i = Some b ->
  rename (st_heap st) b old new = (h', r) -> ~ moves_below (st_heap st) b old new ->
  let h := st_heap st in
  match r with
  | Err _ => h' = h
  | Ok _ => exists od ob n nd nb, rename_ends h b old new od ob n nd nb /\ reach h b od /\ reach h b nd /\ (forall x, lookup h nd nb = Some x -> entries h x = []) /\ forall a, is_dir_at h a -> moved h h' a od ob n nd nb
  end.
Proof. exact (run_rename busy mode os st i old new b h' r). Qed.
Print Assumptions C41_moves_one_subtree_partial.

Example C41_ex : at_path (heap_after ex_before) 0 [na; nb; nf] = Some 3 /\ at_path (heap_after ex_ops) 0 [nz; nb; nf] = Some 3 /\ at_path (heap_after ex_ops) 0 [na] = None /\ snd (rename (heap_after ex_before) 0 na nz) = Ok tt /\
  snd (rename (heap_after ex_before) 0 nl na) = Err ENotEmpty.
Proof. vm_compute. repeat split; reflexivity. Qed.

(* It does not refuse to move a directory below itself: the call succeeds, and what was in the
   directory is listed nowhere under the root any more. *)
Definition lost_ops : list sop := [OMkdirAll 0 (join_sep [na; nb]) 493; OOpen 0 (join_sep [na; nf]) (create 7)].
Lemma lost_nothing l n : at_path (fst (rename (heap_after lost_ops) 0 na (join_sep [na; nb; nc]))) 0 l = Some n -> l = [] /\ n = 0.
Proof.
  destruct l as [|c l]; [intros E; cbn in E; split; [reflexivity|congruence]|]. cbn [at_path]. replace (lookup (fst (rename (heap_after lost_ops) 0 na (join_sep [na; nb; nc]))) 0 c) with (@None nat) by (vm_compute; reflexivity). discriminate.
Qed.
Lemma lost_found : exists h b old new h' l n, tree_inv h /\ acyclic h /\ rename h b old new = (h', Ok tt) /\ at_path h b l = Some n /\ seen h n = Some (LookFile 420 0) /\ forall l' n', at_path h' b l' = Some n' -> l' = [] /\ n' = b.
Proof.
  exists (heap_after lost_ops), 0, na, (join_sep [na; nb; nc]), (fst (rename (heap_after lost_ops) 0 na (join_sep [na; nb; nc]))), [na; nf], 3.
  split; [apply (run_tree false 493 lost_ops); vm_compute; reflexivity|]. split; [apply (run_acyclic false 493 lost_ops); [|vm_compute; reflexivity]|].
  - apply (sane_prefix false lost_ops (new_state 493) (state_after lost_ops) []); [reflexivity|vm_compute; reflexivity|exact I].
  - split; [vm_compute; reflexivity|]. split; [vm_compute; reflexivity|]. split; [vm_compute; reflexivity|]. exact lost_nothing.
Qed.
Theorem C41_refuses_below_itself_refuted : exists h b old new h' l n, tree_inv h /\ acyclic h /\ rename h b old new = (h', Ok tt) /\ at_path h b l = Some n /\ seen h n = Some (LookFile 420 0) /\ forall l' n', at_path h' b l' = Some n' -> l' = [] /\ n' = b.
Proof. exact lost_found. Qed.
Print Assumptions C41_refuses_below_itself_refuted.
