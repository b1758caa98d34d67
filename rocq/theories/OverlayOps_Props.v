(* C45-C50: overlay removals, creations, copy-up, rename, and what a crash leaves. *)
From Verif Require Import Common ContentRange_Model Overlay_Model Overlay_Spec Overlay_Proofs OverlayOps_Proofs OverlayGrow_Proofs OverlayNew_Proofs OverlayRename_Proofs OverlayCalls_Proofs OverlayWorks_Proofs Overlay_Props.
Open Scope nat_scope.

(* --- C45: removal --- *)
(* A successful Remove or RemoveAll takes the name and everything below it out of the merged
   tree and leaves every other name as it was, with its layer and node. *)
Theorem C45_remove_takes_exactly_the_subtree be p s : wf s -> err_opt (remove be p s) = None -> gone p s (end_of (remove be p s)).
Proof. exact (remove_gone be p s). Qed.
Print Assumptions C45_remove_takes_exactly_the_subtree.

Theorem C45_remove_all_takes_exactly_the_subtree be p s : wf s -> err_opt (remove_all be p s) = None -> gone p s (end_of (remove_all be p s)).
Proof. exact (remove_all_gone be p s). Qed.
Print Assumptions C45_remove_all_takes_exactly_the_subtree.

(* A failed or interrupted one leaves names outside alone, and inside shows nothing new. *)
Theorem C45_interrupted_removal be p s : wf s ->
  (Forall (going p s) (states s (remove be p s)) /\ going p s (end_of (remove be p s))) /\
  (Forall (going p s) (states s (remove_all be p s)) /\ going p s (end_of (remove_all be p s))).
Proof. exact (fun W => conj (remove_states be p s W) (remove_all_states be p s W)). Qed.
Print Assumptions C45_interrupted_removal.

(* A directory with a visible child is refused before anything is done. *)
Theorem C45_full_directory_refused be p s c e : wf s -> unlinked s p -> view s 0 (c :: p) = Some e -> exists err, remove be p s = fail s err.
Proof. exact (remove_full be p s c e). Qed.
Print Assumptions C45_full_directory_refused.

(* Removing what is there succeeds when the layers answer. *)
Theorem C45_remove_succeeds be p s : wf s -> p <> [] -> unlinked s p -> plain_at s (tl p) -> ~ linked s 1 p -> answers be s p ->
  view s 0 p <> None ->
  err_opt (remove_all be p s) = None /\ ((forall c, view s 0 (c :: p) = None) -> err_opt (remove be p s) = None).
Proof.
  exact (fun W Hp U Ut L A V => conj (remove_all_succeeds be p s W Hp U Ut L A V) (fun C => remove_succeeds be p s W Hp U Ut L A V C)).
Qed.
Print Assumptions C45_remove_succeeds.

(* d/d comes from the lowest layer, d/f from the middle one with an opaque mark. *)
Example C45_hypotheses_met : wf ex_stack /\ unlinked ex_stack [nd; nd] /\ ~ linked ex_stack 1 [nd; nd] /\ answers quiet ex_stack [nd; nd] /\
  err_opt (remove quiet [nd; nd] ex_stack) = None /\ read_dir quiet (end_of (remove quiet [nd; nd] ex_stack)) [nd] = DNames [(ne, 0); (nf, 1)] /\
  remove quiet [nf; nd] ex_stack = fail ex_stack ENotEmpty /\
  read_dir quiet (end_of (remove_all quiet [nd] ex_stack)) [] = DNames [] /\ length (states ex_stack (remove_all quiet [nd] ex_stack)) = 3.
Proof.
  split; [apply wf_check; reflexivity|]. split; [apply unlinked_check; reflexivity|]. split.
  - intros [i [a [g [Hi [Ha Hg]]]]]. apply strictly_cons in Ha. destruct Ha as [z Hz].
    assert (a = [nd] \/ a = []) as [-> | ->].
    { destruct z as [|x z]; [left; symmetry; exact Hz|]. inversion Hz. destruct z as [|y z]; [destruct a; [auto|discriminate]|discriminate]. }
    all: destruct i as [|[|[|i]]]; try discriminate; unfold at_ in Hg; destruct i; discriminate.
  - repeat split.
Qed.

(* --- C46: creation --- *)
(* A new directory is empty, whatever the lowers hold below that name, and nothing else
   changes but for directories above it copied into the top. *)
Theorem C46_new_directory_is_empty be p m s : inv s -> plain_at s p -> plain_at s (tl p) -> err_opt (mkdir be p m s) = None ->
  view s 0 p = None /\ made (above_of p) p (ODir m) s (end_of (mkdir be p m s)) /\ forall q, strictly_under p q -> view (end_of (mkdir be p m s)) 0 q = None.
Proof. exact (fun I U1 U2 => proj2 (mkdir_tree be p m s I U1 U2)). Qed.
Print Assumptions C46_new_directory_is_empty.

Theorem C46_mkdir_all be p m s : inv s -> clear_way s p ->
  (forall s', reaches s (mkdir_all be p m s) s' -> inv s' /\
     forall q, same_or_copied s s' q \/ (view s 0 q = None /\ q <> [] /\ under q p /\ view s' 0 q = Some (0, ODir m))) /\
  (err_opt (mkdir_all be p m s) = None -> visible_dir (end_of (mkdir_all be p m s)) p).
Proof. exact (mkdir_all_tree be p m s). Qed.
Print Assumptions C46_mkdir_all.

(* New files, symlinks and hard links. *)
Theorem C46_new_file be p creating excl trunc m s : inv s -> plain_at s p -> plain_at s (tl p) -> view s 0 p = None ->
  err_opt (open_write be p creating excl trunc m s) = None ->
  creating = true /\ made (above_of p) p (OFile m 0) s (end_of (open_write be p creating excl trunc m s)).
Proof. exact (fun I U1 U2 V => proj2 (create_tree be p creating excl trunc m s I U1 U2 V)). Qed.
Print Assumptions C46_new_file.

Theorem C46_new_symlink be t p s : inv s -> plain_at s p -> plain_at s (tl p) -> err_opt (symlink be t p s) = None ->
  view s 0 p = None /\ made (above_of p) p (OLink t) s (end_of (symlink be t p s)).
Proof. exact (fun I U1 U2 => proj2 (symlink_tree be t p s I U1 U2)). Qed.
Print Assumptions C46_new_symlink.

Theorem C46_new_link be o n s : inv s -> plain_at s o -> plain_at s n -> plain_at s (tl n) -> ~ under o n -> err_opt (hardlink be o n s) = None ->
  view s 0 n = None /\ exists x, as_copied (view s 0 o) (Some (0, x)) /\ is_dir x = false /\
     made (fun a => under a o \/ above_of n a) n x s (end_of (hardlink be o n s)).
Proof. exact (fun I U1 U2 U3 H => proj2 (hardlink_tree be o n s I U1 U2 U3 H)). Qed.
Print Assumptions C46_new_link.

(* They succeed in a visible directory when the layers answer. *)
Theorem C46_creation_succeeds be c q m excl trunc s : inv s -> unlinked s (c :: q) -> unlinked s q -> answers be s (c :: q) -> visible_dir s q ->
  view s 0 (c :: q) = None ->
  err_opt (mkdir be (c :: q) m s) = None /\ err_opt (open_write be (c :: q) true excl trunc m s) = None.
Proof.
  exact (fun I U1 U2 A D V => conj (mkdir_succeeds be c q m s I U1 U2 A D V) (create_succeeds be c q excl trunc m s I U1 U2 A D V)).
Qed.
Print Assumptions C46_creation_succeeds.

(* d/a is whited out by the top over a lower directory with a child. *)
Definition over_stack : stack :=
  [{| l_tree := [([nd], ODir 493)]; l_wh := [[na; nd]]; l_op := [] |}; plain [([nd], ODir 493); ([na; nd], ODir 493); ([nf; na; nd], OFile 420 3)]].
Example C46_hypotheses_met : inv over_stack /\ unlinked over_stack [na; nd] /\ unlinked over_stack [nd] /\ answers quiet over_stack [na; nd] /\ visible_dir over_stack [nd] /\
  view over_stack 0 [na; nd] = None /\ view (tl over_stack) 0 [nf; na; nd] = Some (0, OFile 420 3) /\
  read_dir quiet (end_of (mkdir quiet [na; nd] 448 over_stack)) [na; nd] = DNames [] /\ length (states_of (mkdir quiet [na; nd] 448 over_stack)) = 3.
Proof.
  split; [apply inv_check; reflexivity|]. split; [apply unlinked_check; reflexivity|]. split; [apply unlinked_check; reflexivity|].
  split; [intros i a _ _; reflexivity|]. split; [exists 493%N; reflexivity|]. repeat split.
Qed.

(* --- C47: copy-up --- *)
(* Through every step of a copy-up the tree has the same names, with the same kinds and
   contents; only names on the way to p are now the top's. *)
Theorem C47_copy_up_keeps_the_tree be p s : inv s -> plain_at s p -> forall s', reaches s (copy_up be p s) s' -> copied_on (fun a => under a p) s s'.
Proof.
  exact (fun I U => keeps_reaches (copied_on (fun a => under a p) s) s (copy_up be p s) (copied_refl _ s)
    (keeps_weaken _ _ _ (fun s' G => grown_copied _ (fun a => under a p) s s' (proj1 I) G (copy_way_of p)) (proj1 (copy_up_grows be p s (proj1 I) (proj2 I) U)))).
Qed.
Print Assumptions C47_copy_up_keeps_the_tree.

(* It shows exactly the same nodes, permissions included, when the layers agree on the
   permissions of the directories above p and p has no bits beyond them. *)
Theorem C47_copy_up_invisible_partial be p s j n : inv s -> plain_at s p -> answers be s p -> view s 0 p = Some (j, n) -> copied n = n ->
  (forall a, strictly_under a p -> one_mode s a) -> forall s', reaches s (copy_up be p s) s' -> forall q, visible s' q = visible s q.
Proof. exact (copy_up_invisible be p s j n). Qed.
Print Assumptions C47_copy_up_invisible_partial.

Theorem C47_copy_up_succeeds be p s : inv s -> plain_at s p -> answers be s p -> view s 0 p <> None -> (forall j m, view s 0 p <> Some (j, OSpecial m)) ->
  err_opt (copy_up be p s) = None.
Proof. exact (copy_up_ok be p s). Qed.
Print Assumptions C47_copy_up_succeeds.

(* Opening for writing keeps the content unless it truncates; Chmod changes the one mode;
   a write changes the one file. *)
Theorem C47_open_keeps_content be p creating excl trunc m s : inv s -> plain_at s p -> view s 0 p <> None ->
  err_opt (open_write be p creating excl trunc m s) = None -> creating && excl = false /\ exists j m0 d m1,
     view s 0 p = Some (j, OFile m0 d) /\ m1 = (match j with 0 => m0 | _ => perm m0 end) /\
     made (fun a => under a p) p (OFile m1 (if trunc then 0%N else d)) s (end_of (open_write be p creating excl trunc m s)).
Proof. exact (fun I U V => proj2 (open_tree be p creating excl trunc m s I U V)). Qed.
Print Assumptions C47_open_keeps_content.

Theorem C47_open_succeeds be p creating trunc m s j m0 d : inv s -> plain_at s p -> answers be s p -> view s 0 p = Some (j, OFile m0 d) ->
  err_opt (open_write be p creating false trunc m s) = None.
Proof. exact (open_succeeds be p creating trunc m s j m0 d). Qed.
Print Assumptions C47_open_succeeds.

Theorem C47_chmod_changes_one_mode be p m s : inv s -> plain_at s p -> err_opt (chmod be p m s) = None ->
  exists e x, as_copied (view s 0 p) (Some (e, x)) /\ made (fun a => under a p) p (chmoded x m) s (end_of (chmod be p m s)).
Proof. exact (fun I U => proj2 (chmod_tree be p m s I U)). Qed.
Print Assumptions C47_chmod_changes_one_mode.

Theorem C47_write_changes_one_file p d s : inv s -> forall s', reaches s (write_file p d s) s' -> inv s' /\
  (s' = s \/ exists m d0, view s 0 p = Some (0, OFile m d0) /\ made (fun _ => False) p (OFile m d) s s').
Proof. exact (write_tree p d s). Qed.
Print Assumptions C47_write_changes_one_file.

(* The middle layer closes d (mode 0700), the lowest has d open (0755) with a file in it.
   Writing to the file copies d up with the lowest layer's mode: the merged d opens. *)
Definition mode_stack : stack := [plain []; plain [([nd], ODir 448)]; plain [([nd], ODir 493); ([nf; nd], OFile 420 7)]].
Lemma mode_widens : inv mode_stack /\ plain_at mode_stack [nf; nd] /\ answers quiet mode_stack [nf; nd] /\
  err_opt (open_write quiet [nf; nd] false false false 0 mode_stack) = None /\
  visible mode_stack [nd] = Some (ODir 448) /\ visible (end_of (open_write quiet [nf; nd] false false false 0 mode_stack)) [nd] = Some (ODir 493).
Proof. split; [apply inv_check; reflexivity|]. split; [left; apply unlinked_check; reflexivity|]. repeat split. Qed.
Theorem C47_parent_permissions_kept_refuted : exists be s p q m m', inv s /\ plain_at s p /\ answers be s p /\ q <> p /\
  err_opt (open_write be p false false false 0 s) = None /\
  visible s q = Some (ODir m) /\ visible (end_of (open_write be p false false false 0 s)) q = Some (ODir m') /\ m <> m'.
Proof.
  exists quiet, mode_stack, [nf; nd], [nd], 448%N, 493%N. destruct mode_widens as [H1 [H2 [H3 [H4 [H5 H6]]]]].
  do 3 (split; [assumption|]). split; [discriminate|]. do 3 (split; [assumption|]). discriminate.
Qed.
Print Assumptions C47_parent_permissions_kept_refuted.

(* A setuid file loses the bit on copy-up. *)
Definition suid_stack : stack := [plain []; plain [([nf], OFile 2541 7)]].
Lemma suid_lost : inv suid_stack /\ plain_at suid_stack [nf] /\ err_opt (open_write quiet [nf] false false false 0 suid_stack) = None /\
  visible suid_stack [nf] = Some (OFile 2541 7) /\ visible (end_of (open_write quiet [nf] false false false 0 suid_stack)) [nf] = Some (OFile 493 7).
Proof. split; [apply inv_check; reflexivity|]. split; [left; apply unlinked_check; reflexivity|]. repeat split. Qed.
Theorem C47_special_bits_kept_refuted : exists be s p m m' d, inv s /\ plain_at s p /\ err_opt (open_write be p false false false 0 s) = None /\
  visible s p = Some (OFile m d) /\ visible (end_of (open_write be p false false false 0 s)) p = Some (OFile m' d) /\ m <> m'.
Proof.
  exists quiet, suid_stack, [nf], 2541%N, 493%N, 7%N. destruct suid_lost as [H1 [H2 [H3 [H4 H5]]]]. do 5 (split; [assumption|]). discriminate.
Qed.
Print Assumptions C47_special_bits_kept_refuted.

Definition agree_stack : stack := [plain []; plain [([nd], ODir 493); ([ne; nd], OLink nf); ([nf; nd], OFile 420 7)]].
Example C47_hypotheses_met : inv agree_stack /\ plain_at agree_stack [nf; nd] /\ answers quiet agree_stack [nf; nd] /\
  view agree_stack 0 [nf; nd] = Some (1, OFile 420 7) /\ (forall a, strictly_under a [nf; nd] -> a <> [] -> one_mode agree_stack a) /\ one_mode agree_stack [] /\
  length (states_of (copy_up quiet [nf; nd] agree_stack)) = 2 /\ view (end_of (copy_up quiet [nf; nd] agree_stack)) 0 [nf; nd] = Some (0, OFile 420 7).
Proof.
  split; [apply inv_check; reflexivity|]. split; [left; apply unlinked_check; reflexivity|]. split; [intros i a _ _; reflexivity|]. split; [reflexivity|]. split; [|split; [|split; reflexivity]].
  - intros a Ha Hn. apply strictly_cons in Ha. destruct Ha as [z Hz].
    assert (a = [nd]) as ->.
    { destruct z as [|x z]; [symmetry; exact Hz|]. inversion Hz. destruct z as [|y z]; [destruct a; [congruence|discriminate]|discriminate]. }
    intros [|[|[|i]]] m j m' H1 H2; try discriminate H1. vm_compute in H1, H2. inversion H1; subst. inversion H2; subst. reflexivity.
  - intros [|[|[|i]]] m j m' H1 H2; try discriminate H1; vm_compute in H1, H2; inversion H1; subst; inversion H2; subst; reflexivity.
Qed.

(* --- C48: lowers are read only --- *)
(* No call, complete or cut short, on any stack, with any backend answers, changes a lower
   layer's tree or marks; nor does any history of calls and crashes. *)
Theorem C48_lowers_never_written be c s s' : reaches s (run_call be c s) s' -> tl s' = tl s.
Proof. exact (lowers_kept be c s s'). Qed.
Print Assumptions C48_lowers_never_written.

Theorem C48_lowers_never_written_by_histories h s : tl (play h s) = tl s.
Proof. exact (play_lowers h s). Qed.
Print Assumptions C48_lowers_never_written_by_histories.

Definition ev (c : ocall) (k : option nat) : event := {| ev_be := quiet; ev_call := c; ev_cut := k |}.
Definition ex_history : list event :=
  [ev (CRemoveAll [nf; nd]) None; ev (CMkdir [nf; nd] 448) (Some 2); ev (COpen [nd; nd] false false true 0) None; ev (CRename [ne; nd] [na]) None; ev (CChmod [nd] 448) None].
Example C48_history_moves : tl (play ex_history ex_stack) = tl ex_stack /\ play ex_history ex_stack <> ex_stack /\
  read_dir quiet (play ex_history ex_stack) [] = DNames [(na, 0); (nd, 0)] /\ read_dir quiet (play ex_history ex_stack) [nd] = DNames [(nd, 0); (nf, 0)].
Proof.
  split; [vm_compute; reflexivity|]. split; [|split; vm_compute; reflexivity]. intros E. apply (f_equal (fun s => view s 0 [na])) in E. vm_compute in E. discriminate.
Qed.

(* --- C49: rename --- *)
(* A successful rename puts the old subtree at the new name, as the top's, empties the old
   name, and changes nothing else (but for directories copied into the top). *)
Theorem C49_rename_moves_the_subtree be o n s : inv s -> plain_at s o -> unlinked s n -> plain_at s (tl n) -> err_opt (rename be o n s) = None ->
  (o = n /\ end_of (rename be o n s) = s) \/ taken (fun a => under a o \/ above_of n a) o n s (end_of (rename be o n s)).
Proof. exact (fun I U1 U2 U3 => proj2 (proj2 (proj2 (rename_tree be o n s I U1 U2 U3)))). Qed.
Print Assumptions C49_rename_moves_the_subtree.

(* A refused rename changes nothing visible. *)
Theorem C49_refused_rename_changes_nothing be o n s : inv s -> plain_at s o -> unlinked s n -> plain_at s (tl n) -> err_opt (rename be o n s) <> None ->
  copied_on (fun a => under a o \/ above_of n a) s (end_of (rename be o n s)).
Proof. exact (fun I U1 U2 U3 => proj1 (proj2 (proj2 (rename_tree be o n s I U1 U2 U3)))). Qed.
Print Assumptions C49_refused_rename_changes_nothing.

(* In every state a crash may leave, the moved tree is at the old name or at the new one,
   and other names are as before. *)
Theorem C49_nothing_lost_on_the_way be o n s : inv s -> plain_at s o -> unlinked s n -> plain_at s (tl n) ->
  forall s', reaches s (rename be o n s) s' -> taking (fun a => under a o \/ above_of n a) o n s s'.
Proof. exact (fun I U1 U2 U3 => proj1 (proj2 (rename_tree be o n s I U1 U2 U3))). Qed.
Print Assumptions C49_nothing_lost_on_the_way.

(* A directory of the top with marks below it, onto an empty merged directory of a lower. *)
Definition move_stack : stack :=
  [{| l_tree := [([nd], ODir 493); ([ne; nd], ODir 448); ([nf; ne; nd], OFile 420 1)]; l_wh := [[na; ne; nd]]; l_op := [[nd]; [ne; nd]] |};
   plain [([nd], ODir 493); ([ne], ODir 493); ([na], OFile 420 5)]].
Example C49_hypotheses_met : inv move_stack /\ plain_at move_stack [nd] /\ unlinked move_stack [ne] /\ plain_at move_stack [] /\
  err_opt (rename quiet [nd] [ne] move_stack) = None /\
  read_dir quiet (end_of (rename quiet [nd] [ne] move_stack)) [] = DNames [(na, 1); (ne, 0)] /\
  read_dir quiet (end_of (rename quiet [nd] [ne] move_stack)) [ne; ne] = DNames [(nf, 0)] /\
  length (states_of (rename quiet [nd] [ne] move_stack)) = 7 /\
  rename quiet [na] [nd] move_stack = fail move_stack EIsDir.
Proof.
  split; [apply inv_check; reflexivity|]. split; [left; apply unlinked_check; reflexivity|]. split; [apply unlinked_check; reflexivity|]. split; [left; apply unlinked_check; reflexivity|].
  repeat split; vm_compute; reflexivity.
Qed.

(* --- C50: deleted content does not resurface --- *)
(* Every state of every call but Rename shows a lower entry only where the stack before the
   call showed it, and is a stack the next call may start from. *)
Theorem C50_no_call_resurfaces_lower_content be c s : inv s -> proper s c -> is_rename c = false ->
  forall s', reaches s (run_call be c s) s' -> inv s' /\ no_resurface s s'.
Proof. exact (call_quiet be c s). Qed.
Print Assumptions C50_no_call_resurfaces_lower_content.

Theorem C50_finished_rename be o n s : inv s -> proper s (CRename o n) -> inv (end_of (rename be o n s)) /\ no_resurface s (end_of (rename be o n s)).
Proof. exact (rename_quiet be o n s). Qed.
Print Assumptions C50_finished_rename.

(* Over any history of calls, each but the renames cut short anywhere. *)
Theorem C50_histories_with_crashes h s : inv s -> fair s h -> inv (play h s) /\ no_resurface s (play h s).
Proof. exact (play_quiet h s). Qed.
Print Assumptions C50_histories_with_crashes.

(* A rename cut short: nothing resurfaces outside its two names. *)
Theorem C50_rename_cut_short_partial be o n s s' q j x : inv s -> proper s (CRename o n) -> reaches s (rename be o n s) s' ->
  ~ under o q -> ~ under n q -> view s' 0 q = Some (S j, x) -> view s 0 q = Some (S j, x).
Proof. exact (rename_cut_quiet be o n s s' q j x). Qed.
Print Assumptions C50_rename_cut_short_partial.

(* Inside them it does. The lower's directory e, with e/f, is deleted; the top's directory d
   is renamed to e; a crash (or a failing store) after the whiteout on e is cleared and before
   e is made opaque shows e/f inside the moved directory. *)
Definition crash_stack : stack :=
  [{| l_tree := [([nd], ODir 493)]; l_wh := [[ne]]; l_op := [[nd]] |}; plain [([ne], ODir 493); ([nf; ne], OFile 420 7)]].
Lemma crash_resurfaces : inv crash_stack /\ proper crash_stack (CRename [nd] [ne]) /\
  exists s', nth_error (states crash_stack (rename quiet [nd] [ne] crash_stack)) 2 = Some s' /\
  view s' 0 [nf; ne] = Some (1, OFile 420 7) /\ view crash_stack 0 [nf; ne] = None.
Proof.
  split; [apply inv_check; reflexivity|]. split; [split; [left; apply unlinked_check; reflexivity|split; [apply unlinked_check; reflexivity|left; apply unlinked_check; reflexivity]]|].
  eexists. split; [reflexivity|]. split; reflexivity.
Qed.
Theorem C50_rename_over_deleted_directory_refuted : exists be s o n s' q j x, inv s /\ proper s (CRename o n) /\
  reaches s (rename be o n s) s' /\ strictly_under n q /\ view s' 0 q = Some (S j, x) /\ view s 0 q = None.
Proof.
  destruct crash_resurfaces as [H1 [H2 [s' [H3 [H4 H5]]]]]. exists quiet, crash_stack, [nd], [ne], s', [nf; ne], 0, (OFile 420 7).
  split; [exact H1|]. split; [exact H2|]. split; [left; exact (nth_error_In _ _ H3)|]. split; [exists nf, []; reflexivity|]. split; [exact H4|exact H5].
Qed.
Print Assumptions C50_rename_over_deleted_directory_refuted.

(* A lower directory d with d/f was replaced by a file d of the top; renaming that file and
   crashing before the whiteout on d shows d/f again. *)
Definition replaced_stack : stack := [plain [([nd], OFile 420 1)]; plain [([nd], ODir 493); ([nf; nd], OFile 420 7)]].
Lemma replaced_resurfaces : inv replaced_stack /\ proper replaced_stack (CRename [nd] [ne]) /\
  exists s', nth_error (states replaced_stack (rename quiet [nd] [ne] replaced_stack)) 1 = Some s' /\
  view s' 0 [nf; nd] = Some (1, OFile 420 7) /\ view replaced_stack 0 [nf; nd] = None.
Proof.
  split; [apply inv_check; reflexivity|]. split; [split; [left; apply unlinked_check; reflexivity|split; [apply unlinked_check; reflexivity|left; apply unlinked_check; reflexivity]]|].
  eexists. split; [reflexivity|]. split; reflexivity.
Qed.
Theorem C50_rename_away_refuted : exists be s o n s' q j x, inv s /\ proper s (CRename o n) /\
  reaches s (rename be o n s) s' /\ strictly_under o q /\ view s' 0 q = Some (S j, x) /\ view s 0 q = None.
Proof.
  destruct replaced_resurfaces as [H1 [H2 [s' [H3 [H4 H5]]]]]. exists quiet, replaced_stack, [nd], [ne], s', [nf; nd], 0, (OFile 420 7).
  split; [exact H1|]. split; [exact H2|]. split; [left; exact (nth_error_In _ _ H3)|]. split; [exists nf, []; reflexivity|]. split; [exact H4|exact H5].
Qed.
Print Assumptions C50_rename_away_refuted.

Lemma ex_plain : forall s p, forallb (fun i => forallb (fun a => negb (linkb s i a)) (above p)) (upto 0 (cut_from s p 0)) = true -> plain_at s p.
Proof. intros s p H. left. apply unlinked_check, H. Qed.
Example C50_hypotheses_met : inv ex_stack /\ fair ex_stack ex_history /\ length (states_of (remove_all quiet [nf; nd] ex_stack)) = 2.
Proof.
  split; [apply inv_check; reflexivity|]. split; [|reflexivity]. unfold ex_history. cbn [fair ev ev_call ev_cut proper is_rename].
  split; [exact I|]. split; [discriminate|]. split; [split; apply ex_plain; vm_compute; reflexivity|]. split; [discriminate|]. split; [split; apply ex_plain; vm_compute; reflexivity|]. split; [discriminate|].
  split; [split; [apply ex_plain; vm_compute; reflexivity|split; [apply unlinked_check; vm_compute; reflexivity|apply ex_plain; vm_compute; reflexivity]]|]. split; [reflexivity|].
  split; [apply ex_plain; vm_compute; reflexivity|]. split; [discriminate|exact I].
Qed.
