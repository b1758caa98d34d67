From Verif Require Import Common ContentRange_Model PathLex_Model PathLex_Proofs Resolve_Model Resolve_Spec Resolve_Kernel OsFs_Model OsFs_Spec OsFs_Proofs.
Open Scope nat_scope.

(* C69: a name is taken exactly when it is relative and, read from left to right, never goes
   above its start; it stands for the elements it ends at, below the root. *)
Theorem C69_taken_iff_inside :
  forall R name q, Forall proper R ->
    (resolve_path (path_of R) name = Some q <-> exists l, means name l /\ q = path_of (R ++ l)).
Proof. exact resolve_spec. Qed.
Print Assumptions C69_taken_iff_inside.

(* C69: every method makes one call of its counterpart in package os on the paths its names
   mean - a symlink's target as given, the root itself followed by Lstat and Lchown - or none:
   a name goes outside, or RemoveAll or ReadLink is asked for the root, or RemoveAll for a
   name that ends in ".". *)
Theorem C69_calls_stay_under_the_root :
  forall R o, Forall proper R -> call_ok R o (fs_call (path_of R) o).
Proof. exact calls_ok. Qed.
Print Assumptions C69_calls_stay_under_the_root.

(* C69: for names without ".." that do not end in "/" or "/.", the kernel takes the path to
   exactly the place the name has from the root directory, whatever symlinks there are. *)
Theorem C69_kernel_reaches_the_named_place_partial :
  forall t fl R D name l r, tree_ok t -> Forall proper R -> leads t true (path_of R) D ->
    means name l -> ~ In [dot; dot] (split_sep name) -> (exists pre x, split_sep name = pre ++ [x] /\ proper x) ->
    (leads t fl (path_of (R ++ l)) r <-> kreach t fl D (split_sep name) r).
Proof. exact same_place. Qed.
Print Assumptions C69_kernel_reaches_the_named_place_partial.

(* C69: for every name, what it reaches from the root directory without a symlink the path
   reaches too. *)
Theorem C69_linkless_names_reach_their_place_partial :
  forall t fl R D name l r, tree_ok t -> Forall proper R -> leads t true (path_of R) D -> t D = Some KDir ->
    means name l -> l <> [] -> kplain t D (split_sep name) r ->
    r = D ++ l /\ leads t fl (path_of (R ++ l)) r.
Proof. exact plain_place. Qed.
Print Assumptions C69_linkless_names_reach_their_place_partial.

(* C69: the root is protected from RemoveAll but not from Remove: Remove of any name that
   means the root hands the root directory itself to os.Remove. *)
Theorem C69_remove_takes_the_root_refuted :
  exists names, names = [[dot]; []; [97; 47; 46; 46]%N] /\
  forall n R, In n names -> Forall proper R ->
    fs_call (path_of R) (OpRemove n) = Calls (OsRemove (path_of R)) /\ fs_call (path_of R) (OpRemoveAll n) = Invalid.
Proof. exact remove_takes_root. Qed.
Print Assumptions C69_remove_takes_the_root_refuted.

(* C69: a file named with a trailing slash, which the kernel refuses, is opened. *)
Theorem C69_trailing_slash_refuted :
  exists al R D name l, tree_ok (tree_of al) /\ Forall proper R /\ leads (tree_of al) true (path_of R) D /\
    means name l /\ ~ In [dot; dot] (split_sep name) /\
    (forall fl r, ~ kreach (tree_of al) fl D (split_sep name) r) /\
    exists r, leads (tree_of al) true (path_of (R ++ l)) r /\ tree_of al r = Some KFile.
Proof. exact trailing_slash. Qed.
Print Assumptions C69_trailing_slash_refuted.

(* C69: and ".." after a symlink goes to another place than the kernel's, after a missing name
   to a place where the kernel finds none. *)
Theorem C69_dotdot_after_link_refuted :
  exists al R D n1 n2 l, tree_ok (tree_of al) /\ Forall proper R /\ leads (tree_of al) true (path_of R) D /\
    means n1 l /\ means n2 l /\
    (exists r1 r2, r1 <> r2 /\ kreach (tree_of al) true D (split_sep n1) r1 /\ leads (tree_of al) true (path_of (R ++ l)) r2) /\
    (forall fl r, ~ kreach (tree_of al) fl D (split_sep n2) r).
Proof. exact dotdot_after_link. Qed.
Print Assumptions C69_dotdot_after_link_refuted.

(* The names "l/./x", "o/../f" and "../f" in the Fs on /h. *)
Example C69_hypotheses_met :
  Forall proper [e_h] /\ tree_ok (tree_of e_tree) /\ leads (tree_of e_tree) true (path_of [e_h]) [e_h] /\
  means [108; 47; 46; 47; 102]%N [e_l; e_f] /\ means [108; 47; 46; 46; 47; 102]%N [e_f] /\
  (forall l, ~ means [46; 46; 47; 102]%N l) /\
  (exists pre x, split_sep [108; 47; 46; 47; 102]%N = pre ++ [x] /\ proper x) /\
  kplain (tree_of e_tree) [] [e_h; [dot; dot]; e_o; []; e_f] [e_o; e_f] /\
  fs_call (path_of [e_h]) (OpLstat [dot]) = Calls (OsStat [47; 104]%N) /\
  fs_call (path_of [e_h]) (OpRename [97; 47; 46; 46; 47; 98]%N [99; 47; 47; 100]%N) = Calls (OsRename [47; 104; 47; 98]%N [47; 104; 47; 99; 47; 100]%N) /\
  fs_call (path_of [e_h]) (OpRemoveAll [97; 47; 46]%N) = Invalid /\
  fs_call (path_of [e_h]) (OpOpen [46; 46; 47; 102]%N) = Escapes.
Proof.
  split; [constructor; [isp|constructor]|]. split; [exact e_ok|]. split; [exact e_root|].
  split; [apply means_comps; split; [reflexivity|split; [reflexivity|constructor; [isp|constructor; [isp|constructor]]]]|].
  split; [apply means_comps; split; [reflexivity|split; [reflexivity|constructor; [isp|constructor]]]|].
  split.
  { intros l H. apply means_comps in H as (_ & E & P). rewrite <- E in P. vm_compute in P. inversion P as [|? ? Q _]. exact (dd_not_proper Q). }
  split; [exists [e_l; [dot]], e_f; split; [reflexivity|isp]|].
  split.
  { eapply kp_down; [isp|reflexivity|reflexivity|discriminate|]. apply kp_up; [reflexivity|].
    eapply kp_down; [isp|reflexivity|reflexivity|discriminate|]. apply kp_skip; [left; reflexivity|reflexivity|].
    eapply kp_down; [isp|reflexivity|reflexivity|discriminate|]. constructor. }
  repeat split; vm_compute; reflexivity.
Qed.
