(* Property theorems for C24: fsutil.ResolvePath. *)
From Verif Require Import Common CommonLemmas ContentRange_Model ContentRange_Proofs PathLex_Model PathLex_Proofs
  Resolve_Model Resolve_Spec Resolve_Proofs Resolve_Kernel Resolve_Complete.
Open Scope nat_scope.

(* ResolvePath ends for every file system and every name, and a result is a local path no
   element of which is a symlink (but the last, when asked to skip it), found by following
   fewer than 40 links. *)
Theorem C24_ends_local_and_link_free :
  forall fs name skip,
  resolve_path fs name skip <> RFuel /\
  forall p n, resolve_path fs name skip = ROk p n ->
    is_local p = true /\ n < max_links /\
    exists l, p = join_sep l /\ good l /\ (p = [dot] \/ link_free fs (if skip then removelast l else l)).
Proof. exact resolve_path_shape. Qed.
Print Assumptions C24_ends_local_and_link_free.

(* A name that is absolute or climbs out is refused. *)
Theorem C24_outside_refused :
  forall fs name skip, is_local (clean name) = false -> resolve_path fs name skip = RFail [] ErrEscapes.
Proof. exact resolve_path_nonlocal. Qed.
Print Assumptions C24_outside_refused.

(* Where no link target climbs, or no link target passes through another link, the result
   is what a kernel walk reaches: the walk of the name and the walk of the result end at the
   same places, the first following exactly the n links more; and the result itself is a
   real path, reached without following any. *)
Theorem C24_agrees_with_kernel_walk_partial :
  forall t fs name skip p n,
  tree_ok t -> answers t fs -> clean_links t -> (no_climb t \/ direct_links t) ->
  resolve_path fs name skip = ROk p n ->
  (forall M r, kw t (negb skip) [] (split_sep (clean name)) M r <->
    exists N, M = n + N /\ kw t (negb skip) [] (split_sep p) N r) /\
  (skip = false -> forall N r, kw t true [] (split_sep p) N r <-> N = 0 /\ r = clean_comps false (split_sep p)).
Proof. exact resolve_path_kernel. Qed.
Print Assumptions C24_agrees_with_kernel_walk_partial.

(* /a -> b/c, /b -> p/d, /p/d/c -> ../x, with files /p/x and /x. *)
Definition bad_tree : list (list (list byte) * knode) :=
  [([], KDir); ([[97]], KLink [98; 47; 99]); ([[98]], KLink [112; 47; 100]); ([[112]], KDir); ([[112]; [100]], KDir);
   ([[112]; [100]; [99]], KLink [46; 46; 47; 120]); ([[112]; [120]], KFile); ([[120]], KFile)]%N.
Definition bad_fs : linkfs := LinkFs
  (texts [([97], LLink); ([98], LLink); ([98; 47; 99], LLink); ([120], LOther); ([112; 47; 120], LOther)]%N (LErr 2))
  (texts [([97], RTarget [98; 47; 99]); ([98; 47; 99], RTarget [46; 46; 47; 120])]%N (RErr 2)).

Ltac walk :=
  repeat first [ apply kw_nil
               | apply kw_up with (d := []) | apply kw_up with (d := [[112]]%N)
               | eapply kw_link; [split; [discriminate|split; [discriminate|split; [discriminate|intros [E|[]]; discriminate E]]]|reflexivity|reflexivity|first [right; reflexivity|left; discriminate]|cbn [split_sep app]; cbn]
               | eapply kw_keep; [split; [discriminate|split; [discriminate|split; [discriminate|intros [E|[]]; discriminate E]]]|reflexivity|reflexivity]
               | eapply kw_file; [split; [discriminate|split; [discriminate|split; [discriminate|intros [E|[]]; discriminate E]]]|reflexivity]
               | eapply kw_dir; [split; [discriminate|split; [discriminate|split; [discriminate|intros [E|[]]; discriminate E]]]|reflexivity|] ].

(* Without that restriction it can name another file: the target of a link found behind a
   linked directory is joined to the text of the path. *)
Theorem C24_linked_parent_refuted :
  exists t fs name p n r,
  tree_ok t /\ clean_links t /\ resolve_path fs name false = ROk p n /\
  kw t true [] (split_sep (clean name)) 3 r /\ t r = Some KFile /\
  kw t true [] (split_sep p) 0 (split_sep p) /\ t (split_sep p) = Some KFile /\
  r <> split_sep p /\ answers t fs.
Proof.
  exists (tree_of bad_tree), bad_fs, [97]%N, [120]%N, 2, [[112]; [120]]%N.
  split; [|split; [|split; [reflexivity|split; [walk|split; [reflexivity|split; [walk|split; [reflexivity|split; [discriminate|]]]]]]]].
  - apply tree_of_ok; [reflexivity|]. repeat (apply Forall_cons; [cbn; auto|]). apply Forall_nil.
  - apply tree_of_clean. repeat constructor.
  - apply texts_answers; repeat apply Forall_cons; try apply Forall_nil; cbn.
    + exists 0, [[97]]%N, [98; 47; 99]%N. split; [walk|reflexivity].
    + exists 0, [[98]]%N, [112; 47; 100]%N. split; [walk|reflexivity].
    + exists 1, [[112]; [100]; [99]]%N, [46; 46; 47; 120]%N. split; [walk|reflexivity].
    + exists 0, [[120]]%N. split; [walk|right; reflexivity].
    + exists 0, [[112]; [120]]%N. split; [walk|right; reflexivity].
    + exists 0, [[97]]%N. split; [walk|reflexivity].
    + exists 1, [[112]; [100]; [99]]%N. split; [walk|reflexivity].
Qed.
Print Assumptions C24_linked_parent_refuted.

(* /l -> d, /d/m -> f, /d/f a file: "l/m" resolves to "d/f" over two links. *)
Definition ok_tree : list (list (list byte) * knode) :=
  [([], KDir); ([[108]], KLink [100]); ([[100]], KDir); ([[100]; [109]], KLink [102]); ([[100]; [102]], KFile)]%N.
Definition ok_fs : linkfs := LinkFs
  (texts [([108], LLink); ([100], LOther); ([100; 47; 109], LLink); ([100; 47; 102], LOther)]%N (LErr 2))
  (texts [([108], RTarget [100]); ([100; 47; 109], RTarget [102])]%N (RErr 2)).

Example C24_hypotheses_met :
  resolve_path ok_fs [108; 47; 109]%N false = ROk [100; 47; 102]%N 2 /\
  resolve_path ok_fs [108; 47; 109]%N true = ROk [100; 47; 109]%N 1 /\
  resolve_path ok_fs [46; 46; 47; 120]%N false = RFail [] ErrEscapes /\
  tree_ok (tree_of ok_tree) /\ answers (tree_of ok_tree) ok_fs /\ clean_links (tree_of ok_tree) /\ no_climb (tree_of ok_tree) /\
  kw (tree_of ok_tree) true [] (split_sep [108; 47; 109]%N) 2 [[100]; [102]]%N.
Proof.
  split; [reflexivity|]. split; [reflexivity|]. split; [reflexivity|].
  split; [apply tree_of_ok; [reflexivity|]; repeat (apply Forall_cons; [cbn; auto|]); apply Forall_nil|].
  split; [apply texts_answers; repeat apply Forall_cons; try apply Forall_nil; cbn|].
  - exists 0, [[108]]%N, [100]%N. split; [walk|reflexivity].
  - exists 0, [[100]]%N. split; [walk|left; reflexivity].
  - exists 0, [[100]; [109]]%N, [102]%N. split; [walk|reflexivity].
  - exists 0, [[100]; [102]]%N. split; [walk|right; reflexivity].
  - exists 0, [[108]]%N. split; [walk|reflexivity].
  - exists 0, [[100]; [109]]%N. split; [walk|reflexivity].
  - split; [apply tree_of_clean; repeat constructor|]. split; [|walk].
    apply tree_of_no_climb. repeat constructor; cbn; intros [E|[]]; discriminate E.
Qed.

(* Under the same restriction, ResolvePath succeeds exactly for the local names whose
   elements (but the last, when asked to skip it) a kernel walk can follow to an end over
   fewer than 40 links: no reachable name is refused, and nothing else is accepted. Lstat
   and ReadLink need to answer only texts walked over fewer than 40 links. *)
Theorem C24_finds_every_reachable_name_partial :
  forall t fs name skip,
  tree_ok t -> answers t fs -> answers_all t 40 fs -> clean_links t -> (no_climb t \/ direct_links t) ->
  (exists p n, resolve_path fs name skip = ROk p n) <->
  is_local (clean name) = true /\ exists M r, M < 40 /\ kw t true [] (walk_part skip (split_sep (clean name))) M r.
Proof. exact resolve_path_answered. Qed.
Print Assumptions C24_finds_every_reachable_name_partial.

(* A walk that ends over 40 links or more is refused with ELOOP, and with nothing else. *)
Theorem C24_long_walks_refused_partial :
  forall t fs name skip M r,
  tree_ok t -> answers t fs -> answers_all t (S M) fs -> clean_links t -> (no_climb t \/ direct_links t) ->
  is_local (clean name) = true -> kw t true [] (walk_part skip (split_sep (clean name))) M r ->
  40 <= M -> exists p, resolve_path fs name skip = RFail p ErrLoop.
Proof. exact resolve_path_long. Qed.
Print Assumptions C24_long_walks_refused_partial.

(* On every file system: an error of the system comes from the file system itself, and
   ErrPathEscapes from the name or from a link that was read and leads out. *)
Theorem C24_what_a_failure_says :
  forall fs name skip p e, resolve_path fs name skip = RFail p e ->
  match e with
  | ErrSys c => fs_said fs c
  | ErrEscapes => is_local (clean name) = false \/ leads_out fs
  | ErrLoop => True
  end.
Proof. exact resolve_path_why. Qed.
Print Assumptions C24_what_a_failure_says.

(* Every tree has such a file system: the one that walks it. *)
Theorem C24_every_tree_answers :
  forall t m, answers t (kernel_fs t m) /\ answers_all t (S m) (kernel_fs t m).
Proof. exact kernel_fs_answers. Qed.
Print Assumptions C24_every_tree_answers.

(* "l/m" is found over two links and "l/gone/x" is not; skipping the last element, "l/gone"
   is found though nothing is there. *)
Example C24_finds_met :
  answers_all (tree_of ok_tree) 40 (kernel_fs (tree_of ok_tree) 39) /\
  resolve_path (kernel_fs (tree_of ok_tree) 39) [108; 47; 109]%N false = ROk [100; 47; 102]%N 2 /\
  resolve_path (kernel_fs (tree_of ok_tree) 39) [108; 47; 103; 47; 120]%N true = RFail [100; 47; 103]%N (ErrSys 2) /\
  resolve_path (kernel_fs (tree_of ok_tree) 39) [108; 47; 103]%N true = ROk [100; 47; 103]%N 1 /\
  kw (tree_of ok_tree) true [] (walk_part true (split_sep (clean [108; 47; 103]%N))) 1 [[100]]%N.
Proof.
  split; [apply kernel_fs_answers|]. split; [vm_compute; reflexivity|]. split; [vm_compute; reflexivity|]. split; [vm_compute; reflexivity|].
  change (walk_part true (split_sep (clean [108; 47; 103]%N))) with [[108]]%N. walk.
Qed.

(* The same names without the restriction: on a tree of the kind above, ResolvePath misses a
   name the kernel reaches. /a -> b/c, /b -> p/d, /p/d/c -> ../y, with a file /p/y only. *)
Definition miss_tree : list (list (list byte) * knode) :=
  [([], KDir); ([[97]], KLink [98; 47; 99]); ([[98]], KLink [112; 47; 100]); ([[112]], KDir); ([[112]; [100]], KDir);
   ([[112]; [100]; [99]], KLink [46; 46; 47; 121]); ([[112]; [121]], KFile)]%N.
Theorem C24_misses_behind_linked_parent_refuted :
  tree_ok (tree_of miss_tree) /\ clean_links (tree_of miss_tree) /\
  kw (tree_of miss_tree) true [] (split_sep (clean [97]%N)) 3 [[112]; [121]]%N /\
  resolve_path (kernel_fs (tree_of miss_tree) 39) [97]%N false = RFail [97]%N (ErrSys 2).
Proof.
  split; [apply tree_of_ok; [reflexivity|]; repeat (apply Forall_cons; [cbn; auto|]); apply Forall_nil|].
  split; [apply tree_of_clean; repeat constructor|]. split; [change (split_sep (clean [97]%N)) with [[97]]%N; walk|vm_compute; reflexivity].
Qed.
Print Assumptions C24_misses_behind_linked_parent_refuted.

(* A walk that needs exactly 40 links is refused though Linux follows it: a chain of 40. *)
Fixpoint chain_tree (k : nat) : list (list (list byte) * knode) :=
  match k with
  | O => [([], KDir); ([[97; 48]], KFile)]%N
  | S j => ([[97%N; (48 + N.of_nat k)%N]], KLink [97%N; (48 + N.of_nat j)%N]) :: chain_tree j
  end.
Theorem C24_forty_links_refuted :
  kernel_walk (tree_of (chain_tree 40)) true 40 [] [[97; 88]]%N = Some (40, [[97; 48]]%N) /\
  resolve_path (kernel_fs (tree_of (chain_tree 40)) 40) [97; 88]%N false = RFail [97; 48]%N ErrLoop /\
  kernel_walk (tree_of (chain_tree 39)) true 40 [] [[97; 87]]%N = Some (39, [[97; 48]]%N) /\
  resolve_path (kernel_fs (tree_of (chain_tree 39)) 40) [97; 87]%N false = ROk [97; 48]%N 39.
Proof. repeat split; vm_compute; reflexivity. Qed.
Print Assumptions C24_forty_links_refuted.

(* The chain of 40 again, meeting the hypotheses of the refusal; and a link that leads out. *)
Example C24_refusals_met :
  tree_ok (tree_of (chain_tree 40)) /\ clean_links (tree_of (chain_tree 40)) /\ no_climb (tree_of (chain_tree 40)) /\
  answers (tree_of (chain_tree 40)) (kernel_fs (tree_of (chain_tree 40)) 40) /\
  answers_all (tree_of (chain_tree 40)) 41 (kernel_fs (tree_of (chain_tree 40)) 40) /\
  kw (tree_of (chain_tree 40)) true [] (walk_part false (split_sep (clean [97; 88]%N))) 40 [[97; 48]]%N /\
  resolve_path (kernel_fs (tree_of [([], KDir); ([[97]], KLink [46; 46; 47; 98])]%N) 40) [97]%N false = RFail [97]%N ErrEscapes.
Proof.
  assert (Forall (fun e : list (list byte) * knode => match snd e with KLink l => clean l = l | _ => True end) (chain_tree 40)) as Hc
    by (repeat (apply Forall_cons; [vm_compute; exact I || reflexivity|]); apply Forall_nil).
  split; [apply tree_of_ok; [vm_compute; reflexivity|]; repeat (apply Forall_cons; [first [left; reflexivity|right; vm_compute; reflexivity]|]); apply Forall_nil|].
  split; [apply tree_of_clean; exact Hc|].
  split; [apply tree_of_no_climb; repeat (apply Forall_cons; [cbn -[N.add N.of_nat]; first [exact I|intros [E|[]]; discriminate E]|]); apply Forall_nil|].
  split; [apply kernel_fs_answers|]. split; [apply kernel_fs_answers|].
  split; [apply (kernel_walk_sound _ true 40); vm_compute; reflexivity|vm_compute; reflexivity].
Qed.
