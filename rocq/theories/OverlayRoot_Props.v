(* C65: a sub-root of the overlay confines what is done through it. C66: MkdirAll. *)
From Verif Require Import Common CommonLemmas ContentRange_Model ContentRange_Proofs PathLex_Model PathLex_Proofs
  Resolve_Model Resolve_Spec Resolve_Proofs Resolve_Kernel OverlayRoot_Model OverlayRoot_Spec OverlayRoot_Proofs OverlayRootTree_Proofs OverlayRootSub_Proofs.
From Verif Require Masks_Model.
Open Scope nat_scope.

(* Whatever the merged view holds, every name a call works on is the directory the view is
   confined to or below it; what is removed or renamed is below it. *)
Theorem C65_names_stay_inside b m q full : Forall proper b -> In (NOk full) (names_of (join_sep b) m q) ->
  within b full /\ (takes_away q -> beneath b full).
Proof. exact (names_within b m q full). Qed.
Print Assumptions C65_names_stay_inside.

(* A call that only reads works on something that is there, and where it follows links on no
   link, but for the view's own directory. *)
Theorem C65_reads_reach_what_is_there b m skip name full : Forall proper b -> In (NOk full) (names_of (join_sep b) m (QRead skip name)) ->
  (forall c, m full <> MErr c) /\ (skip = false -> full = join_sep b \/ m full = MDir \/ m full = MFile).
Proof. exact (reads_reach b m skip name full). Qed.
Print Assumptions C65_reads_reach_what_is_there.

(* A sub-root opened through a view, however often, is inside it. *)
Theorem C65_sub_roots_nest ms b base : Forall proper b -> open_roots (join_sep b) ms = NOk base ->
  exists l, Forall proper l /\ base = join_sep (b ++ l).
Proof. exact (open_roots_within ms b base). Qed.
Print Assumptions C65_sub_roots_nest.

(* What lies outside decides nothing: two merged views that agree inside resolve every call
   and open every sub-root alike. *)
Theorem C65_outside_is_not_asked b m1 m2 : Forall proper b -> (forall full, within b full -> m1 full = m2 full) ->
  (forall q, names_of (join_sep b) m1 q = names_of (join_sep b) m2 q) /\
  (forall name, open_root (join_sep b) m1 name = open_root (join_sep b) m2 name).
Proof. intros Hb Hm. split; [exact (same_names b m1 m2 Hb Hm)|exact (same_open_root b m1 m2 Hb Hm)]. Qed.
Print Assumptions C65_outside_is_not_asked.

(* What a sub-root resolves a name to, the view it was opened through resolves the longer
   name to: a sub-root shows nothing else, it only refuses more. *)
Theorem C65_sub_root_is_part_of_its_parent b d m name skip full : Forall proper b -> Forall proper d -> d <> [] ->
  (forall k, 1 <= k <= length d -> m (join_sep (b ++ firstn k d)) = MDir) ->
  ov_resolve (join_sep (b ++ d)) m name skip = NOk full -> ov_resolve (join_sep b) m (join_sep d ++ sep :: name) skip = NOk full.
Proof. intros Hb Hd Hdn Hdir. exact (sub_agrees b d m Hb Hd Hdn Hdir name skip full). Qed.
Print Assumptions C65_sub_root_is_part_of_its_parent.

(* Where the way to the sub-root has no symlink in the top, the top's file system takes each
   name to the place it spells, over no symlink, so inside the sub-root. *)
Theorem C65_calls_land_inside_partial t m b q full : shows_top t m -> Forall proper b -> clear t b -> plain_call q ->
  In (NOk full) (names_of (join_sep b) m q) -> forall n r, kw t (follows_last q) [] (top_path full) n r ->
  n = 0 /\ exists l, Forall proper l /\ full = join_sep (b ++ l) /\ r = at_top (b ++ l).
Proof. exact (calls_land t m b q full). Qed.
Print Assumptions C65_calls_land_inside_partial.

(* A file opened for writing is opened, or made, where its name says, unless the name is
   still a symlink. *)
Theorem C65_writes_land_inside_partial t m b name cr ex full fresh : shows_top t m -> Forall proper b -> clear t b ->
  open_write (join_sep b) m name cr ex = WOpen full fresh -> (forall tgt, m full <> MLink tgt) ->
  exists l, Forall proper l /\ full = join_sep (b ++ l) /\ (forall r, kc t [] (top_path full) r -> r = at_top (b ++ l)) /\
    (forall n r, kw t true [] (top_path full) n r -> n = 0 /\ r = at_top (b ++ l)).
Proof. exact (open_write_ends t m b name cr ex full fresh). Qed.
Print Assumptions C65_writes_land_inside_partial.

(* Which only a create without O_EXCL leaves it, for a link that leads to nothing. *)
Theorem C65_only_creates_open_links m b name cr ex full fresh tgt : Forall proper b ->
  open_write (join_sep b) m name cr ex = WOpen full fresh -> m full = MLink tgt -> m (join_sep b) <> MLink tgt ->
  cr = true /\ ex = false /\ exists e, ov_resolve (join_sep b) m name false = NErr e /\ not_exist e = true.
Proof. exact (open_write_link m b name cr ex full fresh tgt). Qed.
Print Assumptions C65_only_creates_open_links.

(* Then the file can be made outside: through a view of s, link s/d to ../.., link s/e to
   d/x, and create s/e. The file appears beside the top's content and its store. *)
Definition cm : list byte := content.
Definition cs : list byte := [115]%N. Definition cd : list byte := [100]%N. Definition ce : list byte := [101]%N. Definition cx : list byte := [120]%N.
Definition co : list byte := [111]%N.
Definition l_plain : listing := [([], KDir); ([cm], KDir); ([cm; cs], KDir)].
Definition up2 : list byte := [46; 46; 47; 46; 46]%N.
Definition l_d : listing := add_link l_plain (join_sep [cs; cd]) up2.
Definition l_de : listing := add_link l_d (join_sep [cs; ce]) (join_sep [cd; cx]).
Ltac isproper := split; [discriminate|split; [discriminate|split; [discriminate|let H := fresh in intros H; cbn in H; repeat (destruct H as [H|H]; [discriminate H|]); exact H]]].
Ltac treeok := apply tree_of_ok; [reflexivity|repeat constructor; cbn; first [left; reflexivity|right; reflexivity]].
Lemma create_escapes : kc (tree_of l_de) [] (top_path (join_sep [cs; ce])) [cx].
Proof.
  change (top_path (join_sep [cs; ce])) with [cm; cs; ce].
  apply kc_dir; [isproper|reflexivity|]. apply kc_dir; [isproper|reflexivity|].
  eapply kc_link; [isproper|reflexivity|reflexivity|]. change (split_sep (join_sep [cd; cx]) ++ []) with [cd; cx].
  eapply kc_link; [isproper|reflexivity|reflexivity|]. change (split_sep up2 ++ [cx]) with [[dot; dot]; [dot; dot]; cx].
  change (([] ++ [cm]) ++ [cs]) with ([cm] ++ [cs]). apply kc_up. change [cm] with ([] ++ [cm]) at 1. apply kc_up.
  apply (kc_new (tree_of l_de) [] cx); [isproper|reflexivity|reflexivity].
Qed.
Lemma clear_s al : (forall tgt, tree_of al [cm] <> Some (KLink tgt)) -> (forall tgt, tree_of al [cm; cs] <> Some (KLink tgt)) -> clear (tree_of al) [cs].
Proof. intros H1 H2 k tgt. destruct k as [|[|k]]; [exact (H1 tgt)|exact (H2 tgt)|exact (H2 tgt)]. Qed.

Theorem C65_creates_stay_inside_refuted : exists al b n1 tgt1 n2 tgt2 f1 f2 r,
  let al1 := add_link al f1 tgt1 in let al2 := add_link al1 f2 tgt2 in
  let view l := top_only (tree_of l) in
  tree_ok (tree_of al) /\ tree_ok (tree_of al2) /\ Forall proper b /\ clear (tree_of al2) b /\
  names_of (join_sep b) (view al) (QSymlink tgt1 n1) = [NOk f1] /\
  names_of (join_sep b) (view al1) (QSymlink tgt2 n2) = [NOk f2] /\
  open_write (join_sep b) (view al2) n2 true false = WOpen f2 false /\
  kc (tree_of al2) [] (top_path f2) r /\ tree_of al2 r = None /\ outside b r /\ outside [] r.
Proof.
  exists l_plain, [cs], cd, up2, ce, (join_sep [cd; cx]), (join_sep [cs; cd]), (join_sep [cs; ce]), [cx]. cbv zeta.
  split; [treeok|]. split; [treeok|]. split; [constructor; [isproper|constructor]|].
  split; [apply clear_s; intros tgt; discriminate|].
  split; [reflexivity|]. split; [reflexivity|]. split; [vm_compute; reflexivity|]. split; [exact create_escapes|].
  split; [reflexivity|]. split; intros l; discriminate.
Qed.
Print Assumptions C65_creates_stay_inside_refuted.

(* And a view is not tied to the directory it was opened on: with s replaced by a symlink to
   o, the view of s shows what is in o. *)
Definition l_so : listing := [([], KDir); ([cm], KDir); ([cm; co], KDir); ([cm; co; cx], KFile); ([cm; cs], KDir)].
Theorem C65_sub_root_outlives_its_directory_refuted : exists al name base tgt n r,
  let al2 := add_link (without al base) base tgt in
  tree_ok (tree_of al) /\ tree_ok (tree_of al2) /\ open_root [] (top_only (tree_of al)) base = NOk base /\
  (exists full, names_of base (top_only (tree_of al2)) (QRead false name) = [NOk full] /\ kw (tree_of al2) true [] (top_path full) n r) /\
  tree_of al2 r = Some KFile /\ outside [base] r.
Proof.
  exists l_so, cx, cs, co, 1, [cm; co; cx]. cbv zeta. split; [treeok|]. split; [treeok|]. split; [vm_compute; reflexivity|].
  split; [|split; [reflexivity|intros l; discriminate]].
  exists (join_sep [cs; cx]). split; [vm_compute; reflexivity|]. change (top_path (join_sep [cs; cx])) with [cm; cs; cx].
  apply kw_dir; [isproper|reflexivity|]. eapply kw_link; [isproper|reflexivity|reflexivity|left; discriminate|].
  change (split_sep co ++ [cx]) with [co; cx]. apply kw_dir; [isproper|reflexivity|]. apply (kw_file _ _ (([] ++ [cm]) ++ [co]) cx); [isproper|reflexivity].
Qed.
Print Assumptions C65_sub_root_outlives_its_directory_refuted.

(* A view of s/d in a tree with a link inside it: the hypotheses hold, and the calls resolve. *)
Definition l_ex : listing := [([], KDir); ([cm], KDir); ([cm; cs], KDir); ([cm; cs; cd], KDir); ([cm; cs; cd; co], KDir); ([cm; cs; cd; co; cx], KFile);
  ([cm; cs; cd; ce], KLink co)].
Example C65_hypotheses_met : let t := tree_of l_ex in let m := top_only t in let b := [cs; cd] in
  tree_ok t /\ shows_top t m /\ Forall proper b /\ clear t b /\ open_root [] m (join_sep [cs; cd]) = NOk (join_sep b) /\
  names_of (join_sep b) m (QRead false (join_sep [ce; cx])) = [NOk (join_sep [cs; cd; co; cx])] /\
  names_of (join_sep b) m (QRead false (join_sep [[dot; dot]; co])) = [NErr ErrEscapes] /\
  open_write (join_sep b) m (join_sep [ce; cs]) true false = WOpen (join_sep [cs; cd; co; cs]) true /\
  names_of (join_sep b) m (QRemove true [dot]) = [NErr (ErrSys einval)].
Proof.
  cbv zeta. assert (tree_ok (tree_of l_ex)) as Hok by treeok. split; [exact Hok|]. split; [apply top_only_shows; exact Hok|].
  split; [constructor; [isproper|constructor; [isproper|constructor]]|].
  split; [intros k tgt; destruct k as [|[|[|k]]]; discriminate|]. repeat split; vm_compute; reflexivity.
Qed.

(* A successful MkdirAll makes all the missing directories from the deepest that is there
   down to the name, and nothing else. *)
Theorem C66_makes_the_missing_directories b m fails name made : Forall proper b -> mkdir_all (join_sep b) m fails name = (made, None) ->
  exists l j, Forall proper l /\ mkdir_all_name (join_sep b) m name = NOk (join_sep (b ++ l)) /\ j <= length (b ++ l) /\
    made = map (fun k => join_sep (firstn k (b ++ l))) (seq (S j) (length (b ++ l) - j)) /\
    mdirs m (firstn j (b ++ l)) /\ (j < length (b ++ l) -> m (join_sep (firstn (S j) (b ++ l))) = MErr enoent).
Proof. exact (mkdir_all_ok b m fails name made). Qed.
Print Assumptions C66_makes_the_missing_directories.

(* It does so, unless the top fails, where the part of the name that is there is directories. *)
Theorem C66_succeeds_over_directories b m fails name l j : (forall x, ~ In (Some x) fails) ->
  Forall proper b -> Forall proper l -> l <> [] -> clean name = join_sep l -> j <= length l -> mdirs m b ->
  (forall k, 1 <= k <= j -> m (join_sep (b ++ firstn k l)) = MDir) ->
  (forall k, j < k <= length l -> m (join_sep (b ++ firstn k l)) = MErr enoent) ->
  mkdir_all (join_sep b) m fails name = (map (fun k => join_sep (b ++ firstn k l)) (seq (S j) (length l - j)), None).
Proof. exact (mkdir_all_dirs b m fails name l j). Qed.
Print Assumptions C66_succeeds_over_directories.

(* A call that fails has made a leading part of the missing directories, each on the one
   before. *)
Theorem C66_failure_leaves_a_leading_part b m fails name made e : Forall proper b -> mkdir_all (join_sep b) m fails name = (made, e) -> made <> [] ->
  exists l j, Forall proper l /\ j < length (b ++ l) /\
    made = map (fun k => join_sep (firstn k (b ++ l))) (seq (S j) (length made)) /\ j + length made <= length (b ++ l) /\
    mdirs m (firstn j (b ++ l)) /\ m (join_sep (firstn (S j) (b ++ l))) = MErr enoent.
Proof. exact (mkdir_all_missing b m fails name made e). Qed.
Print Assumptions C66_failure_leaves_a_leading_part.

(* What the overlay refuses it refuses before anything is made; a failure after that is the
   top's, at the next directory. *)
Theorem C66_refused_before_anything_is_made b m fails name made x : Forall proper b -> mkdir_all (join_sep b) m fails name = (made, Some x) ->
  made = [] \/ nth_error fails (length made) = Some (Some x).
Proof. exact (mkdir_all_refused b m fails name made x). Qed.
Print Assumptions C66_refused_before_anything_is_made.

(* Every directory made is made where its name says: nothing of the top is there, and no
   symlink of the top is on the way. *)
Theorem C66_makes_them_in_place t m b fails name made e : shows_top t m -> tree_ok t -> Forall proper b -> clear t [] ->
  mkdir_all (join_sep b) m fails name = (made, e) ->
  forall d, In d made -> exists l, Forall proper l /\ d = join_sep l /\ t (at_top l) = None /\ clear t l.
Proof. exact (mkdir_all_lands t m b fails name made e). Qed.
Print Assumptions C66_makes_them_in_place.

(* A name that leads to a directory is refused when its last element is the symlink. *)
Theorem C66_existing_directory_is_success_refuted : exists al name d,
  tree_ok (tree_of al) /\ locate [] (top_only (tree_of al)) name false = NOk d /\ top_only (tree_of al) d = MDir /\
  mkdir_all [] (top_only (tree_of al)) [] name = ([], Some (ErrSys enotdir)).
Proof.
  exists (add_link l_plain ce cs), ce, cs. split; [treeok|]. repeat split; vm_compute; reflexivity.
Qed.
Print Assumptions C66_existing_directory_is_success_refuted.

(* Through a view whose directory is gone it makes that directory and those above it again. *)
Theorem C66_makes_only_inside_refuted : exists al name base d made,
  tree_ok (tree_of al) /\ open_root [] (top_only (tree_of al)) (join_sep base) = NOk (join_sep base) /\
  mkdir_all (join_sep base) (top_only (tree_of (without al cs))) [] name = (d :: made, None) /\ ~ within base d.
Proof.
  exists [([], KDir); ([cm], KDir); ([cm; cs], KDir); ([cm; cs; cd], KDir)], cx, [cs; cd], cs, [join_sep [cs; cd]; join_sep [cs; cd; cx]].
  split; [treeok|]. split; [vm_compute; reflexivity|]. split; [vm_compute; reflexivity|].
  intros (l & _ & E). discriminate E.
Qed.
Print Assumptions C66_makes_only_inside_refuted.

Example C66_hypotheses_met : let t := tree_of l_ex in let m := top_only t in
  mkdir_all (join_sep [cs; cd]) m [] (join_sep [co; cm; ce]) = ([join_sep [cs; cd; co; cm]; join_sep [cs; cd; co; cm; ce]], None) /\
  mkdir_all (join_sep [cs; cd]) m [] (join_sep [ce; cm; ce]) = ([join_sep [cs; cd; co; cm]; join_sep [cs; cd; co; cm; ce]], None) /\
  mkdir_all (join_sep [cs; cd]) m [None; Some (ErrSys 28)] (join_sep [co; cm; ce]) = ([join_sep [cs; cd; co; cm]], Some (ErrSys 28)) /\
  mkdir_all (join_sep [cs; cd]) m [] (join_sep [co; cx; ce]) = ([], Some (ErrSys enotdir)) /\ mdirs m [cs; cd] /\ m (join_sep [cs; cd; co]) = MDir.
Proof.
  cbv zeta. split; [vm_compute; reflexivity|]. split; [vm_compute; reflexivity|]. split; [vm_compute; reflexivity|]. split; [vm_compute; reflexivity|].
  split; [|vm_compute; reflexivity]. intros k Hk. cbn [length] in Hk. destruct k as [|[|[|k]]]; try lia; vm_compute; reflexivity.
Qed.
