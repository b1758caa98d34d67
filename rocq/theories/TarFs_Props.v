(* C29: a tar file system shows each accepted path once, the last entry winning.
   C30: links in a tar are followed like a path walk, at most 40 of them, inside the root. *)
From Verif Require Import Common CommonLemmas ContentRange_Model ContentRange_Proofs PathLex_Model PathLex_Proofs CopyFs_Model CopyFs_Proofs TarFs_Model TarFs_Spec TarFs_Proofs.
Open Scope nat_scope.

(* "d" and "e" directories, "d/f" twice, "e/l" -> "../d/f", hard link "h" = "d/f". *)
Definition nd : list byte := [100%N].
Definition ne : list byte := [101%N].
Definition ndf : list byte := [100%N; sep; 102%N].
Definition nel : list byte := [101%N; sep; 108%N].
Definition nh : list byte := [104%N].
Definition up_df : list byte := [dot; dot; sep] ++ ndf.
Definition opts : topt := TOpt false true true.
Definition arch1 : list hdr :=
  [Hdr ndf TReg [] 1; Hdr nd TDir [] 2; Hdr ne TDir [] 3; Hdr nel TSym up_df 4; Hdr nh TLink ndf 5; Hdr (dot :: sep :: ndf) TReg [] 6].

Theorem C29_path_shows_last_entry_partial o arch c : no_dotted arch -> c <> [] ->
  let v := option_map view_of (tfind (tar_new o arch) c) in
  (forall h, winner o arch c h -> h_type h = TDir -> v = Some (VDir (Some h))) /\
  ((forall h, winner o arch c h -> h_type h <> TDir) -> (exists c' h', winner o arch c' h' /\ above c c') -> v = Some (VDir None)) /\
  (forall h, winner o arch c h -> h_type h <> TDir -> (forall c' h', winner o arch c' h' -> ~ above c c') -> v = Some (VLeaf (entry_of h))) /\
  ((forall h, ~ winner o arch c h) -> (forall c' h', winner o arch c' h' -> ~ above c c') -> v = None).
Proof. exact (tar_lookup o arch c). Qed.
Print Assumptions C29_path_shows_last_entry_partial.

Lemma arch1_plain : no_dotted arch1.
Proof. apply no_dottedb_ok. reflexivity. Qed.
Example C29_lookup_met : no_dotted arch1 /\ winner opts arch1 [nd; [102%N]] (Hdr (dot :: sep :: ndf) TReg [] 6) /\ winner opts arch1 [nd] (Hdr nd TDir [] 2) /\ above [nd] [nd; [102%N]].
Proof. split; [exact arch1_plain|]. split; [|split]; [apply (entries_wins _ _ _ _ arch1_plain); vm_compute; tauto|apply (entries_wins _ _ _ _ arch1_plain); vm_compute; tauto|exists [102%N], []; reflexivity]. Qed.

Theorem C29_directory_lists_each_name_once_partial o arch : no_dotted arch -> complete o arch -> forall c h files ordered,
  tfind (tar_new o arch) c = Some (NDir h files ordered) ->
  exists hs, list_dir (NDir h files ordered) = Some hs /\ NoDup (map key_of hs) /\
    forall h', In h' hs <-> exists n, winner o arch (c ++ [n]) h'.
Proof. exact (tar_listing o arch). Qed.
Print Assumptions C29_directory_lists_each_name_once_partial.

(* The root is a directory with a header of its own, whether or not the archive has one. *)
Theorem C29_root o arch : exists h files ordered, tar_new o arch = NDir (Some h) files ordered /\
  (names_root arch h \/ ((forall x, ~ names_root arch x) /\ h_type h = TDir)).
Proof. exact (tar_root o arch). Qed.
Print Assumptions C29_root.
Example C29_root_met : header (tar_new opts (Hdr [dot; sep] TDir [] 9 :: arch1)) = Some (Hdr [dot; sep] TDir [] 9) /\ option_map h_type (header (tar_new opts arch1)) = Some TDir.
Proof. split; vm_compute; reflexivity. Qed.

Lemma arch1_complete : complete opts arch1.
Proof.
  intros c h c0 Hw (x & r & E) Hne. apply (proj2 (entries_wins _ _ _ _ arch1_plain)) in Hw. vm_compute in Hw.
  assert (c = [nd] \/ c = [nd; [102%N]] \/ c = [ne] \/ c = [ne; [108%N]] \/ c = [nh]) as Hc by (repeat (destruct Hw as [Hw|Hw]; [apply (f_equal fst) in Hw; cbn [fst] in Hw; rewrite <- Hw; unfold nd, ne, nh; tauto|]); destruct Hw).
  destruct c0 as [|a c0]; [contradiction|].
  destruct Hc as [-> | [-> | [-> | [-> | ->]]]]; cbn in E.
  - destruct c0; discriminate.
  - destruct c0; cbn in E; [|destruct c0; discriminate]. assert (a = nd) as -> by congruence. eexists. split; [apply (entries_wins _ _ _ _ arch1_plain); vm_compute; left; reflexivity|reflexivity].
  - destruct c0; discriminate.
  - destruct c0; cbn in E; [|destruct c0; discriminate]. assert (a = ne) as -> by congruence. eexists. split; [apply (entries_wins _ _ _ _ arch1_plain); vm_compute; right; right; left; reflexivity|reflexivity].
  - destruct c0; discriminate.
Qed.
Example C29_listing_met : complete opts arch1 /\ exists h f o, tfind (tar_new opts arch1) [nd] = Some (NDir h f o) /\ f <> [].
Proof. split; [exact arch1_complete|]. vm_compute. do 3 eexists. split; [reflexivity|discriminate]. Qed.

(* An archive without directory entries (allowed by the format) makes Lstat and ReadDir
   dereference a nil header. *)
Theorem C29_missing_directory_entry_panics_refuted : exists arch c h,
  winner opts arch c h /\ list_dir (tar_new opts arch) = None /\
  forall fuel, tar_lstat (S fuel) (tar_new opts arch) true [] nd = LsPanic.
Proof. exists [Hdr ndf TReg [] 1], [nd; [102%N]], (Hdr ndf TReg [] 1). split; [apply entries_wins; [apply no_dottedb_ok; reflexivity|vm_compute; tauto]|]. split; [reflexivity|]. intros fuel. reflexivity. Qed.
Print Assumptions C29_missing_directory_entry_panics_refuted.

(* A name such as "..d" is inside the root and valid, but its entry is dropped. *)
Theorem C29_name_with_two_dots_is_dropped_refuted : exists o arch c h,
  winner o arch c h /\ h_type h = TReg /\ valid_path (key_of h) = true /\ tfind (tar_new o arch) c = None.
Proof.
  exists opts, [Hdr [dot; dot; 100%N] TReg [] 1], [[dot; dot; 100%N]], (Hdr [dot; dot; 100%N] TReg [] 1).
  split; [|repeat split]. exists [], []. split; [reflexivity|]. split; [reflexivity|]. split; [constructor|]. split; [|discriminate].
  split; [discriminate|exact I].
Qed.
Print Assumptions C29_name_with_two_dots_is_dropped_refuted.

(* A file whose path another entry uses as a directory: Open sees a directory, the listing
   still shows the file. *)
Theorem C29_listing_disagrees_with_lookup_refuted : exists arch h,
  list_dir (tar_new opts arch) = Some [h] /\ h_type h = TReg /\
  option_map view_of (tfind (tar_new opts arch) (split_sep (key_of h))) = Some (VDir None).
Proof. exists [Hdr nd TReg [] 1; Hdr ndf TReg [] 2], (Hdr nd TReg [] 1). repeat split. Qed.
Print Assumptions C29_listing_disagrees_with_lookup_refuted.

(* ---- C30 ---- *)

Theorem C30_open_follows_walk_partial t rt sub name : hard_plain t -> sym_plain t -> valid_path name = true -> name <> [dot] ->
  (forall n q nd, walk t rt sub sub (split_sep name) n q -> n <= 40 -> tfind t q = Some nd ->
     exists f0, forall f, f0 <= f -> tar_open f t rt sub name = read_of t nd) /\
  (forall f, (exists d i, tar_open f t rt sub name = OpFile d i) \/ (exists d i, tar_open f t rt sub name = OpDir d i) ->
     exists n q nd, walk t rt sub sub (split_sep name) n q /\ n <= 40 /\ tfind t q = Some nd /\ tar_open f t rt sub name = read_of t nd).
Proof. exact (open_agrees t rt sub name). Qed.
Print Assumptions C30_open_follows_walk_partial.

Theorem C30_open_ends_without_panic_partial t rt sub name : hard_plain t -> sym_plain t -> (exists h f o, tfind t sub = Some (NDir h f o)) ->
  exists f0, forall f, f0 <= f -> tar_open f t rt sub name <> OpFuel /\ tar_open f t rt sub name <> OpPanic /\ tar_open f t rt sub name = tar_open f0 t rt sub name.
Proof. exact (open_never_stuck t rt sub name). Qed.
Print Assumptions C30_open_ends_without_panic_partial.

Theorem C30_lstat_keeps_last_link_partial t rt sub name dirs x n d nd h : hard_plain t -> sym_nodot t -> valid_path name = true -> name <> [dot] -> split_sep name = dirs ++ [x] ->
  walk t rt sub sub dirs n d -> n <= 40 -> tfind t (d ++ [x]) = Some nd -> header nd = Some h ->
  exists f0, forall f, f0 <= f -> tar_lstat f t rt sub name = LsInfo h.
Proof. exact (lstat_agrees t rt sub name dirs x n d nd h). Qed.
Print Assumptions C30_lstat_keeps_last_link_partial.

Theorem C30_rooted_walk_stays_inside_partial t sub name skip f q : hard_plain t -> open_child f t true sub sub name skip = ROk q -> exists r, q = sub ++ r.
Proof. exact (open_child_confined t sub name skip f q). Qed.
Print Assumptions C30_rooted_walk_stays_inside_partial.

Definition t1 : tnode := Eval vm_compute in tar_new opts arch1.
Lemma tfind_dir h f o c p : tfind (NDir h f o) (c :: p) = match get c f with Some n => tfind n p | None => None end.
Proof. reflexivity. Qed.
Lemma t1_nodes p n : tfind t1 p = Some n -> match n with NSym h => h = Hdr nel TSym up_df 4 | NHard h => h = Hdr nh TLink ndf 5 | _ => True end.
Proof.
  intros H. destruct p as [|c p]; [apply some_inj in H; subst; exact I|]. unfold t1 in H. rewrite tfind_dir in H.
  match type of H with match get c ?f with _ => _ end = _ => destruct (get c f) as [m|] eqn:Hg; [|discriminate]; apply get_in in Hg end.
  cbn in Hg. repeat (destruct Hg as [E|Hg]; [assert (m = m) as Hm by reflexivity; apply (f_equal snd) in E; cbn [snd] in E; subst m; clear Hm|]); [| | |destruct Hg].
  1, 2: destruct p as [|c2 p]; [apply some_inj in H; subst; exact I|]; rewrite tfind_dir in H;
    match type of H with match get c2 ?f with _ => _ end = _ => destruct (get c2 f) as [m|] eqn:Hg; [|discriminate]; apply get_in in Hg end;
    cbn in Hg; destruct Hg as [E|[]]; apply (f_equal snd) in E; cbn [snd] in E; subst m; destruct p; [apply some_inj in H; subst|discriminate]; first [exact I|reflexivity].
  destruct p; [apply some_inj in H; subst; reflexivity|discriminate].
Qed.

Example C30_hypotheses_met : hard_plain t1 /\ sym_plain t1 /\ sym_nodot t1 /\ t1 = tar_new opts arch1 /\
  exists h, walk t1 true [] [] (split_sep nel) 1 (split_sep ndf) /\ tfind t1 (split_sep ndf) = Some (NFile h).
Proof.
  split; [|split; [|split; [|split]]].
  - intros p h H. apply t1_nodes in H. cbn in H. subst h. split; [reflexivity|]. split; [vm_compute; repeat (apply Forall_cons; [split; reflexivity|]); apply Forall_nil|]. eexists. vm_compute. reflexivity.
  - intros p h H _. apply t1_nodes in H. cbn in H. subst h. exists [[dot; dot]; nd], [102%N]. repeat split; try reflexivity. repeat (apply Forall_cons; [reflexivity|]); apply Forall_nil.
  - intros p h H _. apply t1_nodes in H. cbn in H. subst h. vm_compute. repeat (apply Forall_cons; [reflexivity|]); apply Forall_nil.
  - reflexivity.
  - eexists. split; [|vm_compute; reflexivity]. change (split_sep nel) with [ne; [108%N]]. eapply WDir; [reflexivity|reflexivity|vm_compute; reflexivity|].
    eapply WSym; [reflexivity|reflexivity|vm_compute; reflexivity|reflexivity|]. change (text_comps (clean (h_link (Hdr nel TSym up_df 4))) ++ []) with [[dot; dot]; nd; [102%N]].
    apply WUp; [discriminate|discriminate|]. cbn [removelast app]. eapply WDir; [reflexivity|reflexivity|vm_compute; reflexivity|]. eapply WFile; [reflexivity|reflexivity|vm_compute; reflexivity].
Qed.

(* A name io/fs does not allow is refused as such, whatever the archive holds. *)
Theorem C30_invalid_names t rt sub name f c : name <> [dot] -> In c (split_sep name) -> c = [] \/ c = [dot] \/ c = [dot; dot] ->
  tar_open f t rt sub name = OpErr EInvalid /\ tar_lstat f t rt sub name = LsErr EInvalid.
Proof. exact (invalid_names t rt sub name f c). Qed.
Print Assumptions C30_invalid_names.
Example C30_invalid_met : In [dot; dot] (split_sep [97%N; 47%N; dot; dot]) /\ In [] (split_sep [47%N]).
Proof. split; vm_compute; auto. Qed.

(* A hard link to a hard link: Open panics. *)
Theorem C30_hard_link_chain_panics_refuted : exists arch name, valid_path name = true /\
  forall fuel, tar_open (S fuel) (tar_new opts arch) true [] name = OpPanic.
Proof. exists [Hdr nd TReg [] 1; Hdr ne TLink nd 2; Hdr nh TLink ne 3], nh. split; [reflexivity|]. intros [|fuel]; reflexivity. Qed.
Print Assumptions C30_hard_link_chain_panics_refuted.

(* A hard link below itself never finishes resolving. *)
Definition nhx : list byte := [104%N; sep; 120%N].
Lemma loop_fuel : forall fuel, resolve_loop fuel (tar_new opts [Hdr nh TLink nhx 1]) true [] false [] [] [nh; [120%N]] 40 = RFuel.
Proof.
  induction fuel as [|fuel IH]; [reflexivity|].
  change (match resolve_loop fuel (tar_new opts [Hdr nh TLink nhx 1]) true [] false [] [] [nh; [120%N]] 40 with
          | ROk q => match tfind (tar_new opts [Hdr nh TLink nhx 1]) q with
                     | Some (NDir _ _ _) => resolve_loop fuel (tar_new opts [Hdr nh TLink nhx 1]) true [] false q [nh] [[120%N]] 40
                     | _ => RErr ENotDir end
          | r => r end = RFuel). rewrite IH. reflexivity.
Qed.
Theorem C30_hard_link_below_itself_never_ends_refuted : exists arch name, valid_path name = true /\
  forall fuel, tar_open fuel (tar_new opts arch) true [] name = OpFuel.
Proof.
  exists [Hdr nh TLink nhx 1], nh. split; [reflexivity|]. intros [|fuel]; [reflexivity|]. pose proof (loop_fuel (S fuel)) as H.
  change (match (match resolve_loop (S fuel) (tar_new opts [Hdr nh TLink nhx 1]) true [] false [] [] [nh; [120%N]] 40 with
                 | RErr e => FErr e | RFuel => FFuel
                 | ROk q => match tfind (tar_new opts [Hdr nh TLink nhx 1]) q with Some n => FOver (Hdr nh TLink nhx 1) n | None => FErr ENotExist end end) with
          | FErr e => OpErr e | FFuel => OpFuel
          | FEnt _ (NFile h) => OpFile h h | FEnt _ (NDir h f o) => OpDir (NDir h f o) h | FEnt _ _ => OpPanic
          | FOver i (NFile h) => OpFile h i | FOver i (NDir h f o) => OpDir (NDir h f o) (Some i) | FOver _ _ => OpPanic end = OpFuel).
  rewrite H. reflexivity.
Qed.
Print Assumptions C30_hard_link_below_itself_never_ends_refuted.

(* A symlink to the parent directory: the loop ends on the link itself and Open panics. *)
Theorem C30_link_to_parent_panics_refuted : exists arch name q h f o, valid_path name = true /\
  walk (tar_new opts arch) true [] [] (split_sep name) 1 q /\ tfind (tar_new opts arch) q = Some (NDir h f o) /\
  forall fuel, tar_open (S (S (S (S fuel)))) (tar_new opts arch) true [] name = OpPanic.
Proof.
  exists [Hdr ne TDir [] 1; Hdr nel TSym [dot; dot] 2], nel, []. do 3 eexists. split; [reflexivity|]. split; [|split; [vm_compute; reflexivity|intros fuel; reflexivity]].
  change (split_sep nel) with [ne; [108%N]]. eapply WDir; [reflexivity|reflexivity|vm_compute; reflexivity|].
  eapply WSym; [reflexivity|reflexivity|vm_compute; reflexivity|reflexivity|]. change (walk (tar_new opts [Hdr ne TDir [] 1; Hdr nel TSym [dot; dot] 2]) true [] ([] ++ [ne]) [[dot; dot]] 0 []).
  apply WUp; [discriminate|discriminate|]. apply WEnd.
Qed.
Print Assumptions C30_link_to_parent_panics_refuted.

(* A symlink to its own directory drops the rest of the path: "e/f" opens the root directory. *)
Theorem C30_link_to_dot_drops_rest_refuted : exists arch name q hf, valid_path name = true /\
  walk (tar_new opts arch) true [] [] (split_sep name) 1 q /\ tfind (tar_new opts arch) q = Some (NFile hf) /\
  exists d i, forall fuel, tar_open (S (S fuel)) (tar_new opts arch) true [] name = OpDir d i.
Proof.
  exists [Hdr ne TSym [dot] 1; Hdr nd TReg [] 2], [101%N; sep; 100%N], [nd], (Hdr nd TReg [] 2). split; [reflexivity|]. split; [|split; [vm_compute; reflexivity|do 2 eexists; intros fuel; reflexivity]].
  change (split_sep [101%N; sep; 100%N]) with [ne; nd]. eapply WSym; [reflexivity|reflexivity|vm_compute; reflexivity|reflexivity|].
  change (walk (tar_new opts [Hdr ne TSym [dot] 1; Hdr nd TReg [] 2]) true [] [] ([dot] :: [nd]) 0 [nd]). apply WDot. change [nd] with ([] ++ [nd]) at 2. eapply WFile; [reflexivity|reflexivity|vm_compute; reflexivity].
Qed.
Print Assumptions C30_link_to_dot_drops_rest_refuted.
