(* C63: names across the io/fs bridges. C64: listings across them. *)
From Coq Require Import Permutation Sorted.
From Verif Require Import Common ContentRange_Model PathLex_Model PathLex_Proofs Utf8_Model Utf8_Spec Views_Model Views_Spec IoBridge_Model IoBridge_Spec IoBridge_Proofs.
Open Scope Z_scope.

(* An fs.FS over an Fs passes a call on exactly for valid paths without NUL, with the name as
   it came. *)
Theorem C63_to_io_passes_exactly_valid : forall o name v n,
  to_io o name = Some (v, n) <-> v = counterpart o /\ n = name /\ valid_name name /\ no_nul name.
Proof. exact to_io_spec. Qed.
Print Assumptions C63_to_io_passes_exactly_valid.
(* "a/é" passes; "a//b", "../a", "/a", "" and a lone continuation byte do not. *)
Example C63_to_io_passes_exactly_valid_ex :
  to_io IOpen [97; 47; 195; 169]%N = Some (WOpen, [97; 47; 195; 169]%N) /\ to_io ISub [46]%N = Some (WSub, [46]%N) /\
  map (to_io IStat) [[97; 47; 47; 98]; [46; 46; 47; 97]; [47; 97]; []; [169]; [97; 0]]%N = repeat None 6.
Proof. repeat split. Qed.

(* An Fs over an fs.FS refuses what writes, refuses what leaves, and asks everything else with
   the name cleaned. *)
Theorem C63_from_io_asks : forall fl c,
  match asks fl c with
  | None => from_io fl c = ReadOnlyFs
  | Some (o, name) => (inside name -> from_io fl c = Ask o (render false (elems name))) /\ (~ inside name -> from_io fl c = Escapes)
  end.
Proof. exact from_io_spec. Qed.
Print Assumptions C63_from_io_asks.
Example C63_from_io_asks_ex :
  from_io unix_flags (FC (V1 Stat [97; 47; 46; 46; 47; 47; 98; 47]%N)) = Ask IStat [98]%N /\ from_io unix_flags (FC (V1 Open [97; 47; 46; 46; 47; 46; 46]%N)) = Escapes /\
  from_io unix_flags (FCOpenFile [98]%N 0) = Ask IOpen [98]%N /\ from_io unix_flags (FCOpenFile [98]%N 66) = ReadOnlyFs.
Proof. repeat split. Qed.

(* For names that are text it asks valid paths only. *)
Theorem C63_from_io_asks_valid_partial : forall name, inside name -> valid_text name -> valid_name (render false (elems name)).
Proof. exact rendered_valid. Qed.
Print Assumptions C63_from_io_asks_valid_partial.

(* Names that are no text are handed to the fs.FS all the same. *)
Theorem C63_from_io_asks_invalid_refuted : exists c o p, from_io unix_flags c = Ask o p /\ ~ valid_name p.
Proof. exact invalid_passes. Qed.
Print Assumptions C63_from_io_asks_invalid_refuted.

(* Across both bridges, either way around: only cleaning is left of the names. *)
Theorem C63_from_then_to : forall fl c o name p, asks fl c = Some (o, name) -> from_io fl c = Ask o p -> valid_text name -> no_nul name ->
  to_io o p = Some (counterpart o, p) /\ p = clean name.
Proof. exact there_and_back. Qed.
Print Assumptions C63_from_then_to.
Theorem C63_to_then_from : forall fl c o name, asks fl c = Some (o, name) -> valid_name name -> from_io fl c = Ask o name.
Proof. exact back_and_there. Qed.
Print Assumptions C63_to_then_from.

(* The normalizing wrappers pass on the same call with its paths cleaned, a symlink's target as
   it is, and cleaning again changes nothing. *)
Theorem C63_normalizer_cleans_paths_only : forall c,
  same_call c (normalizer_call c) /\ paths_of (normalizer_call c) = map clean (paths_of c) /\ normalizer_call (normalizer_call c) = normalizer_call c.
Proof. exact normalizer_spec. Qed.
Print Assumptions C63_normalizer_cleans_paths_only.
Theorem C63_localizer_is_normalizer : forall c, localizer_call c = normalizer_call c.
Proof. exact localizer_spec. Qed.
Print Assumptions C63_localizer_is_normalizer.
Example C63_normalizer_cleans_paths_only_ex :
  normalizer_call (VSymlink [46; 46; 47; 47; 120]%N [97; 47; 46; 47; 98]%N) = VSymlink [46; 46; 47; 47; 120]%N [97; 47; 98]%N /\
  normalizer_call (VRemoveAll [97; 47; 46; 46]%N) = VRemoveAll [46]%N.
Proof. split; reflexivity. Qed.

(* Names and errors of a page come through when it has no entries next to an error. *)
Theorem C64_names_come_through_partial : forall A (p : page A), snd p = None \/ fst p = [] -> ex_names p = (map d_name (fst p), snd p).
Proof. exact @names_kept. Qed.
Print Assumptions C64_names_come_through_partial.
(* Otherwise the entries are dropped, though the handle has moved past them. *)
Theorem C64_entries_beside_an_error_refuted : exists (p : page nat) d, In d (fst p) /\ ~ In (d_name d) (fst (ex_names p)).
Proof. exact names_lost. Qed.
Print Assumptions C64_entries_beside_an_error_refuted.

(* Readdir gives the infos of the entries when all have one. *)
Theorem C64_infos_come_through_partial : forall A (p : page A) infos, snd p = None \/ fst p = [] -> map d_info (fst p) = map IHas infos ->
  ex_readdir p = (map Some infos, snd p).
Proof. exact @readdir_kept. Qed.
Print Assumptions C64_infos_come_through_partial.
Example C64_infos_come_through_partial_ex :
  ex_readdir ([{| d_name := [97]%N; d_info := IHas 1%nat |}; {| d_name := [98]%N; d_info := IHas 2%nat |}], None) = ([Some 1%nat; Some 2%nat], None).
Proof. reflexivity. Qed.
(* An entry that has gone gives a nil FileInfo and no error. *)
Theorem C64_gone_entry_gives_nil_refuted : exists p : page nat, snd p = None /\ snd (ex_readdir p) = None /\ In None (fst (ex_readdir p)).
Proof. exact nil_info. Qed.
Print Assumptions C64_gone_entry_gives_nil_refuted.

(* Listing through ToIoFs: the same names in the same order with the same error, each entry
   with what Lstat says of its path, or as it was. *)
Theorem C64_listing_looks_again : forall A (named : A -> list byte) lstat dir (p : page A),
  (forall l n a, lstat = Some l -> l (join2 dir n) = Some a -> named a = n) ->
  map d_name (fst (fs_readdir named lstat dir p)) = map d_name (fst p) /\ snd (fs_readdir named lstat dir p) = snd p /\
  (forall i d d', nth_error (fst p) i = Some d -> nth_error (fst (fs_readdir named lstat dir p)) i = Some d' ->
     match lstat with
     | Some l => match l (join2 dir (d_name d)) with Some a => d_info d' = IHas a | None => d' = d end
     | None => d' = d
     end).
Proof. exact @restat_kept. Qed.
Print Assumptions C64_listing_looks_again.
Example C64_listing_looks_again_ex :
  let l := fun p => if bytes_eqb p [100; 47; 97]%N then Some 7%nat else None in
  fs_readdir (fun _ => [97]%N) (Some l) [100]%N ([{| d_name := [97]%N; d_info := IHas 1%nat |}; {| d_name := [98]%N; d_info := IGone |}], Some 3%nat) =
  ([{| d_name := [97]%N; d_info := IHas 7%nat |}; {| d_name := [98]%N; d_info := IGone |}], Some 3%nat).
Proof. reflexivity. Qed.

(* vroot.ReadDir: all entries the handle gave, once each, by name, with its error. *)
Theorem C64_read_dir_sorts : forall A (sort : list (dirent A) -> list (dirent A)) p, sorts sort ->
  Permutation (fst p) (fst (read_dir sort (Some p))) /\ StronglySorted (fun a b => bytes_le (d_name a) (d_name b)) (fst (read_dir sort (Some p))) /\
  snd (read_dir sort (Some p)) = snd p.
Proof. exact @read_dir_spec. Qed.
Print Assumptions C64_read_dir_sorts.
(* There is such a sort. *)
Theorem C64_sort_exists : forall A, sorts (@sort_entries A).
Proof. exact @sort_sorts. Qed.
Print Assumptions C64_sort_exists.
