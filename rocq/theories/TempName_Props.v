(* C22: temp-file policies. C23: random-name creation. *)
From Verif Require Import Common CommonLemmas ContentRange_Model PathLex_Model
  TempName_Model TempName_Spec TempName_Proofs.
Open Scope nat_scope.

(* C22, random policy: a name created next to the target is matched, fits in 255 bytes,
   lies in the target's directory and starts with (a prefix of) the target's name. *)
Theorem C22_random_policy_recognises_its_files :
  forall t r, uint32 r -> base t <> [sep] ->
  exists ps, split_pattern (policy_pattern t) = Some ps /\
    let name := random_name (random_policy_dir t) ps r in
    random_match name = true /\ (zlen (base name) <= 255)%Z /\ dir name = dir (clean t) /\
    exists pre, base name = pre ++ dot :: random_padded r ++ dot_tmp /\ prefix_of pre (base t).
Proof. exact random_policy_name. Qed.
Print Assumptions C22_random_policy_recognises_its_files.

(* C22: a target without a name ("/") is refused before anything is created. *)
Theorem C22_random_policy_refuses_root : forall t, base t = [sep] -> split_pattern (policy_pattern t) = None.
Proof. exact random_policy_root. Qed.
Print Assumptions C22_random_policy_refuses_root.

(* C22: Match accepts exactly the names of the form. *)
Theorem C22_random_match_exact : forall p, random_match p = true <-> random_temp_form (base p).
Proof. exact random_match_iff. Qed.
Print Assumptions C22_random_match_exact.

(* C22, directory policy: same, in the policy's directory, unless that is "." or "/". *)
Theorem C22_dir_policy_recognises_its_files_partial :
  forall td r, uint32 r ->
  let name := random_name (clean td) ([], tmp_ext) r in
  dir name = clean td /\ base name = random_padded r ++ dot_tmp /\ zlen (base name) = 14%Z /\
  (clean td <> [dot] -> clean td <> [sep] -> dir_match (clean td) name = true).
Proof. exact dir_policy_name. Qed.
Print Assumptions C22_dir_policy_recognises_its_files_partial.

Theorem C22_dir_policy_pattern : split_pattern dir_pattern = Some ([], tmp_ext).
Proof. exact dir_split. Qed.
Print Assumptions C22_dir_policy_pattern.

(* C22 is false for a policy on "." or "/": none of its files is matched. *)
Theorem C22_dir_policy_blind_in_dot_refuted :
  forall td r, uint32 r -> clean td = [dot] \/ clean td = [sep] ->
  dir_match (clean td) (random_name (clean td) ([], tmp_ext) r) = false.
Proof. exact dir_policy_unmatched. Qed.
Print Assumptions C22_dir_policy_blind_in_dot_refuted.

Theorem C22_dir_match_exact :
  forall td p, dir_match td p = true <-> at_or_below (clean td) (clean p) /\ dir_temp_form (base (clean p)).
Proof. exact dir_match_iff. Qed.
Print Assumptions C22_dir_match_exact.

(* C22, clean-up walk of the directory policy: it removes only matched names, never the
   directory itself; it removes every own file; it enters every ancestor. *)
Theorem C22_dir_cleanup_removes_only_own :
  forall td p isdir, dir_walk td p isdir = Remove -> dir_match td p = true /\ clean p <> td.
Proof. exact dir_walk_remove. Qed.
Print Assumptions C22_dir_cleanup_removes_only_own.

Theorem C22_dir_cleanup_removes_own :
  forall td r isdir, uint32 r -> clean td <> [dot] -> clean td <> [sep] ->
  dir_walk (clean td) (random_name (clean td) ([], tmp_ext) r) isdir = Remove.
Proof. exact dir_walk_own. Qed.
Print Assumptions C22_dir_cleanup_removes_own.

Theorem C22_dir_cleanup_enters_ancestors :
  forall td k, rooted td = false ->
  dir_walk (clean td) (render false (firstn k (clean_comps false (split_sep td)))) true = Continue.
Proof. exact dir_walk_ancestors. Qed.
Print Assumptions C22_dir_cleanup_enters_ancestors.

(* ... but with an absolute directory a walk from "/" is cut off at once. *)
Theorem C22_dir_cleanup_absolute_refuted :
  exists td, rooted td = true /\ clean td = td /\ td <> [sep] /\ dir_walk td [sep] true = SkipDir.
Proof. exists [sep; 97; sep; 98]%N. repeat split; try (vm_compute; reflexivity); discriminate. Qed.
Print Assumptions C22_dir_cleanup_absolute_refuted.

(* Target "d/e", random value 42. *)
Example C22_concrete :
  let t := [100; 47; 101]%N in
  random_name (random_policy_dir t) (pattern_base t ++ [dot], tmp_ext) 42 =
    [100; 47; 101; 46; 48; 48; 48; 48; 48; 48; 48; 48; 52; 50; 46; 116; 109; 112]%N /\
  base t <> [sep] /\ uint32 42 /\
  random_match [101; 46; 49; 46; 116; 109; 112]%N = false /\
  dir_walk [97; 47; 98]%N [97]%N true = Continue /\ dir_walk [97; 47; 98]%N [99]%N true = SkipDir.
Proof. repeat split; try (vm_compute; reflexivity); discriminate. Qed.

(* C23: at most [max_attempts] attempts, always an answer, whatever the callback and other
   processes do; a pattern with a separator is refused without an attempt. *)
Theorem C23_terminates_within_bound :
  forall V env rnd openf d pat (w : names V) res w' tr,
  open_random env rnd openf d pat w = (res, w', tr) ->
  res <> OutOfFuel /\ length tr <= max_attempts /\ chain env 0 w tr w' /\
  (res = BadPattern <-> In sep pat) /\ (res = BadPattern -> tr = [] /\ w' = w).
Proof. exact @open_random_bounded. Qed.
Print Assumptions C23_terminates_within_bound.

(* C23: every name tried lies in the directory and matches the pattern. *)
Theorem C23_names_match_pattern :
  forall V env rnd openf d pat (w : names V) res w' tr,
  (forall k, uint32 (rnd k)) ->
  open_random env rnd openf d pat w = (res, w', tr) ->
  Forall (fun a => exists ps ds, split_pattern pat = Some ps /\ digits10 ds /\
     dir (fst (fst a)) = clean d /\ base (fst (fst a)) = fst ps ++ ds ++ snd ps) tr /\
  (forall n, res = Created n -> exists tr' a, tr = tr' ++ [(n, fst a, snd a)]).
Proof. exact @open_random_names. Qed.
Print Assumptions C23_names_match_pattern.

(* C23, OpenFileRandom: the name returned did not exist when it was created; all other
   attempts changed nothing; only "exists" was retried. *)
Theorem C23_open_file_random_only_creates :
  forall V env rnd io (fresh : V) d pat w res w' tr,
  open_random env rnd (open_excl io fresh) d pat w = (res, w', tr) -> open_outcome io fresh 0 res tr.
Proof. exact @open_file_random_outcome. Qed.
Print Assumptions C23_open_file_random_only_creates.

Theorem C23_open_file_random_alone :
  forall V rnd io (fresh : V) d pat w res w' tr,
  open_random (fun _ x => x) rnd (open_excl io fresh) d pat w = (res, w', tr) ->
  match res with
  | Created n => w n = None /\ w' = name_set w n (Some fresh)
  | _ => w' = w
  end.
Proof. exact @open_file_random_quiet. Qed.
Print Assumptions C23_open_file_random_alone.

(* C23, MkdirRandom: existing names are kept, a returned directory is new. *)
Theorem C23_mkdir_random_keeps_existing :
  forall V env rnd io io2 (fresh : V) d pat w res w' tr,
  open_random env rnd (mkdir_open io io2 fresh) d pat w = (res, w', tr) ->
  Forall kept tr /\
  (forall n, res = Created n -> exists tr' a, tr = tr' ++ [(n, a, name_set a n (Some fresh))] /\ a n = None).
Proof. exact @mkdir_random_kept. Qed.
Print Assumptions C23_mkdir_random_keeps_existing.

(* A failing MkdirRandom can leave its directory behind, unlike OpenFileRandom. *)
Theorem C23_mkdir_random_failure_leaves_dir_refuted :
  exists rnd io io2 d pat w' tr n,
  open_random (fun _ x => x) rnd (mkdir_open io io2 tt) d pat (fun _ => None) = (Failed 13, w', tr) /\ w' n = Some tt.
Proof.
  exists (fun _ => 7%N), (fun _ => None), (fun _ => Some (EOther 13)), [97]%N, [42]%N.
  eexists _, _, (random_name [97]%N ([], []) 7). split.
  - unfold open_random, max_attempts. replace (N.to_nat 10000) with (S (N.to_nat 9999)) by lia. reflexivity.
  - reflexivity.
Qed.
Print Assumptions C23_mkdir_random_failure_leaves_dir_refuted.

(* Different random values give different names. *)
Theorem C23_random_part_injective :
  forall r1 r2, uint32 r1 -> uint32 r2 -> random_padded r1 = random_padded r2 -> r1 = r2.
Proof. exact random_padded_inj. Qed.
Print Assumptions C23_random_part_injective.

(* First draw exists, second is free: created with the second. *)
Example C23_concrete :
  let w := fun p => if bytes_eqb p (random_name [97]%N ([120]%N, []) 1) then Some 5%N else None in
  exists w' tr, open_random (fun _ x => x) (fun k => N.of_nat (S k)) (open_excl (fun _ => None) 9%N) [97]%N [120; 42]%N w =
    (Created (random_name [97]%N ([120]%N, []) 2), w', tr) /\ length tr = 2.
Proof.
  unfold open_random, max_attempts. replace (N.to_nat 10000) with (S (S (N.to_nat 9998))) by lia.
  eexists _, _. split.
  - cbn [split_pattern or_loop]. cbv zeta.
    unfold split_pattern. cbn [existsb cut_last].
    replace (2 <? S (S (N.to_nat 9998))) with true by (symmetry; apply Nat.ltb_lt; lia).
    reflexivity.
  - reflexivity.
Qed.
