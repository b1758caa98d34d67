(* C16-C19: resumable pulls and pushes of fsutil/resumable.go and resumable_fs.go. *)
From Verif Require Import Common CommonLemmas ContentRange_Model Resume_Model Resume_Spec Resume_Proofs.
Open Scope Z_scope.

(* C16: after any history of pulls (each with its own source, hooks, failures, crash point),
   the part file is an initial part of the version its sidecar names, and a final file that
   appeared is exactly the content of a version some call's source reported and that call
   asked for. *)
Theorem C16_history_single_version :
  forall content cs s, Forall (honest_call content) cs -> part_inv content s ->
    part_inv content (run_pulls cs s) /\
    (f_final s <> None -> run_pulls cs s = s) /\
    (forall b, f_final s = None -> f_final (run_pulls cs s) = Some b ->
       exists c etag, In c cs /\ checked (pc_src c) (pc_etag c) etag /\ b = content etag).
Proof. exact (fun content cs s H => run_pulls_inv content cs H s). Qed.
Print Assumptions C16_history_single_version.

(* C16: one call. Success means the version's bytes, of the expected ETag and size, accepted
   by every hook, under the final name; failure leaves the final name as it was. *)
Theorem C16_pull_outcome :
  forall content hooks src exp_etag exp_size e n s, honest_source content src -> part_inv content s ->
    match pull hooks src exp_etag exp_size e n s with
    | Done r _ s' => pull_post content src hooks exp_etag exp_size s r s'
    | Crashed s' => pull_crash content src exp_etag s s'
    end.
Proof. exact pull_spec. Qed.
Print Assumptions C16_pull_outcome.

(* C16: a pull of the version the part file belongs to builds on it: nothing of it is lost
   unless a hook rejects the finished bytes. *)
Theorem C16_resume_keeps_progress :
  forall content hooks src exp_etag exp_size e n s p a,
    honest_source content src -> part_inv content s -> f_final s = None -> f_part s = Some p -> p <> [] ->
    src O (zlen p) = Some a -> a_etag a = side_etag s ->
    (exp_etag = [] \/ exp_etag = side_etag s) -> (exp_size < 0 \/ zlen p <= exp_size) ->
    match pull hooks src exp_etag exp_size e n s with
    | Done PExisting _ _ => False
    | Done PCommitted _ s' => f_final s' = Some (content (side_etag s))
    | Done (PErr EHook) _ _ => True
    | Done (PErr _) _ s' => kept p s'
    | Crashed s' => hooks = [] -> kept p s' \/ f_final s' = Some (content (side_etag s))
    end.
Proof.
  intros content hooks src exp_etag exp_size e n s p a H1 H2 H3 H4 H5 H6 H7 H8 H9.
  pose proof (pull_resume_spec content hooks src exp_etag exp_size e n s p a H1 H2 H3 H4 H5 H6 H7 H8 H9) as H.
  unfold wp in H. destruct (pull hooks src exp_etag exp_size e n s) as [[| |[]]|]; exact H.
Qed.
Print Assumptions C16_resume_keeps_progress.

(* C16: whatever earlier calls left behind, a call in which nothing fails commits. *)
Theorem C16_undisturbed_pull_commits :
  forall content hooks src exp_etag exp_size n s etag,
    good_etag etag -> full_source content etag src -> f_final s = None -> part_inv content s ->
    (exp_etag = [] \/ exp_etag = etag) -> (exp_size < 0 \/ exp_size = zlen (content etag)) ->
    Forall (fun h => h (content etag) = true) hooks ->
    exists r n' s', pull hooks src exp_etag exp_size calm n s = Done r n' s' /\ r = PCommitted.
Proof. exact pull_calm. Qed.
Print Assumptions C16_undisturbed_pull_commits.

(* Version "1" is "ABC", version "2" is "XYZ". *)
Definition demo_content (e : list byte) : list byte :=
  if bytes_eqb e [49%N] then [65; 66; 67]%N else if bytes_eqb e [50%N] then [88; 89; 90]%N else [].

Definition serve (etag w : list byte) : psource := fun _ off =>
  Some (Answer etag (zlen w) [skipn (Z.to_nat off) w] true).

(* The same, but the connection breaks after one byte. *)
Definition serve_one (etag w : list byte) : psource := fun _ off =>
  Some (Answer etag (zlen w) [firstn 1 (skipn (Z.to_nat off) w)] false).

Definition nothing : files := Files None None None.

Lemma serve_honest e : good_etag e -> honest_source demo_content (serve e (demo_content e)).
Proof.
  intros Hg i off a _ Ha. apply some_inj in Ha. subst a. split; [exact Hg|]. split; [|left; reflexivity].
  cbn [a_chunks a_etag concat]. rewrite app_nil_r. apply prefix_refl.
Qed.

Lemma serve_one_honest e : good_etag e -> honest_source demo_content (serve_one e (demo_content e)).
Proof.
  intros Hg i off a _ Ha. apply some_inj in Ha. subst a. split; [exact Hg|]. split; [|left; reflexivity].
  cbn [a_chunks a_etag concat]. rewrite app_nil_r. apply prefix_firstn, prefix_refl.
Qed.

Lemma good1 : good_etag [49%N]. Proof. split; [discriminate|reflexivity]. Qed.
Lemma good2 : good_etag [50%N]. Proof. split; [discriminate|reflexivity]. Qed.

(* Version 1 broken off after a byte; then version 2 crashes right after the stale part file
   is removed; then version 2 in full. *)
Definition demo_history : list pcall :=
  [ PCall calm (serve_one [49%N] [65; 66; 67]%N) [] [] (-1);
    PCall (fun k _ => match k with ORmSide => EvCrash 1 | _ => EvOk end) (serve [50%N] [88; 89; 90]%N) [] [] (-1);
    PCall calm (serve [50%N] [88; 89; 90]%N) [fun b => zlen b =? 3] [50%N] 3 ].

Example C16_hypotheses_met :
  Forall (honest_call demo_content) demo_history /\ part_inv demo_content nothing /\
  run_pulls (firstn 1 demo_history) nothing = Files None (Some [65%N]) (Some [49%N]) /\
  run_pulls (firstn 2 demo_history) nothing = Files None None None /\
  run_pulls demo_history nothing = Files (Some [88; 89; 90]%N) None None /\
  (* the broken pull resumed *)
  run_pulls (firstn 1 demo_history ++ [PCall calm (serve [49%N] [65; 66; 67]%N) [] [] (-1)]) nothing
    = Files (Some [65; 66; 67]%N) None None.
Proof.
  split; [|split; [|repeat split; vm_compute; reflexivity]].
  - unfold demo_history. constructor; [|constructor; [|constructor; [|constructor]]].
    + apply (serve_one_honest [49%N]), good1.
    + apply (serve_honest [50%N]), good2.
    + apply (serve_honest [50%N]), good2.
  - apply no_part_inv. reflexivity.
Qed.

(* C17 as stated is false: without ETags, a part file of one version is completed with the
   bytes of another and committed with a nil error. *)
Theorem C17_no_validators_mixes_refuted :
  exists w1 w2 c1 c2 b, one_version w1 (pc_src c1) /\ one_version w2 (pc_src c2) /\
    (exists n s', run_pull c2 (run_files (run_pull c1 nothing)) = Done PCommitted n s' /\ f_final s' = Some b) /\
    b <> w1 /\ b <> w2.
Proof.
  exists [65; 66; 67]%N, [88; 89; 90]%N,
    (PCall calm (serve_one [] [65; 66; 67]%N) [] [] (-1)),
    (PCall calm (serve [] [88; 89; 90]%N) [] [] (-1)), [65; 89; 90]%N.
  split; [|split; [|split; [|split; discriminate]]].
  - intros i off a _ Ha. apply some_inj in Ha. subst a. split; [|left; reflexivity].
    cbn [a_chunks concat]. rewrite app_nil_r. apply prefix_firstn, prefix_refl.
  - intros i off a _ Ha. apply some_inj in Ha. subst a. split; [|left; reflexivity].
    cbn [a_chunks concat]. rewrite app_nil_r. apply prefix_refl.
  - eexists _, _. split; vm_compute; reflexivity.
Qed.
Print Assumptions C17_no_validators_mixes_refuted.

(* Also with a source that has an ETag, when the part file was left by a source without:
   an unlabelled part file is trusted as soon as the caller's ETag matches the source's. *)
Theorem C17_unlabelled_part_trusted_refuted :
  exists w1 w2 c1 c2 b, one_version w1 (pc_src c1) /\
    pc_etag c2 = [50%N] /\ pc_src c2 = serve [50%N] w2 /\
    (exists n s', run_pull c2 (run_files (run_pull c1 nothing)) = Done PCommitted n s' /\ f_final s' = Some b) /\
    b <> w1 /\ b <> w2.
Proof.
  exists [65; 66; 67]%N, [88; 89; 90]%N,
    (PCall calm (serve_one [] [65; 66; 67]%N) [] [] (-1)),
    (PCall calm (serve [50%N] [88; 89; 90]%N) [] [50%N] (-1)), [65; 89; 90]%N.
  split; [|split; [reflexivity|split; [reflexivity|split; [|split; discriminate]]]].
  - intros i off a _ Ha. apply some_inj in Ha. subst a. split; [|left; reflexivity].
    cbn [a_chunks concat]. rewrite app_nil_r. apply prefix_firstn, prefix_refl.
  - eexists _, _. split; vm_compute; reflexivity.
Qed.
Print Assumptions C17_unlabelled_part_trusted_refuted.

(* What does hold: while the source does not change, ETags or not, only its bytes appear. *)
Theorem C17_unchanging_source_partial :
  forall w cs s, Forall (fun c => one_version w (pc_src c)) cs -> single w s -> single w (run_pulls cs s).
Proof. exact (fun w cs s H => run_pulls_single w cs H s). Qed.
Print Assumptions C17_unchanging_source_partial.

Example C17_hypotheses_met :
  let w := [65; 66; 67]%N in
  let cs := [ PCall calm (serve_one [] w) [] [] (-1);
              PCall (fun k _ => match k with ORename => EvCrash 0 | _ => EvOk end) (serve [] w) [] [] 3;
              PCall calm (serve [49%N] w) [] [] (-1) ] in
  Forall (fun c => one_version w (pc_src c)) cs /\ single w nothing /\
  run_pulls (firstn 2 cs) nothing = Files None (Some w) None /\ f_final (run_pulls cs nothing) = Some w.
Proof.
  split; [|split; [|split; vm_compute; reflexivity]].
  - constructor; [|constructor; [|constructor; [|constructor]]]; cbn [pc_src]; intros i off a _ Ha; apply some_inj in Ha; subst a;
      (split; [|left; reflexivity]); cbn [a_chunks concat]; rewrite app_nil_r;
      first [apply prefix_refl|apply prefix_firstn, prefix_refl].
  - left. split; [reflexivity|discriminate].
Qed.

(* C18: whatever the source, the hooks and the failures. An existing final file means that no
   file changes at all; otherwise the final file appears only by the committing rename. *)
Theorem C18_final_untouched :
  forall hooks src exp_etag exp_size e n s,
    match pull hooks src exp_etag exp_size e n s with
    | Done r _ s' => (f_final s <> None -> s' = s) /\ (r <> PCommitted -> f_final s' = f_final s)
    | Crashed s' => f_final s <> None -> s' = s
    end.
Proof. exact pull_final. Qed.
Print Assumptions C18_final_untouched.

(* C18: an existing file is reported as success only when its size is the expected one. *)
Theorem C18_existing_size_checked :
  forall hooks src exp_etag exp_size e n s, f_final s <> None ->
    match pull hooks src exp_etag exp_size e n s with
    | Done r _ s' => s' = s /\
        match r with
        | PExisting => exp_size < 0 \/ exists b, f_final s = Some b /\ zlen b = exp_size
        | PCommitted => False
        | PErr _ => True
        end
    | Crashed s' => s' = s
    end.
Proof. exact pull_existing. Qed.
Print Assumptions C18_existing_size_checked.

(* C18: a crash leaves the final name absent or complete: what is there was assembled from
   a whole answer that ended in io.EOF and agrees with the size that answer stated. *)
Theorem C18_crash_absent_or_complete :
  forall hooks src exp_etag exp_size e n s, f_final s = None ->
    match pull hooks src exp_etag exp_size e n s with
    | Done r _ s' => gpost (fun _ => True) src r s'
    | Crashed s' => gcrash (fun _ => True) src s'
    end.
Proof.
  intros hooks src exp_etag exp_size e n s Hf.
  apply (pull_grows (fun _ => True) src hooks exp_etag exp_size e n s); [|exact I|].
  - intros i off a _ _ p q _ _ _. exact I.
  - split; [exact Hf|auto].
Qed.
Print Assumptions C18_crash_absent_or_complete.

Example C18_hypotheses_met :
  let s := Files (Some [1; 2]%N) (Some [65%N]) (Some [49%N]) in
  f_final s <> None /\
  run_pull (PCall calm (serve [49%N] [65; 66; 67]%N) [] [] 2) s = Done PExisting 1 s /\
  run_pull (PCall calm (serve [49%N] [65; 66; 67]%N) [] [] 3) s = Done (PErr ESizeMismatch) 1 s /\
  run_pull (PCall (fun k _ => match k with ORename => EvErr 0 | _ => EvOk end) (serve [49%N] [65; 66; 67]%N) [] [] 3)
    nothing = Done (PErr ERename) 11 (Files None (Some [65; 66; 67]%N) (Some [49%N])).
Proof. split; [discriminate|]. repeat split; vm_compute; reflexivity. Qed.

(* C19, for non-empty files when no crash or write error falls into the rewriting of the
   sidecar: any history of pushes keeps the part file an initial part of the version its
   sidecar names, never touches a committed file, and commits whole files only. *)
Theorem C19_history_partial :
  forall content cs s,
    Forall (fun c => honest_push content c /\ uc_data c <> [] /\ side_safe (uc_env c)) cs ->
    part_inv content s ->
    part_inv content (run_pushes cs s) /\
    (f_final s <> None -> run_pushes cs s = s) /\
    (forall b, f_final s = None -> f_final (run_pushes cs s) = Some b -> exists c, In c cs /\ b = uc_data c).
Proof. exact (fun content cs s H => run_pushes_inv content cs H s). Qed.
Print Assumptions C19_history_partial.

Theorem C19_push_outcome_partial :
  forall content c n s,
    honest_push content c -> uc_data c <> [] -> side_safe (uc_env c) -> part_inv content s ->
    match push (uc_data c) (uc_rd c) (uc_etag c) (uc_size c) (uc_env c) n s with
    | Done r _ s' => push_post content c s r s'
    | Crashed s' => push_crash content c s s'
    end.
Proof. exact push_spec. Qed.
Print Assumptions C19_push_outcome_partial.

(* C19: a committed file is never replaced, whatever is pushed. *)
Theorem C19_committed_untouched :
  forall d rd etag size e n s, f_final s <> None ->
    match push d rd etag size e n s with
    | Done r _ s' => s' = s /\ r <> UCommitted
    | Crashed s' => s' = s
    end.
Proof. exact push_existing. Qed.
Print Assumptions C19_committed_untouched.

(* C19: a push that nothing disturbs leaves the file committed: a name that has none gets the
   pushed file and the part file is gone, one that has a file keeps it. *)
Theorem C19_undisturbed_push_partial :
  forall content c n s,
    honest_push content c -> uc_data c <> [] -> uc_env c = calm -> (forall off, snd (uc_rd c off) = true) ->
    (uc_size c < 0 \/ uc_size c = zlen (uc_data c)) -> part_inv content s ->
    exists r n' s', push (uc_data c) (uc_rd c) (uc_etag c) (uc_size c) calm n s = Done r n' s' /\
      (f_final s <> None -> r = UComplete /\ s' = s) /\
      (f_final s = None -> r = UCommitted /\ f_final s' = Some (uc_data c) /\ f_part s' = None).
Proof. exact push_calm. Qed.
Print Assumptions C19_undisturbed_push_partial.

Definition local (w : list byte) : Z -> list (list byte) * bool :=
  fun off => ([skipn (Z.to_nat off) w], true).

Definition upload (e : env) (etag w : list byte) : ucall := UCall e w (local w) etag (zlen w).

Lemma upload_honest e etag : good_etag etag -> honest_push demo_content (upload e etag (demo_content etag)).
Proof.
  intros Hg. split; [exact Hg|]. split; [reflexivity|]. intros off _. cbn [uc_rd upload local fst snd concat uc_data].
  rewrite app_nil_r. split; [apply prefix_refl|reflexivity].
Qed.

(* The disk fills up after one byte. *)
Definition write_one : env := fun k _ => match k with OWrite => EvErr 1 | _ => EvOk end.

Example C19_hypotheses_met :
  let cs := [ upload write_one [49%N] [65; 66; 67]%N; upload write_one [49%N] [65; 66; 67]%N;
              upload calm [50%N] [88; 89; 90]%N ] in
  Forall (fun c => honest_push demo_content c /\ uc_data c <> [] /\ side_safe (uc_env c)) cs /\
  run_pushes (firstn 2 cs) nothing = Files None (Some [65; 66]%N) (Some [49%N]) /\
  run_pushes cs nothing = Files (Some [88; 89; 90]%N) None None.
Proof.
  split; [|split; vm_compute; reflexivity].
  constructor; [|constructor; [|constructor; [|constructor]]].
  - split; [exact (upload_honest write_one [49%N] good1)|]. repeat split; discriminate.
  - split; [exact (upload_honest write_one [49%N] good1)|]. repeat split; discriminate.
  - split; [exact (upload_honest calm [50%N] good2)|]. repeat split; discriminate.
Qed.

Example C19_undisturbed_push_met :
  let c := upload calm [49%N] [65; 66; 67]%N in
  honest_push demo_content c /\ (forall off, snd (uc_rd c off) = true) /\ uc_size c = zlen (uc_data c) /\
  part_inv demo_content (Files None (Some [65; 66]%N) (Some [49%N])).
Proof.
  split; [exact (upload_honest calm [49%N] good1)|]. split; [reflexivity|]. split; [reflexivity|].
  intros p Hp _. cbn in Hp. apply some_inj in Hp. subst p. split; [exact (proj1 good1)|]. exists [67%N]. reflexivity.
Qed.

(* Pushing an empty file fails even when nothing goes wrong: nothing creates the part file
   that Commit renames. *)
Theorem C19_empty_push_fails_refuted :
  exists c, honest_push (fun _ => []) c /\ uc_env c = calm /\
    exists n, run_push c nothing = Done UErr n nothing.
Proof.
  exists (upload calm [49%N] []). split; [|split; [reflexivity|eexists; vm_compute; reflexivity]].
  split; [exact good1|]. split; [reflexivity|]. intros off _. cbn. rewrite skipn_nil.
  split; [apply prefix_refl|reflexivity].
Qed.
Print Assumptions C19_empty_push_fails_refuted.

(* Worse, after an interrupted push of another version it publishes that version's stale
   bytes and reports success. *)
Theorem C19_empty_push_publishes_stale_refuted :
  exists content c1 c2, honest_push content c1 /\ honest_push content c2 /\ uc_data c2 = [] /\
    exists n s' b, run_push c2 (run_files (run_push c1 nothing)) = Done UCommitted n s' /\
      f_final s' = Some b /\ b <> uc_data c2 /\ b <> uc_data c1.
Proof.
  exists demo_content, (upload write_one [49%N] [65; 66; 67]%N), (upload calm [51%N] []).
  split; [exact (upload_honest write_one [49%N] good1)|].
  split; [apply (upload_honest calm [51%N]); split; [discriminate|reflexivity]|]. split; [reflexivity|].
  eexists _, _, _. split; [vm_compute; reflexivity|]. split; [reflexivity|]. split; discriminate.
Qed.
Print Assumptions C19_empty_push_publishes_stale_refuted.

(* A crash while a resumed push rewrites its sidecar leaves the part file unlabelled; the
   next push, of another version, completes it and commits the mixture. *)
Theorem C19_torn_sidecar_mixes_refuted :
  exists content c1 c2 c3, Forall (fun c => honest_push content c /\ uc_data c <> []) [c1; c2; c3] /\
    (exists s, run_push c2 (run_files (run_push c1 nothing)) = Crashed s) /\
    exists n s' b, run_push c3 (run_pushes [c1; c2] nothing) = Done UCommitted n s' /\
      f_final s' = Some b /\ b <> uc_data c1 /\ b <> uc_data c2 /\ b <> uc_data c3.
Proof.
  exists demo_content, (upload write_one [49%N] [65; 66; 67]%N),
    (upload (fun k _ => match k with OSideOpen => EvCrash 1 | _ => EvOk end) [49%N] [65; 66; 67]%N),
    (upload calm [50%N] [88; 89; 90]%N).
  split; [|split].
  - constructor; [|constructor; [|constructor; [|constructor]]]; (split; [|discriminate]).
    + exact (upload_honest write_one [49%N] good1).
    + exact (upload_honest _ [49%N] good1).
    + exact (upload_honest calm [50%N] good2).
  - eexists. vm_compute. reflexivity.
  - eexists _, _, _. split; [vm_compute; reflexivity|]. split; [reflexivity|]. split; [discriminate|].
    split; discriminate.
Qed.
Print Assumptions C19_torn_sidecar_mixes_refuted.
