(* C62: bringing a name up into the top of an overlay, whatever the backend answers and
   wherever the process dies. *)
From Verif Require Import Common ContentRange_Model TempName_Model Overlay_Model Overlay_Spec CopyUp_Model CopyUp_Spec CopyUp_Proofs CopyUpRun_Proofs.
Open Scope nat_scope.

(* The name holds nothing, or the whole of what the layer below has; no error that the
   backend reported truly leaves it held. *)
Theorem C62_name_absent_or_whole : forall umask now stage content, apart stage content -> forall src p w s w' s' r,
  p <> [] -> get (k_fs w) (p ++ content) = None -> copy_up umask now stage content src p w s = (w', s', r) ->
  (get (k_fs w') (p ++ content) = None \/ exists x y, s_lstat src p = Some x /\ get (k_fs w') (p ++ content) = Some y /\ copy_of umask now x y) /\
  (r = Val tt -> get (k_fs w') (p ++ content) <> None) /\
  (r = Err -> Forall not_late s -> get (k_fs w') (p ++ content) = None).
Proof. exact whole_or_absent. Qed.
Print Assumptions C62_name_absent_or_whole.
(* The process dies between two writes of the data: the name holds nothing, the temporary a part. *)
Example C62_name_absent_or_whole_ex :
  let w' := fst (fst (copy_up 18 7 [s_work] [s_merged] (a_source (IFile 420 5 [1;2;3]%N)) [[102]%N] fresh [Done 0; Done 0; Done 0; Refused; Done 1])) in
  snd (copy_up 18 7 [s_work] [s_merged] (a_source (IFile 420 5 [1;2;3]%N)) [[102]%N] fresh [Done 0; Done 0; Done 0; Refused; Done 1]) = Died /\
  get (k_fs w') [[102]%N; s_merged] = None /\ get (k_fs w') (next_tmp [s_work] fresh) = Some (IFile 420 7 [1;2]%N).
Proof. repeat split. Qed.

(* Nothing the top had is changed, and nothing appears but the name, directories on the way
   to it and the one temporary. *)
Theorem C62_adds_nothing_else : forall umask now stage content, apart stage content -> forall src p w s w' s' r,
  p <> [] -> get (k_fs w) (p ++ content) = None -> copy_up umask now stage content src p w s = (w', s', r) ->
  only_adds content p (next_tmp stage w) (k_fs w) (k_fs w').
Proof. exact adds_only. Qed.
Print Assumptions C62_adds_nothing_else.

(* With a backend that does what it is asked the copy-up succeeds, and name and parents are
   as below, permissions and times included. *)
Theorem C62_served_succeeds : forall umask now stage content, apart stage content -> forall src p w s w' s' r x,
  p <> [] -> get (k_fs w) (p ++ content) = None -> Forall done s ->
  is_dir_in (k_fs w) content -> is_dir_in (k_fs w) stage -> clear_way content p (k_fs w) -> get (k_fs w) (next_tmp stage w) = None ->
  s_lstat src p = Some x -> (forall m, x <> ISpecial m) -> 5 * length p + bytes_of (Some x) + 11 < length s ->
  copy_up umask now stage content src p w s = (w', s', r) -> r = Val tt.
Proof. exact succeeds. Qed.
Print Assumptions C62_served_succeeds.

Theorem C62_served_copy_is_exact : forall umask now stage content, apart stage content -> forall src p w s w' s',
  p <> [] -> get (k_fs w) (p ++ content) = None -> Forall done s -> copy_up umask now stage content src p w s = (w', s', Val tt) ->
  (exists x y, s_lstat src p = Some x /\ get (k_fs w') (p ++ content) = Some y /\ exact_copy x y) /\
  (forall a, passes p a -> get (k_fs w) (a ++ content) = None ->
     match s_stat src a with
     | Some (m, t) => get (k_fs w') (a ++ content) = Some (IDir (N.land m 511) t)
     | None => exists t, get (k_fs w') (a ++ content) = Some (IDir (N.ldiff 511 umask) t)
     end).
Proof. exact exact_when_served. Qed.
Print Assumptions C62_served_copy_is_exact.
Definition deep : source :=
  {| s_lstat := fun p => match p with [[102]; [100]]%N => Some (IFile 2541 5 [1;2;3]%N) | _ => None end;
     s_stat := fun p => match p with [[100]]%N => Some (511%N, 6%Z) | _ => None end |}.
Example C62_served_copy_is_exact_ex :
  apart [s_work] [s_merged] /\ is_dir_in (k_fs fresh) [s_merged] /\ is_dir_in (k_fs fresh) [s_work] /\ clear_way [s_merged] [[102]; [100]]%N (k_fs fresh) /\
  get (k_fs fresh) (next_tmp [s_work] fresh) = None /\
  let '(w', _, r) := copy_up 18 7 [s_work] [s_merged] deep [[102]; [100]]%N fresh (served 30) in
  r = Val tt /\ get (k_fs w') [[102]%N; [100]%N; s_merged] = Some (IFile 493 5 [1;2;3]%N) /\ get (k_fs w') [[100]%N; s_merged] = Some (IDir 511 6) /\
  get (k_fs w') (next_tmp [s_work] fresh) = None.
Proof.
  split; [exact layout_apart|]. split; [right; exists 493%N, 0%Z; reflexivity|]. split; [right; exists 493%N, 0%Z; reflexivity|].
  split; [|vm_compute; repeat split]. intros a [H1 (c & t & H2)]. left.
  destruct a as [|x [|y a]]; [contradiction| |apply (f_equal (@length _)) in H2; cbn in H2; rewrite app_length in H2; cbn in H2; lia].
  change (c :: t ++ [x]) with ((c :: t) ++ [x]) in H2. change [[102]; [100]]%N with ([[102]%N] ++ [[100]%N]) in H2. apply app_inj_tail in H2 as [_ <-]. reflexivity.
Qed.

(* When a copy-up fails and the last call, the removal of the temporary, is served, no
   temporary is left. *)
Theorem C62_failed_copy_leaves_no_temp : forall umask now stage content, apart stage content -> forall src p w s k w',
  p <> [] -> get (k_fs w) (p ++ content) = None -> get (k_fs w) (next_tmp stage w) = None ->
  copy_up umask now stage content src p w (s ++ [Done k]) = (w', [], Err) -> get (k_fs w') (next_tmp stage w) = None.
Proof. exact cleans_up. Qed.
Print Assumptions C62_failed_copy_leaves_no_temp.
(* The rename into place is refused; the temporary is removed. *)
Example C62_failed_copy_leaves_no_temp_ex :
  let '(w', s', r) := copy_up 18 7 [s_work] [s_merged] (a_source (IFile 420 5 [1;2;3]%N)) [[102]%N] fresh (served 7 ++ [Refused] ++ [Done 0]) in
  s' = [] /\ r = Err /\ k_fs w' = k_fs fresh.
Proof. repeat split. Qed.

(* Temporaries of one overlay never meet: from an empty staging directory, whatever was
   copied up before and however it ended, the next temporary's name is free. *)
Theorem C62_temporaries_never_meet : forall umask now stage content l w, apart stage content -> k_next w = 0%N -> emptied (k_fs w) stage ->
  Forall (sparing stage) l -> (N.of_nat (copies l) < 18446744073709551615)%N ->
  get (k_fs (acts umask now stage content w l)) (next_tmp stage (acts umask now stage content w l)) = None.
Proof. exact names_free. Qed.
Print Assumptions C62_temporaries_never_meet.
(* Two copy-ups that failed with their temporaries left behind. *)
Example C62_temporaries_never_meet_ex :
  let stuck := Copy (a_source (IFile 420 5 [1;2;3]%N)) [[102]%N] [Done 0; Done 0; Done 0; Refused; Late 2; Refused; Refused] in
  let w := acts 18 7 [s_work] [s_merged] fresh [stuck; Other (fun f => f); stuck] in
  k_next w = 2%N /\ length (entries (k_fs w) [s_work]) = 2.
Proof. repeat split. Qed.

(* New: nothing outside work is changed, nothing appears but the layout's two directories,
   and on success both are there, work is empty and the counter at its start. *)
Theorem C62_new_sweeps_work_only : forall umask now w s w' s' r, plain (k_fs w) -> new umask now w s = (w', s', r) ->
  (forall q x, ~ strictly_under [s_work] q -> get (k_fs w) q = Some x -> get (k_fs w') q = Some x) /\
  (forall q, get (k_fs w) q = None -> get (k_fs w') q <> None -> (q = [s_merged] \/ q = [s_work]) /\ exists m t, get (k_fs w') q = Some (IDir m t)) /\
  (r = Val tt -> k_next w' = 0%N /\ is_dir_in (k_fs w') [s_merged] /\ is_dir_in (k_fs w') [s_work] /\ (standing [s_work] (k_fs w) -> emptied (k_fs w') [s_work])).
Proof. exact new_spec. Qed.
Print Assumptions C62_new_sweeps_work_only.

(* Whatever became of a copy-up, after the next New the top is what it was plus, at most, the
   name whole and directories on the way, and where the name is missing the copy-up can be
   made again. *)
Theorem C62_restart_recovers : forall umask now src p w s1 w1 t1 r1 s2 w2 t2,
  p <> [] -> plain (k_fs w) -> standing [s_work] (k_fs w) -> is_dir_in (k_fs w) [s_merged] -> is_dir_in (k_fs w) [s_work] -> get (k_fs w) (p ++ [s_merged]) = None ->
  copy_up umask now [s_work] [s_merged] src p w s1 = (w1, t1, r1) -> new umask now w1 s2 = (w2, t2, Val tt) ->
  emptied (k_fs w2) [s_work] /\
  (forall q x, ~ strictly_under [s_work] q -> get (k_fs w) q = Some x -> get (k_fs w2) q = Some x) /\
  (forall q, get (k_fs w) q = None -> get (k_fs w2) q <> None ->
     q = p ++ [s_merged] \/ exists a, passes p a /\ q = a ++ [s_merged] /\ exists m t, get (k_fs w2) q = Some (IDir m t)) /\
  (get (k_fs w2) (p ++ [s_merged]) = None \/ exists x y, s_lstat src p = Some x /\ get (k_fs w2) (p ++ [s_merged]) = Some y /\ copy_of umask now x y) /\
  (forall x s3 w3 t3 r3, get (k_fs w2) (p ++ [s_merged]) = None -> clear_way [s_merged] p (k_fs w) -> s_lstat src p = Some x -> (forall m, x <> ISpecial m) ->
     Forall done s3 -> 5 * length p + bytes_of (Some x) + 11 < length s3 -> copy_up umask now [s_work] [s_merged] src p w2 s3 = (w3, t3, r3) ->
     r3 = Val tt /\ exists y, get (k_fs w3) (p ++ [s_merged]) = Some y /\ exact_copy x y).
Proof. exact restarts. Qed.
Print Assumptions C62_restart_recovers.
Example C62_restart_recovers_ex :
  plain (k_fs fresh) /\ standing [s_work] (k_fs fresh) /\
  let '(w1, _, r1) := copy_up 18 7 [s_work] [s_merged] deep [[102]; [100]]%N fresh (served 8 ++ [Refused; Done 1]) in
  r1 = Died /\ length (entries (k_fs w1) [s_work]) = 1 /\
  let '(w2, _, r2) := new 18 8 w1 (served 9) in
  r2 = Val tt /\ entries (k_fs w2) [s_work] = [] /\
  let '(w3, _, r3) := copy_up 18 9 [s_work] [s_merged] deep [[102]; [100]]%N w2 (served 30) in
  r3 = Val tt /\ get (k_fs w3) [[102]%N; [100]%N; s_merged] = Some (IFile 493 5 [1;2;3]%N).
Proof.
  split; [intros n t [->| ->]; discriminate|]. split; [|vm_compute; repeat split].
  intros c q x (a & b & ->) H. exfalso. destruct b; cbn in H; rewrite ?andb_false_r in H; discriminate.
Qed.

(* Nothing is synced: after a copy-up that succeeded the loss of power may leave the name
   with part of the data. *)
Theorem C62_power_loss_refuted : exists src p x w s w' s' n, s_lstat src p = Some x /\ get (k_fs w) (p ++ [s_merged]) = None /\ Forall done s /\ (forall q, In q (k_loose w) -> get (k_fs w) q = None) /\
  copy_up 18 7 [s_work] [s_merged] src p w s = (w', s', Val tt) /\
  exists y, get (power_loss n w') (p ++ [s_merged]) = Some y /\ ~ copy_of 18 7 x y.
Proof. exact loss_cuts. Qed.
Print Assumptions C62_power_loss_refuted.

(* Failing to set permissions or time is dropped: success need not mean an exact copy. *)
Theorem C62_attributes_may_differ_refuted : exists src p x w s w' s' y, s_lstat src p = Some x /\ get (k_fs w) (p ++ [s_merged]) = None /\
  copy_up 18 7 [s_work] [s_merged] src p w s = (w', s', Val tt) /\ get (k_fs w') (p ++ [s_merged]) = Some y /\ ~ exact_copy x y.
Proof. exact attrs_dropped. Qed.
Print Assumptions C62_attributes_may_differ_refuted.

(* Where work is a symlink to merged, New succeeds and empties the content tree. *)
Theorem C62_linked_work_refuted : exists w s w' s' q x, new 18 7 w s = (w', s', Val tt) /\ strictly_under [s_merged] q /\ get (k_fs w) q = Some x /\ get (k_fs w') q = None.
Proof. exact linked_work_wiped. Qed.
Print Assumptions C62_linked_work_refuted.
