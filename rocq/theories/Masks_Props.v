(* C51: the overlay's masking in memory equals the masking in its store. *)
From Verif Require Import Common ContentRange_Model PathLex_Model PathLex_Proofs TempName_Model Overlay_Model Masks_Model Masks_Spec Masks_Proofs MasksPaths_Proofs.
Open Scope nat_scope.

Definition na := [97%N].            (* "a" *)
Definition nab := [97; 47; 98]%N.   (* "a/b" *)
Definition nadot := [97; 46]%N.     (* "a." *)
Definition nazero := [97; 48]%N.    (* "a0" *)
Definition ndirty := [47; 46; 46; 47; 97; 47; 47; 98; 47]%N. (* "/../a//b/" *)

(* After any history of mark changes with any names, each cut short after any number of
   commits, and restarts, the maps hold exactly what a restart would load; the table has one
   row a name, clean names only and no row without a mark. *)
Theorem C51_masks_equal_store t es : kept t -> reported_since true es = true ->
  in_step (mrun (opened t) es) /\ kept (disk (mrun (opened t) es)).
Proof. exact (masks_in_step t es). Qed.
Print Assumptions C51_masks_equal_store.

Definition ex_history : list mevent :=
  [MCall (MSetWh ndirty) 1 false; MCall (MSetOp nazero) 1 false; MCall (MSetOp nadot) 1 false; MCall (MSetOp nab) 0 false;
   MRestart; MCall (MSetOp na) 1 false; MCall (MRenameSubtree na nazero) 1 false; MCall (MSetWh na) 1 false].
Example C51_masks_ex :
  kept [] /\ reported_since true ex_history = true /\
  m_wh (mem (mrun (opened []) ex_history)) = [na; nazero ++ 47%N :: [98%N]] /\
  m_op (mem (mrun (opened []) ex_history)) = [nadot; nazero].
Proof. split; [split; [constructor|split; constructor]|]. vm_compute. auto. Qed.

(* The table stays well kept even when a transaction reported failed reached the disk. *)
Theorem C51_table_well_kept t es : kept t -> kept (disk (mrun (opened t) es)).
Proof. exact (table_always_kept t es). Qed.
Print Assumptions C51_table_well_kept.

Example C51_table_ex : kept [] /\
  disk (mrun (opened []) [MCall (MSetWh na) 0 true; MCall (MSetOp nab) 1 false]) =
  [{| r_path := na; r_wh := true; r_op := false |}; {| r_path := nab; r_wh := false; r_op := true |}].
Proof. split; [split; [constructor|split; constructor]|]. reflexivity. Qed.

(* FINDING: if a commit takes effect but is reported failed, the running overlay and a
   restarted one mask differently. *)
Theorem C51_unreported_commit_refuted : exists es, ~ in_step (mrun (opened []) es).
Proof. exact unreported_commit. Qed.
Print Assumptions C51_unreported_commit_refuted.

(* Everything that reads the maps answers as it would after a restart, whatever the layers
   below; the walk up from a name always ends. *)
Theorem C51_restart_changes_no_answer t es ms n : kept t -> reported_since true es = true ->
  let w := mrun (opened t) es in
  marks_of (mem w) n = marks_of (new_mask (disk w)) n /\
  masked_under (mem w) n = masked_under (new_mask (disk w)) n /\
  (forall from, ncut_from (mem w :: ms) n from = ncut_from (new_mask (disk w) :: ms) n from /\ ncut_from (mem w :: ms) n from <> None) /\
  nchild_cut (mem w :: ms) n = nchild_cut (new_mask (disk w) :: ms) n /\
  (forall i, nwhiteout_above (mem w :: ms) i n = nwhiteout_above (new_mask (disk w) :: ms) i n).
Proof. exact (history_views t es ms n). Qed.
Print Assumptions C51_restart_changes_no_answer.

Example C51_answers_ex :
  ncut_from [mem (mrun (opened []) ex_history); {| m_wh := []; m_op := [] |}] nab 0 = Some 0 /\
  ncut_from [mem (mrun (opened []) ex_history); {| m_wh := []; m_op := [] |}] [98%N] 0 = Some 1.
Proof. split; reflexivity. Qed.

(* The SQL range delete and the prefix scan in memory pick the same names, for every pair of
   byte strings. *)
Theorem C51_range_is_prefix n p : in_range n p = under n p.
Proof. exact (in_range_under n p). Qed.
Print Assumptions C51_range_is_prefix.

Example C51_range_ex : in_range na nab = true /\ in_range na nazero = false /\ in_range na nadot = false /\ in_range na na = false /\
  in_range [] na = true /\ in_range [] [] = false.
Proof. repeat split. Qed.

(* What each transaction changes in the table, and what it leaves. *)
Theorem C51_set_whiteout_rows n t x : row_at (st_set_wh n t) x =
  if bytes_eqb (clean_name n) x then (true, false) else if under (clean_name n) x then (false, false) else row_at t x.
Proof. exact (row_set_wh n t x). Qed.
Print Assumptions C51_set_whiteout_rows.

Theorem C51_set_opaque_rows n t x : row_at (st_set_op n t) x =
  if bytes_eqb (clean_name n) x then (fst (row_at t x), true) else row_at t x.
Proof. exact (row_set_op n t x). Qed.
Print Assumptions C51_set_opaque_rows.

Theorem C51_clear_whiteout_rows n t x : NoDup (map r_path t) -> row_at (st_clear_wh n t) x =
  if bytes_eqb (clean_name n) x then (false, snd (row_at t x)) else row_at t x.
Proof. exact (row_clear_wh n t x). Qed.
Print Assumptions C51_clear_whiteout_rows.

Theorem C51_clear_opaque_rows n t x : NoDup (map r_path t) -> row_at (st_clear_op n t) x =
  if bytes_eqb (clean_name n) x then (fst (row_at t x), false) else row_at t x.
Proof. exact (row_clear_op n t x). Qed.
Print Assumptions C51_clear_opaque_rows.

Example C51_rows_ex :
  st_clear_wh ndirty [{| r_path := nab; r_wh := true; r_op := true |}; {| r_path := na; r_wh := true; r_op := false |}] =
    [{| r_path := nab; r_wh := false; r_op := true |}; {| r_path := na; r_wh := true; r_op := false |}] /\
  st_set_wh na [{| r_path := nab; r_wh := true; r_op := true |}; {| r_path := nazero; r_wh := true; r_op := false |}] =
    [{| r_path := nazero; r_wh := true; r_op := false |}; {| r_path := na; r_wh := true; r_op := false |}].
Proof. split; reflexivity. Qed.

(* The strings stand for the component names of Overlay_Model: reading the maps along the
   string gives what Overlay_Model reads along the components. *)
Theorem C51_names_read_alike ls ms p : Forall2 stands_layer ls ms -> nameable p ->
  (forall from, ncut_from ms (key p) from = Some (cut_from ls p from)) /\
  nchild_cut ms (key p) = Some (child_cut ls p) /\
  (forall i, nwhiteout_above ms i (key p) = whiteout_above ls i p).
Proof. exact (names_read ls ms p). Qed.
Print Assumptions C51_names_read_alike.

(* And every mutator goes through the same states on strings as on components: with k commits
   before a failure the maps stand for the stack k steps into Overlay_Model's call, and the
   call fails exactly when k is less than the steps it takes. *)
Theorem C51_calls_step_alike b c s w k : Forall nameable (pcall_names c) -> stands_top s (mem w) ->
  snd (run_pcall c s) = None /\
  stands_top (after_steps s (run_pcall c s) k) (mem (fst (run_mcall b (spelled c) w k))) /\
  (snd (run_mcall b (spelled c) w k) = None <-> k < length (steps_of (run_pcall c s))).
Proof. exact (calls_stand b c s w k). Qed.
Print Assumptions C51_calls_step_alike.

Definition ex_layer : layer := {| l_tree := []; l_wh := [[[98%N]; [97%N]]; [[99%N]]]; l_op := [[[98%N]; [98%N]; [97%N]]] |}.
Definition ex_mask : mask := {| m_wh := [[99%N]; nab]; m_op := [nab ++ 47%N :: [98%N]] |}.
Lemma ex_proper x : In x [97%N; 98%N; 99%N] -> proper [x].
Proof. intros [<- | [<- | [<- | []]]]; (split; [discriminate|split; [discriminate|split; [discriminate|]]]); intros [H|[]]; discriminate. Qed.
Lemma ex_stands : stands_layer ex_layer ex_mask.
Proof.
  assert (N : forall p : path, Forall (fun c => exists x, c = [x] /\ In x [97%N; 98%N; 99%N]) p -> nameable p).
  { intros p H. eapply Forall_impl; [|exact H]. intros c (x & -> & Hx). apply ex_proper. exact Hx. }
  split; (split; [|split; [|split]]); cbn.
  - constructor; [intros [H|[]]; discriminate|]. constructor; [intros []|constructor].
  - constructor; [|constructor; [|constructor]]; apply N; repeat (constructor; [eexists; split; [reflexivity|cbn; auto]|]); constructor.
  - constructor; [intros [H|[]]; discriminate|]. constructor; [intros []|constructor].
  - intros n. cbn. tauto.
  - constructor; [intros []|constructor].
  - constructor; [|constructor]; apply N; repeat (constructor; [eexists; split; [reflexivity|cbn; auto]|]); constructor.
  - constructor; [intros []|constructor].
  - intros n. cbn. tauto.
Qed.
Example C51_stands_ex :
  stands_layer ex_layer ex_mask /\ nameable [[98%N]; [97%N]] /\
  ncut_from [ex_mask; {| m_wh := []; m_op := [] |}] nab 0 = Some 0 /\
  length (steps_of (run_pcall (PRenameSubtree [[97%N]] [[100%N]]) [ex_layer])) = 4 /\
  mem (fst (run_mcall false (MRenameSubtree na [100%N]) {| disk := []; mem := ex_mask |} 2)) =
    {| m_wh := [[100; 47; 98]%N; [99%N]; nab]; m_op := [[100; 47; 98; 47; 98]%N; nab ++ 47%N :: [98%N]] |}.
Proof.
  split; [exact ex_stands|]. split; [constructor; [apply ex_proper; cbn; auto|constructor; [apply ex_proper; cbn; auto|constructor]]|].
  split; [reflexivity|]. split; reflexivity.
Qed.
