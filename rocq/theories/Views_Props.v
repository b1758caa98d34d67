(* C35: a prefix view stays below its prefix. C36: a read-only view changes nothing. *)
From Verif Require Import Common ContentRange_Model PathLex_Model PathLex_Proofs Views_Model Views_Spec Views_Proofs.
Open Scope Z_scope.

(* Every forwarded path is the prefix followed by the elements of the argument; only names
   that stay inside are forwarded; RemoveAll of the view's root is not. *)
Theorem C35_forwarded_paths_stay_below is_dir pre prefix c c' : pp_new is_dir pre = Some prefix -> pp_call prefix c = Some c' ->
  same_call c c' /\ Forall (below prefix) (paths_of c') /\ Forall inside (paths_of c) /\
  paths_of c' = map (fun n => render (rooted prefix) (elems prefix ++ elems n)) (paths_of c) /\ ~ removes_root c.
Proof. exact (pp_confined is_dir pre prefix c c'). Qed.
Print Assumptions C35_forwarded_paths_stay_below.

Theorem C35_inside_calls_are_forwarded is_dir pre prefix c : pp_new is_dir pre = Some prefix -> Forall inside (paths_of c) -> ~ removes_root c -> exists c', pp_call prefix c = Some c'.
Proof. exact (pp_complete is_dir pre prefix c). Qed.
Print Assumptions C35_inside_calls_are_forwarded.

Definition na : list byte := [97%N].
Definition p_ex : list byte := [112%N; sep; 113%N].
Example C35_hypotheses_met : pp_new (fun _ => true) (p_ex ++ [sep; dot; sep]) = Some p_ex /\
  pp_call p_ex (VRename [97%N; sep; sep; 98%N; sep; dot; dot; sep; 99%N] na) = Some (VRename (p_ex ++ [sep; 97%N; sep; 99%N]) (p_ex ++ sep :: na)) /\
  pp_call p_ex (V1 Open [97%N; sep; dot; dot; sep; dot; dot]) = None /\ pp_call p_ex (V1 Open (sep :: na)) = None.
Proof. repeat split. Qed.

(* Remove of the view's own root reaches the prefix directory. *)
Theorem C35_remove_of_root_is_forwarded_refuted : forall prefix, pp_call prefix (V1 Remove [dot]) = Some (V1 Remove prefix).
Proof. exact (fun prefix => eq_refl). Qed.
Print Assumptions C35_remove_of_root_is_forwarded_refuted.

(* No history of calls makes a changing call, whatever the platform's flag values. *)
Theorem C36_only_reads_reach_the_inner_fs : forall (W C : Type) (exec : W -> icall -> W * option nat) (content : W -> C) fl,
  (forall w ic, reads_only fl ic -> content (fst (exec w ic)) = content w) ->
  forall cs w s l w', ro_run exec fl w s cs = (l, w') -> Forall (reads_only fl) l /\ content w' = content w.
Proof. exact @ro_run_reads. Qed.
Print Assumptions C36_only_reads_reach_the_inner_fs.

Theorem C36_reads_are_passed_on fl h : (forall o, reads_only fl (IRoot h o) -> ro_root fl h o = Some (IRoot h o)) /\
  (forall o, reads_only fl (IFile h o) -> ro_file h o = IFile h o).
Proof. exact (conj (ro_root_passes fl h) (ro_file_passes fl h)). Qed.
Print Assumptions C36_reads_are_passed_on.

Definition linux_flags : oflags := {| f_wronly := 1; f_rdwr := 2; f_append := 1024; f_create := 64; f_trunc := 512 |}.
(* A file system that counts writing calls: handles are numbered as they are opened. *)
Definition ex_exec (w : nat * nat) (ic : icall) : (nat * nat) * option nat :=
  match ic with
  | IRoot _ (FOpen | FOpenRoot | FOpenFile _) => ((S (fst w), snd w), Some (fst w))
  | IFile _ (HWrite | HTruncate) => ((fst w, S (snd w)), None)
  | _ => (w, None)
  end.
Example C36_hypotheses_met : (forall w ic, reads_only linux_flags ic -> snd (fst (ex_exec w ic)) = snd w) /\
  ro_run ex_exec linux_flags (1, 0)%nat {| roots := [0%nat]; files := [] |}
    [CRoot 0 FOpenRoot; CRoot 1 (FOpenFile 0); CRoot 1 (FOpenFile 514); CFile 0 HWrite; CFile 0 HRead; CRoot 0 FRemoveAll] =
    ([IRoot 0 FOpenRoot; IRoot 1 (FOpenFile 0); IFile 2 HName; IFile 2 HRead], (3, 0)%nat).
Proof. split; [|reflexivity]. intros w [h o|h o] H; destruct o; cbn in *; try contradiction; reflexivity. Qed.
