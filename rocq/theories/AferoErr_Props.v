(* C80: the errors of aferofs/synth name what stands in the way. *)
From Verif Require Import Common PathLex_Model PathLex_Proofs Afero_Model Afero_Spec Afero_Proofs AferoOps_Proofs Afero_Props AferoErr_Spec AferoErr_Proofs.
Open Scope nat_scope.

Ltac accs := apply validate_ok; [ords|vm_compute; reflexivity].
(* The sample tree, a/ closed to searching, and b/ closed to writing. *)
Definition shut_ops : list aop := ops ++ [AChmod (spell [na]) 384%N; AChmod (spell [nb]) 365%N].
Definition shut : afs := arun (new_fs 18 true) shut_ops.
Lemma shut_reachable : reachable shut.
Proof. now exists 18%N, true, shut_ops. Qed.

(* A name that is none, or whose last element is too long, is refused as such by every call but
   Mkdir, and nothing changes. *)
Theorem C80_bad_names : forall s n e, bad_name n e ->
  stat s n = inl e /\ (forall m, chmod s n m = (s, Some e)) /\ (forall m, mkdir_all s n m = (s, Some e)) /\
  (forall q m, open_file s n q m = (s, inl e)) /\ remove s n = (s, Some e) /\ remove_all s n = (s, Some e) /\
  (forall v, add_file s n v = (s, Some e)) /\ reallocate s n = (s, Some e) /\
  (forall n', rename s n n' = (s, Some e)) /\ (forall p, ordinary p -> acceptable p -> rename s (spell p) n = (s, Some e)).
Proof. exact bad_name_refused. Qed.
Print Assumptions C80_bad_names.
Example C80_bad_names_ex : bad_name [46%N; 46%N] EInval /\ bad_name (repeat 97%N 256) ENameTooLong.
Proof. split; apply validate_err; vm_compute; reflexivity. Qed.

(* Stat and Chmod: the first obstacle on the way, or that nothing is there. *)
Theorem C80_stat : forall s p e, ordinary p -> acceptable p -> stat s (spell p) = inl e <-> blocked s p e \/ absent s p e.
Proof. exact stat_err. Qed.
Print Assumptions C80_stat.
Example C80_stat_ex : acceptable [na; nb; nx] /\ stat sample (spell [na; nb; nx]) = inl ENotDir /\ stat shut (spell [na; nb]) = inl EAcces /\ stat sample (spell [nx; na]) = inl ENoEnt.
Proof. split; [accs|]. vm_compute. auto. Qed.

Theorem C80_chmod : forall s p m e, ordinary p -> acceptable p -> snd (chmod s (spell p) m) = Some e <-> blocked s p e \/ absent s p e.
Proof. exact chmod_err. Qed.
Print Assumptions C80_chmod.
Example C80_chmod_ex : acceptable [na; nb] /\ snd (chmod shut (spell [na; nb]) 0) = Some EAcces /\ snd (chmod shut (spell [nb; na]) 0) = None.
Proof. split; [accs|]. vm_compute. auto. Qed.

Theorem C80_mkdir : forall s p c perm e, ordinary (p ++ [c]) -> acceptable p -> snd (mkdir s (spell (p ++ [c])) perm) = Some e <-> mkdir_fault s p c e.
Proof. exact mkdir_err. Qed.
Print Assumptions C80_mkdir.
Example C80_mkdir_ex : ordinary ([nb] ++ [nx]) /\ acceptable [nb] /\ snd (mkdir shut (spell ([nb] ++ [nx])) 511) = Some EAcces /\ snd (mkdir sample (spell ([nb; na] ++ [nx])) 511) = Some ENotDir.
Proof. split; [ords|]. split; [accs|]. vm_compute. auto. Qed.

Theorem C80_mkdir_all : forall s p perm e, reachable s -> ordinary p -> acceptable p -> snd (mkdir_all s (spell p) perm) = Some e <-> mkdir_all_fault s p perm e.
Proof. exact (fun s p perm e R => mkdir_all_err s p perm e (reach_sound s R)). Qed.
Print Assumptions C80_mkdir_all.
Example C80_mkdir_all_ex : reachable shut /\ acceptable [na; nx] /\ snd (mkdir_all shut (spell [na; nx]) 511) = Some EAcces /\ snd (mkdir_all shut (spell [nb; na; nx]) 511) = Some ENotDir.
Proof. split; [exact shut_reachable|]. split; [accs|]. vm_compute. auto. Qed.

Theorem C80_open : forall s p c q perm e, reachable s -> ordinary (p ++ [c]) -> acceptable (p ++ [c]) ->
  snd (open_file s (spell (p ++ [c])) q perm) = inl e <-> blocked s (p ++ [c]) e \/ way_open s (p ++ [c]) /\ open_fault s p c q e.
Proof. exact open_err. Qed.
Print Assumptions C80_open.
Example C80_open_ex : reachable shut /\ acceptable ([nb] ++ [nx]) /\ snd (open_file shut (spell ([nb] ++ [nx])) w_create 438) = inl EAcces /\
  snd (open_file shut (spell ([nb] ++ [na])) w_create 438) = inl ERofs /\ snd (open_file shut (spell [na]) w_create 438) = inl EIsDir.
Proof. split; [exact shut_reachable|]. split; [accs|]. vm_compute. auto. Qed.

Theorem C80_remove : forall s p c e, reachable s -> ordinary (p ++ [c]) -> acceptable (p ++ [c]) ->
  snd (remove s (spell (p ++ [c]))) = Some e <-> blocked s (p ++ [c]) e \/ way_open s (p ++ [c]) /\ remove_fault s p c e.
Proof. exact remove_err. Qed.
Print Assumptions C80_remove.
Example C80_remove_ex : reachable shut /\ acceptable ([nb] ++ [na]) /\ snd (remove shut (spell ([nb] ++ [na]))) = Some EAcces /\ snd (remove shut (spell [nb])) = Some ENotEmpty /\ snd (remove shut (spell [nx])) = Some ENoEnt.
Proof. split; [exact shut_reachable|]. split; [accs|]. vm_compute. auto. Qed.

Theorem C80_remove_all : forall s p c e, reachable s -> ordinary (p ++ [c]) -> acceptable (p ++ [c]) ->
  snd (remove_all s (spell (p ++ [c]))) = Some e <-> remove_all_fault s p c e.
Proof. exact remove_all_err. Qed.
Print Assumptions C80_remove_all.
Example C80_remove_all_ex : reachable shut /\ acceptable ([] ++ [nb]) /\ snd (remove_all shut (spell ([] ++ [nb]))) = Some EAcces /\ snd (remove_all shut (spell [nx; na])) = None /\ snd (remove_all sample (spell [nb])) = None.
Proof. split; [exact shut_reachable|]. split; [accs|]. vm_compute. auto. Qed.

Theorem C80_rename : forall s o oc n nc e, ordinary (o ++ [oc]) -> acceptable (o ++ [oc]) -> ordinary (n ++ [nc]) -> acceptable (n ++ [nc]) -> o ++ [oc] <> n ++ [nc] ->
  snd (rename s (spell (o ++ [oc])) (spell (n ++ [nc]))) = Some e <-> rename_fault s o oc n nc e.
Proof. exact rename_err. Qed.
Print Assumptions C80_rename.
Example C80_rename_ex : acceptable ([] ++ [na]) /\ acceptable ([na] ++ [nx]) /\ snd (rename sample (spell ([] ++ [na])) (spell ([na] ++ [nx]))) = Some EInval /\
  snd (rename sample (spell [na]) (spell [nb; na])) = Some ENotDir /\ snd (rename sample (spell [nx]) (spell [na; nx])) = Some ENoEnt /\ snd (rename shut (spell [nb; na]) (spell [nx])) = Some EAcces.
Proof. split; [accs|]. split; [accs|]. vm_compute. auto. Qed.

Theorem C80_add_file : forall s p c v e, reachable s -> ordinary (p ++ [c]) -> acceptable p -> acceptable (p ++ [c]) ->
  snd (add_file s (spell (p ++ [c])) v) = Some e <-> add_file_fault s p v e.
Proof. exact add_file_err. Qed.
Print Assumptions C80_add_file.
Example C80_add_file_ex : reachable shut /\ acceptable [nb] /\ acceptable ([nb] ++ [nx]) /\ snd (add_file shut (spell ([nb] ++ [nx])) some_view) = Some EAcces /\ snd (add_file shut (spell ([nx] ++ [nx])) some_view) = None.
Proof. split; [exact shut_reachable|]. split; [accs|]. split; [accs|]. vm_compute. auto. Qed.

Theorem C80_reallocate : forall s p, ordinary p -> acceptable p ->
  (forall e, blocked s p e \/ absent s p e -> reallocate s (spell p) = (s, Some e)) /\
  (forall m, way_open s p -> shows s p = Some (DirEnt m) -> reallocate s (spell p) = (s, Some EBadf)).
Proof. exact realloc_err. Qed.
Print Assumptions C80_reallocate.
Example C80_reallocate_ex : acceptable [na] /\ snd (reallocate sample (spell [na])) = Some EBadf /\ snd (reallocate sample (spell [nb; na])) = None.
Proof. split; [accs|]. vm_compute. auto. Qed.

(* The code's own test of names is the one stated: it finds exactly those two faults. *)
Theorem C80_names : forall n, (exists e, bad_name n e) \/ exists p, ordinary p /\ acceptable p /\ n = spell p.
Proof. exact name_cases. Qed.
Print Assumptions C80_names.
Example C80_names_ex : acceptable [na; nb] /\ spell [na; nb] = [97%N; 47%N; 98%N].
Proof. split; [accs|reflexivity]. Qed.

(* Mkdir says whether a name exists in a directory that may not be searched. *)
Theorem C80_mkdir_reveals_refuted : ~ forall s p c perm m e, reachable s -> ordinary (p ++ [c]) -> acceptable (p ++ [c]) -> way_open s p -> shows s p = Some (DirEnt m) -> ~ may_search m ->
  snd (mkdir s (spell (p ++ [c])) perm) = Some e -> e = EAcces.
Proof.
  intros H. assert (EExist = EAcces) as E; [|discriminate].
  apply (H shut [na] nb 511%N 384%N EExist shut_reachable); [ords|accs| |vm_compute; reflexivity|discriminate|vm_compute; reflexivity].
  intros q c r E. destruct q as [|a q]; [|destruct q; discriminate]. exists 2147484159%N. split; vm_compute; reflexivity.
Qed.
Print Assumptions C80_mkdir_reveals_refuted.

(* MkdirAll makes the directory and then reports that it may not be searched. *)
Theorem C80_mkdir_all_made_refuted : ~ forall s p perm e, reachable s -> ordinary p -> shows s p = None -> snd (mkdir_all s (spell p) perm) = Some e -> shows (fst (mkdir_all s (spell p) perm)) p = None.
Proof.
  intros H. specialize (H sample [nx] 384%N EAcces sample_reachable). assert (Some (DirEnt 2147484032) = @None ent) as E; [|discriminate].
  transitivity (shows (fst (mkdir_all sample (spell [nx]) 384)) [nx]); [vm_compute; reflexivity|]. apply H; [ords|vm_compute; reflexivity|vm_compute; reflexivity].
Qed.
Print Assumptions C80_mkdir_all_made_refuted.

(* Mkdir takes a last element no other call will accept. *)
Theorem C80_mkdir_long_refuted : ~ forall s n perm e, reachable s -> bad_name n e -> snd (mkdir s n perm) = Some e.
Proof.
  intros H. specialize (H sample (repeat 97%N 256) 511%N ENameTooLong sample_reachable (proj2 C80_bad_names_ex)). vm_compute in H. discriminate.
Qed.
Print Assumptions C80_mkdir_long_refuted.
