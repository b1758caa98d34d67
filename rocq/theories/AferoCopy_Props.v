(* C91: filling an aferofs/synth tree from another file system. *)
From Coq Require Import Permutation.
From Verif Require Import Common PathLex_Model PathLex_Proofs Afero_Model Afero_Spec AferoErr_Spec AferoErr_Props AferoCopy_Model AferoCopy_Spec AferoCopy_Proofs Afero_Props.
Open Scope nat_scope.

(* Copy: every regular file of the source stands below the destination with its bytes and mode,
   read-only; directories above are there; nothing else changed. If the call fails each file is
   either there or the place is as it was. *)
Theorem C91_copy : forall s t sp d s' e, reachable s -> neat t -> ordinary sp -> ordinary d ->
  copy (Some t) (spell sp) (spell d) s = (s', e) -> grafted s s' (wants t d) (offered_below t d) (e = None).
Proof. exact copy_grafts. Qed.
Print Assumptions C91_copy.

(* When it succeeds: the source can be read through and no single AddFile into the tree as it was
   would have failed. *)
Theorem C91_copy_succeeds : forall s t sp d, reachable s -> neat t -> ordinary sp -> ordinary d -> acceptable sp -> acceptable d ->
  (forall r, listed_file t r -> callable (d ++ r)) ->
  (snd (copy (Some t) (spell sp) (spell d) s) = None <->
     ~ unlisted t /\ ~ misstated t /\ forall r m data e, offers t r m data -> ~ meets s (d ++ r) m data e).
Proof. exact copy_succeeds. Qed.
Print Assumptions C91_copy_succeeds.

(* What it says when it fails. *)
Theorem C91_copy_errors : forall s t sp d e, reachable s -> neat t -> ordinary sp -> ordinary d -> acceptable sp -> acceptable d ->
  (forall r, listed_file t r -> callable (d ++ r)) ->
  snd (copy (Some t) (spell sp) (spell d) s) = Some e ->
  e = CWalk /\ unlisted t \/ e = CRefer /\ misstated t \/ exists k r m data, e = CAdd k /\ offers t r m data /\ meets s (d ++ r) m data k.
Proof. exact copy_errors. Qed.
Print Assumptions C91_copy_errors.

(* A bad root name, or a source root that is not there, changes nothing. *)
Theorem C91_copy_roots : forall s src sroot droot,
  (forall e, bad_name sroot e -> copy src sroot droot s = (s, Some (CSrcRoot e))) /\
  ((forall e, ~ bad_name sroot e) -> forall e, bad_name droot e -> copy src sroot droot s = (s, Some (CDstRoot e))) /\
  ((forall e, ~ bad_name sroot e) -> (forall e, ~ bad_name droot e) -> copy None sroot droot s = (s, Some CWalk)).
Proof. exact copy_roots. Qed.
Print Assumptions C91_copy_roots.

(* MapFsIter: the same for destinations none of which lies at or below another. *)
Theorem C91_map_partial : forall s src l s' e, reachable s -> Forall (fun e => ordinary (snd e) /\ snd e <> []) l -> ForallOrdPairs apart (map snd l) ->
  map_iter src (map (fun e => (fst e, spell (snd e))) l) s = (s', e) -> grafted s s' (named l) (offered_by src l) (e = None).
Proof. exact map_grafts. Qed.
Print Assumptions C91_map_partial.

Theorem C91_map_succeeds_partial : forall s src l, reachable s -> Forall (fun e => ordinary (snd e) /\ snd e <> []) l -> ForallOrdPairs apart (map snd l) ->
  Forall (fun e => callable (snd e)) l ->
  (snd (map_iter src (map (fun e => (fst e, spell (snd e))) l) s) = None <->
     forall k p, In (k, p) l -> exists m data, stated src k m data /\ forall e, ~ meets s p m data e).
Proof. exact map_succeeds. Qed.
Print Assumptions C91_map_succeeds_partial.

(* A source: "b" and "x/a" are files, "x/x" a link, "a" an empty directory; copied from "x" to "a"
   of a tree whose "a/b" is a file. *)
Definition source : snode :=
  SDir true [(na, SDir true []); (nb, SLeaf 0 (Some 420%N) [1%N]); (nx, SDir true [(na, SLeaf 0 (Some 256%N) [2%N; 3%N]); (nx, SLeaf 134217728 (Some 420%N) [4%N])])].
Ltac neats :=
  first [apply N_leaf
        |apply N_dir; [repeat (apply NoDup_cons; [cbn; intuition discriminate|]); apply NoDup_nil
                      |intros ?c ?x H; cbn in H; repeat (destruct H as [H|H]; [injection H as <- <-; split; [first [apply ord_na|apply ord_nb|apply ord_nx]|neats]|]); destruct H]].
Lemma source_neat : neat source.
Proof. unfold source. neats. Qed.
Example C91_copy_ex : reachable sample /\ neat source /\ ordinary [nx] /\ ordinary [na] /\
  (let (s', e) := copy (Some source) (spell [nx]) (spell [na]) sample in
   e = None /\ shows sample [na; nb] = Some (FileEnt 438 0) /\ a_views s' = a_views sample ++ [made 420 [1%N]; made 256 [2%N; 3%N]] /\
   shows s' [na; nb] = Some (FileEnt 420 (length (a_views sample))) /\ shows s' [na; nx; na] = Some (FileEnt 256 (S (length (a_views sample)))) /\
   shows s' [na; nx; nx] = None /\ shows s' [na; na] = None).
Proof. split; [exact sample_reachable|]. split; [exact source_neat|]. split; [ords|]. split; [ords|]. vm_compute. auto 10. Qed.
Example C91_copy_fails_ex :
  snd (copy (Some (SDir true [(na, SLeaf 0 (Some 420%N) []); (nb, SDir false [])])) (spell []) (spell [nx]) sample) = Some CWalk /\
  shows (fst (copy (Some (SDir true [(na, SLeaf 0 (Some 420%N) []); (nb, SDir false [])])) (spell []) (spell [nx]) sample)) [nx; na] = Some (FileEnt 420 (length (a_views sample))) /\
  snd (copy (Some source) (spell [nx]) (spell [na; nb]) sample) = Some (CAdd ENotDir).
Proof. vm_compute. auto. Qed.
Example C91_copy_succeeds_ex : acceptable [nx] /\ acceptable [na] /\ (forall r, listed_file source r -> callable ([na] ++ r)).
Proof.
  split; [accs|]. split; [accs|].
  intros r L. destruct (listed_leaf _ _ L) as (v & Lv). destruct (jobs_leaf source source_neat [na] true r v (fun _ => proj1 L) Lv) as [K|K].
  - change (In (Put ([na] ++ r) v) [Put [na; nb] (Some (made 420 [1%N])); Put [na; nx; na] (Some (made 256 [2%N; 3%N]))]) in K. destruct K as [K|[K|[]]]; injection K as E _; cbn [app]; rewrite <- E.
    + exists [na], nb. split; [reflexivity|]. split; accs.
    + exists [na; nx], na. split; [reflexivity|]. split; accs.
  - vm_compute in K. destruct K as [K|[K|[]]]; discriminate.
Qed.
Definition by_name (k : name) : option snode := src_at source [k].
Example C91_map_ex : ForallOrdPairs apart (map snd [(nb, [nx; nb]); (nb, [na])]) /\
  (let (s', e) := map_iter by_name (map (fun e => (fst e, spell (snd e))) [(nb, [nx; nb]); (nb, [na])]) sample in
   e = None /\ shows s' [nx; nb] = Some (FileEnt 420 (length (a_views sample))) /\ shows s' [na; nb] = None).
Proof.
  split; [|vm_compute; auto]. cbn. repeat constructor; intros [r E]; discriminate.
Qed.

(* Finding: given a file as srcRoot Copy returns nil and copies nothing. *)
Theorem C91_copy_of_a_file_refuted : ~ forall s m data sp d s', reachable s -> regular m -> ordinary sp -> ordinary d ->
  copy (Some (SLeaf 0 (Some m) data)) (spell sp) (spell d) s = (s', None) -> exists p, new_file s s' p m data.
Proof.
  intros H. destruct (H sample 420%N [1%N] [nb] [nx] sample sample_reachable) as (p & i & v & _ & A & B & _); [apply is_regular_iff; reflexivity|ords|ords|vm_compute; reflexivity|].
  assert (nth_error (a_views sample) i <> None) as X by congruence. apply nth_error_Some in X. lia.
Qed.
Print Assumptions C91_copy_of_a_file_refuted.

(* Finding: the source's empty directories are not there afterwards. *)
Theorem C91_copy_of_directories_refuted : ~ forall s t sp d s' r es, reachable s -> neat t -> ordinary sp -> ordinary d ->
  copy (Some t) (spell sp) (spell d) s = (s', None) -> src_at t r = Some (SDir true es) -> exists m, shows s' (d ++ r) = Some (DirEnt m).
Proof.
  intros H. destruct (H sample source [nx] [na] (fst (copy (Some source) (spell [nx]) (spell [na]) sample)) [na] [] sample_reachable source_neat) as (m & M); [ords|ords|vm_compute; reflexivity|reflexivity|]. vm_compute in M. discriminate.
Qed.
Print Assumptions C91_copy_of_directories_refuted.

(* Finding: a mapping that names a file and then its directory succeeds and loses the file. *)
Theorem C91_map_of_nested_names_refuted : ~ forall s src l s', reachable s -> Forall (fun e => ordinary (snd e) /\ snd e <> []) l -> NoDup (map snd l) ->
  map_iter src (map (fun e => (fst e, spell (snd e))) l) s = (s', None) -> forall p, named l p -> exists m data, offered_by src l p m data /\ new_file s s' p m data.
Proof.
  intros H. destruct (H sample by_name [(nb, [nx; nb]); (nb, [nx])] (fst (map_iter by_name [(nb, spell [nx; nb]); (nb, spell [nx])] sample)) sample_reachable) with (p := [nx; nb]) as (m & data & _ & i & v & M & _).
  - repeat constructor; try discriminate; (apply ord_nx || apply ord_nb).
  - repeat constructor; cbn; intuition discriminate.
  - vm_compute. reflexivity.
  - exists nb. now left.
  - vm_compute in M. discriminate.
Qed.
Print Assumptions C91_map_of_nested_names_refuted.
