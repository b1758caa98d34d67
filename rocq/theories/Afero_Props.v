(* C70: the synthetic file system of aferofs/synth as a tree of entries. *)
From Coq Require Import Permutation.
From Verif Require Import Common ContentRange_Model PathLex_Model PathLex_Proofs Afero_Model Afero_Spec Afero_Proofs AferoOps_Proofs AferoCalls_Proofs AferoMore_Proofs AferoMove_Proofs AferoViews_Proofs AferoFinal_Proofs.
From Verif Require Utf8_Spec.
Open Scope nat_scope.

(* Names for the examples: a, b, x. *)
Definition na : name := [97%N].
Definition nb : name := [98%N].
Definition nx : name := [120%N].
Definition w_create : oreq := {| o_acc := RdWr; o_create := true; o_excl := false; o_trunc := false; o_append := false |}.
Definition some_view : view := {| v_mode := Some 420%N; v_ro := true; v_data := [1%N; 2%N]; v_close_fails := false |}.
(* umask 022; a/ (0755), a/b (file, 0666), b/ (0700), b/a (file, a given view). *)
Definition ops : list aop :=
  [AMkdir na 511%N; AOpen (na ++ 47%N :: nb) w_create 438%N; AMkdirAll nb 448%N; AAddFile (nb ++ 47%N :: na) some_view].
Definition sample : afs := arun (new_fs 18 true) ops.
Lemma sample_reachable : reachable sample.
Proof. now exists 18%N, true, ops. Qed.
Lemma proper_byte c : c <> 47%N -> c <> 46%N -> proper [c].
Proof. intros H1 H2. split; [discriminate|]. split; [intros H; injection H as ->; contradiction|]. split; [discriminate|]. intros [H|[]]; exact (H1 H). Qed.
Lemma ord_na : proper na. Proof. apply proper_byte; discriminate. Qed.
Lemma ord_nb : proper nb. Proof. apply proper_byte; discriminate. Qed.
Lemma ord_nx : proper nx. Proof. apply proper_byte; discriminate. Qed.
Ltac ords := unfold ordinary; repeat (first [apply ord_na | apply ord_nb | apply ord_nx | constructor]).

(* No directory ever has two entries of one name, and the root stays a directory. *)
Theorem C70_names_unique : forall s, reachable s -> unique (a_root s) /\ exists m, shows s [] = Some (DirEnt m).
Proof. exact names_unique. Qed.
Print Assumptions C70_names_unique.
Example C70_names_unique_ex : reachable sample /\ shows sample [na; nb] = Some (FileEnt 438 0) /\ shows sample [nb; na] = Some (FileEnt 420 1) /\ shows sample [na] = Some (DirEnt (2147483648 + 493)).
Proof. split; [exact sample_reachable|]. vm_compute. auto. Qed.

(* Stat: exactly the entries of the tree, through directories that may be searched. *)
Theorem C70_stat : forall s p, reachable s -> ordinary p -> forall m, stat s (spell p) = inr m <->
  acceptable p /\ way_open s p /\
  ((exists v, shows s p = Some (FileEnt m v)) \/ exists k, shows s p = Some (DirEnt k) /\ forall i, N.testbit m i = (i <? 9)%N && N.testbit k i || (i =? 31)%N).
Proof. exact stat_all. Qed.
Print Assumptions C70_stat.
Example C70_stat_ex : ordinary [na; nb] /\ stat sample (spell [na; nb]) = inr 438%N /\ stat sample (spell [na; nx]) = inl ENoEnt.
Proof. split; [ords|]. vm_compute. auto. Qed.

(* Mkdir: when it succeeds, exactly when, and what it changes. *)
Theorem C70_mkdir : forall s p c perm s' e, reachable s -> ordinary (p ++ [c]) -> mkdir s (spell (p ++ [c])) perm = (s', e) ->
  (e = None <-> acceptable p /\ way_open s (p ++ [c]) /\ writable_parent s p /\ shows s (p ++ [c]) = None) /\
  (e <> None -> s' = s) /\
  (e = None ->
     (exists m, shows s' (p ++ [c]) = Some (DirEnt m) /\ masked (a_umask s) perm m) /\
     (forall q, q <> p ++ [c] -> shows s' q = shows s q) /\
     a_views s' = a_views s /\ a_closed s' = a_closed s /\ Permutation (views_in (a_root s')) (views_in (a_root s))).
Proof. exact (fun s p c perm s' e R O => mkdir_spec s p c perm (reach_sound s R) O s' e). Qed.
Print Assumptions C70_mkdir.
Example C70_mkdir_ex : ordinary ([na] ++ [nx]) /\ snd (mkdir sample (spell ([na] ++ [nx])) 511) = None /\ snd (mkdir sample (spell ([na] ++ [nb])) 511) = Some EExist.
Proof. split; [ords|]. vm_compute. auto. Qed.

(* Chmod changes the mode of that entry and nothing else. *)
Theorem C70_chmod : forall s p m s' e, reachable s -> ordinary p -> chmod s (spell p) m = (s', e) ->
  (e = None <-> acceptable p /\ way_open s p /\ shows s p <> None) /\
  (e <> None -> s' = s) /\
  (e = None -> (exists m' x, typed m m' /\ shows s p = Some x /\ shows s' p = Some (with_mode m' x)) /\ (forall q, q <> p -> shows s' q = shows s q) /\
     a_views s' = a_views s /\ a_closed s' = a_closed s /\ Permutation (views_in (a_root s')) (views_in (a_root s))).
Proof. exact (fun s p m s' e R O => chmod_spec s p m (reach_sound s R) O s' e). Qed.
Print Assumptions C70_chmod.
Example C70_chmod_ex : ordinary [na] /\ snd (chmod sample (spell [na]) 448) = None /\ shows (fst (chmod sample (spell [na]) 448)) [na; nb] = Some (FileEnt 438 0).
Proof. split; [ords|]. vm_compute. auto. Qed.

(* MkdirAll makes the missing directories of the path, with the masked mode, and nothing else,
   whether or not it succeeds. *)
Theorem C70_mkdir_all : forall s p perm s' e, reachable s -> ordinary p -> mkdir_all s (spell p) perm = (s', e) ->
  (forall q, ~ below q p -> shows s' q = shows s q) /\
  (forall q, below q p -> shows s' q = shows s q \/ shows s q = None /\ exists m, shows s' q = Some (DirEnt m) /\ masked (a_umask s) perm m) /\
  (e = None -> forall q, below q p -> exists m, shows s' q = Some (DirEnt m)) /\
  a_views s' = a_views s /\ a_closed s' = a_closed s /\ Permutation (views_in (a_root s')) (views_in (a_root s)) /\ a_umask s' = a_umask s /\ a_alloc s' = a_alloc s.
Proof. exact (fun s p perm s' e R O => mkdir_all_spec s p perm (reach_sound s R) O s' e). Qed.
Print Assumptions C70_mkdir_all.
Example C70_mkdir_all_ex : ordinary [na; nx; nb] /\ snd (mkdir_all sample (spell [na; nx; nb]) 511) = None /\ snd (mkdir_all sample (spell [na; nb; nx]) 511) = Some ENotDir.
Proof. split; [ords|]. vm_compute. auto. Qed.

(* OpenFile: a handle on what is there, within its permissions, the tree untouched; or a new
   empty file in a writable directory, all else untouched. An error changes nothing. *)
Theorem C70_open : forall s p c q perm s' h, reachable s -> ordinary (p ++ [c]) -> open_file s (spell (p ++ [c])) q perm = (s', inr h) ->
  acceptable (p ++ [c]) /\ way_open s (p ++ [c]) /\
  ((exists e m, shows s (p ++ [c]) = Some e /\ opens_as e h /\ (e = DirEnt m \/ exists v, e = FileEnt m v) /\ may_use (o_acc q) m /\
      a_root s' = a_root s /\ a_closed s' = a_closed s /\ o_excl q = false /\
      (e = DirEnt m -> o_acc q = RdOnly /\ o_trunc q = false) /\
      (o_trunc q = false -> a_views s' = a_views s) /\
      (o_trunc q = true -> length (a_views s') = length (a_views s) /\
         exists w v v', h = OFile w /\ nth_error (a_views s) w = Some v /\ nth_error (a_views s') w = Some v' /\ emptied v v' /\
           forall j, j <> w -> nth_error (a_views s') j = nth_error (a_views s) j)) \/
   (shows s (p ++ [c]) = None /\ o_create q = true /\ a_alloc s = true /\ writable_parent s p /\
      h = OFile (length (a_views s)) /\
      shows s' (p ++ [c]) = Some (FileEnt (N.land perm 511) (length (a_views s))) /\
      (forall t, t <> p ++ [c] -> shows s' t = shows s t) /\
      (exists v, a_views s' = a_views s ++ [v] /\ v_data v = [] /\ v_ro v = false) /\ a_closed s' = a_closed s /\
      Permutation (views_in (a_root s')) (length (a_views s) :: views_in (a_root s)))).
Proof. exact (fun s p c q perm s' h R => open_spec s p c q perm s' h (reach_sound s R)). Qed.
Print Assumptions C70_open.
Example C70_open_ex : ordinary ([na] ++ [nx]) /\ snd (open_file sample (spell ([na] ++ [nx])) w_create 384) = inr (OFile 2) /\ snd (open_file sample (spell ([na] ++ [nb])) w_create 384) = inr (OFile 0).
Proof. split; [ords|]. vm_compute. auto. Qed.

Theorem C70_open_error_changes_nothing : forall s n q perm s' e, open_file s n q perm = (s', inl e) -> s' = s.
Proof. exact open_fail. Qed.
Print Assumptions C70_open_error_changes_nothing.
Example C70_open_error_changes_nothing_ex : exists s', open_file sample (spell [nx; na]) w_create 384 = (s', inl ENoEnt).
Proof. eexists. vm_compute. reflexivity. Qed.

(* Remove takes one file or one empty directory out of a writable directory and closes its
   view; any other error than that of the Close changes nothing. *)
Theorem C70_remove : forall s p c s' e, reachable s -> ordinary (p ++ [c]) -> remove s (spell (p ++ [c])) = (s', e) ->
  ((e = None \/ e = Some EClosedWith) <-> acceptable (p ++ [c]) /\ way_open s (p ++ [c]) /\ writable_parent s p /\ shows s (p ++ [c]) <> None /\ emptyish s (p ++ [c])) /\
  (e = None \/ e = Some EClosedWith -> removed s s' (p ++ [c]) /\ (e = Some EClosedWith <-> closes_badly s (p ++ [c])) /\
     Permutation (views_in (a_root s) ++ a_closed s) (views_in (a_root s') ++ a_closed s')) /\
  (e <> None -> e <> Some EClosedWith -> s' = s) /\
  (e = Some ENoEnt -> acceptable (p ++ [c]) -> shows s (p ++ [c]) = None).
Proof. exact (fun s p c s' e R => remove_spec s p c s' e (reach_sound s R)). Qed.
Print Assumptions C70_remove.
Example C70_remove_ex : ordinary ([na] ++ [nb]) /\ snd (remove sample (spell ([na] ++ [nb]))) = None /\ a_closed (fst (remove sample (spell ([na] ++ [nb])))) = [0] /\ snd (remove sample (spell [na])) = Some ENotEmpty.
Proof. split; [ords|]. vm_compute. auto. Qed.

(* RemoveAll touches nothing outside its path, changes no entry, forgets no view, and when it
   succeeds leaves no file there. Directories it may leave. *)
Theorem C70_remove_all_partial : forall s p c s' e, reachable s -> ordinary (p ++ [c]) -> remove_all s (spell (p ++ [c])) = (s', e) ->
  thinned s s' (p ++ [c]) /\ (e = None -> forall q m v, below (p ++ [c]) q -> shows s' q <> Some (FileEnt m v)).
Proof. exact (fun s p c s' e R => remove_all_spec s p c s' e (reach_sound s R)). Qed.
Print Assumptions C70_remove_all_partial.
Example C70_remove_all_partial_ex : ordinary ([] ++ [na]) /\ snd (remove_all sample (spell ([] ++ [na]))) = None /\ shows (fst (remove_all sample (spell [na]))) [na; nb] = None /\ a_closed (fst (remove_all sample (spell [na]))) = [0].
Proof. split; [ords|]. vm_compute. auto. Qed.

(* The name is still there: removeAllFrom empties a directory and returns before removing it. *)
Theorem C70_remove_all_refuted : ~ forall s p c s', reachable s -> ordinary (p ++ [c]) -> remove_all s (spell (p ++ [c])) = (s', None) -> shows s' (p ++ [c]) = None.
Proof.
  intros H. assert (remove_all sample (spell ([] ++ [na])) = (fst (remove_all sample (spell [na])), None)) as E by (vm_compute; reflexivity).
  apply (H sample [] na _ sample_reachable) in E; [|ords]. vm_compute in E. discriminate.
Qed.
Print Assumptions C70_remove_all_refuted.

(* Rename between directories, the last name unchanged: the whole subtree moves. *)
Theorem C70_rename_partial : forall s o n c s', reachable s -> ordinary (o ++ [c]) -> ordinary (n ++ [c]) -> o <> n ->
  rename s (spell (o ++ [c])) (spell (n ++ [c])) = (s', None) ->
  shows s (o ++ [c]) <> None /\ ~ below (o ++ [c]) (n ++ [c]) /\ replaceable s (o ++ [c]) (n ++ [c]) /\ writable_parent s o /\ writable_parent s n /\
  (forall r, shows s' ((n ++ [c]) ++ r) = shows s ((o ++ [c]) ++ r)) /\
  (forall r, shows s' ((o ++ [c]) ++ r) = None) /\
  (forall q, ~ below (n ++ [c]) q -> ~ below (o ++ [c]) q -> shows s' q = shows s q) /\
  a_views s' = a_views s /\ a_closed s' = a_closed s.
Proof. exact rename_same. Qed.
Print Assumptions C70_rename_partial.
Example C70_rename_partial_ex : ordinary ([na] ++ [nb]) /\ ordinary ([nb] ++ [nb]) /\ snd (rename sample (spell ([na] ++ [nb])) (spell ([nb] ++ [nb]))) = None /\
  shows (fst (rename sample (spell ([na] ++ [nb])) (spell ([nb] ++ [nb])))) [nb; nb] = Some (FileEnt 438 0).
Proof. split; [ords|]. split; [ords|]. vm_compute. auto. Qed.

Theorem C70_rename_error_changes_nothing : forall s o n s' e, rename s o n = (s', Some e) -> s' = s.
Proof. exact rename_fail. Qed.
Print Assumptions C70_rename_error_changes_nothing.
Example C70_rename_error_changes_nothing_ex : exists s', rename sample (spell [na]) (spell [na; nx]) = (s', Some EInval).
Proof. eexists. vm_compute. reflexivity. Qed.

(* With another last name it lands under the old one: the new name is never made. *)
Theorem C70_rename_keeps_the_old_name : forall s o oc n nc s', reachable s -> ordinary (o ++ [oc]) -> ordinary (n ++ [nc]) -> oc <> nc ->
  rename s (spell (o ++ [oc])) (spell (n ++ [nc])) = (s', None) ->
  (forall r, shows s' ((n ++ [oc]) ++ r) = shows s ((o ++ [oc]) ++ r)) /\ shows s' (n ++ [nc]) = shows s (n ++ [nc]).
Proof. exact rename_stays. Qed.
Print Assumptions C70_rename_keeps_the_old_name.
Example C70_rename_keeps_the_old_name_ex : ordinary ([] ++ [na]) /\ ordinary ([] ++ [nx]) /\ snd (rename sample (spell ([] ++ [na])) (spell ([] ++ [nx]))) = None.
Proof. split; [ords|]. split; [ords|]. vm_compute. auto. Qed.

Theorem C70_rename_refuted : ~ forall s o oc n nc s', reachable s -> ordinary (o ++ [oc]) -> ordinary (n ++ [nc]) -> o ++ [oc] <> n ++ [nc] ->
  rename s (spell (o ++ [oc])) (spell (n ++ [nc])) = (s', None) -> shows s' (n ++ [nc]) = shows s (o ++ [oc]).
Proof.
  intros H. assert (rename sample (spell ([] ++ [na])) (spell ([] ++ [nx])) = (fst (rename sample (spell [na]) (spell [nx])), None)) as E by (vm_compute; reflexivity).
  apply (H sample [] na [] nx _ sample_reachable) in E; [|ords|ords|discriminate]. vm_compute in E. discriminate.
Qed.
Print Assumptions C70_rename_refuted.

(* It can destroy a directory that neither name mentions: Rename("a/b", "x") replaces "b". *)
Theorem C70_rename_destroys_refuted : ~ forall s o oc n nc s' q, reachable s -> ordinary (o ++ [oc]) -> ordinary (n ++ [nc]) ->
  rename s (spell (o ++ [oc])) (spell (n ++ [nc])) = (s', None) -> ~ below (o ++ [oc]) q -> ~ below (n ++ [nc]) q -> shows s' q = shows s q.
Proof.
  intros H. assert (rename sample (spell ([na] ++ [nb])) (spell ([] ++ [nx])) = (fst (rename sample (spell [na; nb]) (spell [nx])), None)) as E by (vm_compute; reflexivity).
  apply (H sample [na] nb [] nx _ [nb; na] sample_reachable) in E; [|ords|ords|intros [t Ht]; discriminate|intros [t Ht]; discriminate]. vm_compute in E. discriminate.
Qed.
Print Assumptions C70_rename_destroys_refuted.

(* AddFile: the file with its view, the missing parents, nothing else; what it replaces is closed. *)
Theorem C70_add_file : forall s p c v s' e, reachable s -> ordinary (p ++ [c]) -> add_file s (spell (p ++ [c])) v = (s', e) ->
  (forall q, ~ below q p -> ~ below (p ++ [c]) q -> shows s' q = shows s q) /\
  (forall q, below q p -> shows s' q = shows s q \/ shows s q = None /\ exists m, shows s' q = Some (DirEnt m) /\ masked (a_umask s) 511 m) /\
  (e = None ->
     (exists m, shows s' (p ++ [c]) = Some (FileEnt m (length (a_views s))) /\ (forall k, v_mode v = Some k -> m = k)) /\
     (forall b r, shows s' (p ++ [c] ++ b :: r) = None) /\ a_views s' = a_views s ++ [v] /\ writable_parent s' p /\
     (shows s (p ++ [c]) = None -> a_closed s' = a_closed s) /\
     (forall m w, shows s (p ++ [c]) = Some (FileEnt m w) -> a_closed s' = a_closed s ++ [w]) /\
     Permutation (account s') (length (a_views s) :: account s)) /\
  (e <> None -> (forall q, below (p ++ [c]) q -> shows s' q = shows s q) /\ a_closed s' = a_closed s).
Proof. exact add_file_all. Qed.
Print Assumptions C70_add_file.
Example C70_add_file_ex : ordinary ([na] ++ [nb]) /\ snd (add_file sample (spell ([na] ++ [nb])) some_view) = None /\ a_closed (fst (add_file sample (spell ([na] ++ [nb])) some_view)) = [0].
Proof. split; [ords|]. vm_compute. auto. Qed.

(* Reallocate: a fresh copy of the bytes under the old mode, nothing else changed; but the old
   view is closed twice. *)
Theorem C70_reallocate : forall s p c s', reachable s -> ordinary (p ++ [c]) -> reallocate s (spell (p ++ [c])) = (s', None) ->
  exists m m' i v v', shows s (p ++ [c]) = Some (FileEnt m i) /\ nth_error (a_views s) i = Some v /\
    shows s' (p ++ [c]) = Some (FileEnt m' (length (a_views s))) /\ typed m m' /\
    a_views s' = a_views s ++ [v'] /\ v_data v' = v_data v /\ v_ro v' = false /\
    (forall q, q <> p ++ [c] -> shows s' q = shows s q) /\
    a_closed s' = a_closed s ++ [i; i].
Proof. exact (fun s p c s' R => realloc_spec s p c s' (reach_sound s R)). Qed.
Print Assumptions C70_reallocate.
Example C70_reallocate_ex : ordinary ([nb] ++ [na]) /\ snd (reallocate sample (spell ([nb] ++ [na]))) = None /\ shows (fst (reallocate sample (spell ([nb] ++ [na])))) [nb; na] = Some (FileEnt 420 2).
Proof. split; [ords|]. vm_compute. auto. Qed.

(* Without Reallocate, no view is closed twice, and none is closed while a file still has it. *)
Theorem C70_views_closed_once_partial : forall umask alloc l, Forall calm l ->
  let s := arun (new_fs umask alloc) l in NoDup (views_in (a_root s) ++ a_closed s).
Proof. exact closed_once. Qed.
Print Assumptions C70_views_closed_once_partial.
Example C70_views_closed_once_partial_ex : Forall calm (ops ++ [ARemove (spell [na; nb])]) /\ a_closed (arun (new_fs 18 true) (ops ++ [ARemove (spell [na; nb])])) = [0].
Proof. split; [repeat constructor|vm_compute; reflexivity]. Qed.

Theorem C70_views_closed_once_refuted : ~ forall s, reachable s -> NoDup (a_closed s).
Proof.
  intros H. assert (reachable (arun (new_fs 18 true) (ops ++ [ARealloc (spell [nb; na])]))) as R by (now exists 18%N, true, (ops ++ [ARealloc (spell [nb; na])])).
  apply H in R. vm_compute in R. inversion R as [|a l Hi Hd]. apply Hi. now left.
Qed.
Print Assumptions C70_views_closed_once_refuted.

(* No step but Rename makes the tree forget a view without closing it. *)
Theorem C70_no_view_lost_partial : forall s o, reachable s -> keeps o ->
  forall i, In i (views_in (a_root s)) -> In i (views_in (a_root (astep s o))) \/ In i (a_closed (astep s o)).
Proof. exact not_lost. Qed.
Print Assumptions C70_no_view_lost_partial.
Example C70_no_view_lost_partial_ex : keeps (ARemoveAll (spell [na])) /\ views_in (a_root sample) = [0; 1] /\ views_in (a_root (astep sample (ARemoveAll (spell [na])))) = [1].
Proof. split; [exact I|]. vm_compute. auto. Qed.

Theorem C70_no_view_lost_refuted : ~ forall s o i, reachable s -> In i (views_in (a_root s)) -> In i (views_in (a_root (astep s o))) \/ In i (a_closed (astep s o)).
Proof.
  intros H. specialize (H sample (ARename (spell [na; nb]) (spell [nx])) 1 sample_reachable). vm_compute in H.
  destruct (H (or_intror (or_introl eq_refl))) as [[E|[]]|[]]. discriminate.
Qed.
Print Assumptions C70_no_view_lost_refuted.

(* The files it makes do not heed the umask. *)
Theorem C70_file_umask_refuted : ~ forall s p c q perm s' h m v, reachable s -> ordinary (p ++ [c]) -> shows s (p ++ [c]) = None ->
  open_file s (spell (p ++ [c])) q perm = (s', inr h) -> shows s' (p ++ [c]) = Some (FileEnt m v) -> N.land m (a_umask s) = 0%N.
Proof.
  intros H. specialize (H sample [] nx w_create 438%N (fst (open_file sample (spell [nx]) w_create 438)) (OFile 2) 438%N 2 sample_reachable).
  vm_compute in H. assert (18%N = 0%N) by (apply H; [ords|reflexivity|reflexivity|reflexivity]). discriminate.
Qed.
Print Assumptions C70_file_umask_refuted.

(* MkdirAll does not ask the parent's write permission. *)
Theorem C70_mkdir_all_unwritable_refuted : ~ forall s p c perm s', reachable s -> ordinary (p ++ [c]) -> mkdir_all s (spell (p ++ [c])) perm = (s', None) ->
  shows s (p ++ [c]) = None -> (exists m, shows s p = Some (DirEnt m)) -> writable_parent s p.
Proof.
  intros H. set (s := arun (new_fs 18 true) (ops ++ [AChmod (spell [na]) 365%N])).
  assert (reachable s) as R by (now exists 18%N, true, (ops ++ [AChmod (spell [na]) 365%N])).
  destruct (H s [na] nx 511%N (fst (mkdir_all s (spell [na; nx]) 511)) R) as (m & M1 & M2 & M3); [ords|vm_compute; reflexivity|vm_compute; reflexivity|exists 365%N; vm_compute; reflexivity|].
  vm_compute in M1. injection M1 as <-. vm_compute in M3. discriminate.
Qed.
Print Assumptions C70_mkdir_all_unwritable_refuted.

(* Mkdir takes names no call accepts again: ".." becomes an entry of the root. *)
Theorem C70_mkdir_names_refuted : ~ forall s n perm s', reachable s -> mkdir s n perm = (s', None) -> exists m, stat s' n = inr m.
Proof.
  intros H. destruct (H sample [46%N; 46%N] 511%N (fst (mkdir sample [46%N; 46%N] 511)) sample_reachable) as (m & M); [vm_compute; reflexivity|]. vm_compute in M. discriminate.
Qed.
Print Assumptions C70_mkdir_names_refuted.

(* Chmod lets a file call itself a directory. *)
Theorem C70_chmod_type_refuted : ~ forall s p m k v, reachable s -> ordinary p -> shows s p = Some (FileEnt k v) -> N.testbit k 31 = false ->
  forall k', stat (fst (chmod s (spell p) m)) (spell p) = inr k' -> N.testbit k' 31 = false.
Proof.
  intros H. specialize (H sample [na; nb] (2147483648 + 420)%N 438%N 0 sample_reachable). 
  assert (N.testbit (2147483648 + 420) 31 = false) as E by (apply H; [ords|vm_compute; reflexivity|vm_compute; reflexivity|vm_compute; reflexivity]). vm_compute in E. discriminate.
Qed.
Print Assumptions C70_chmod_type_refuted.
