(* C83: overlayfs: each call's error names what stands in the way. *)
From Verif Require Import Common ContentRange_Model Overlay_Model Overlay_Spec Overlay_Proofs OverlayOps_Proofs OverlayCalls_Proofs OverlayWorks_Proofs Overlay_Props OverlayOps_Props OverlayErr_Spec OverlayErr_Proofs.
Open Scope nat_scope.

(* Every call succeeds or fails with the one error the merged tree owes it, and a call that
   fails has done nothing. *)
Theorem C83_answers be s c : inv s -> usable be s c -> exists e, owes s c e /\ answered s (run_call be c s) e.
Proof. exact (call_answers be s c). Qed.
Print Assumptions C83_answers.

(* No call is owed two answers. *)
Theorem C83_one_answer s c e e' : wf s -> owes s c e -> owes s c e' -> e = e'.
Proof. exact (one_answer s c e e'). Qed.
Print Assumptions C83_one_answer.

(* A hard link to a directory is refused by the top backend; the directory may have been copied
   up, which does not show. *)
Theorem C83_link_of_a_directory be s o n : inv s -> reached be s o -> reached be s n -> visible_dir s o ->
  (shown s n -> hardlink be o n s = ([], s, Some EExist)) /\
  (missing s n -> err_opt (hardlink be o n s) = Some EOther /\ copied_on (fun a => under a o \/ above_of n a) s (end_of (hardlink be o n s))).
Proof. exact (link_of_dir be s o n). Qed.
Print Assumptions C83_link_of_a_directory.

(* A name whose parent is no directory: nothing is done, and the error says that something is
   missing or no directory. *)
Theorem C83_no_parent be s c k q : inv s -> name_of c = Some (k :: q) -> answers be s (k :: q) -> straight s (k :: q) -> ~ visible_dir s q ->
  match c with
  | CMkdirAll _ _ => True
  | CRemoveAll _ => remove_all be (k :: q) s = ([], s, None) \/ refused s (run_call be c s)
  | _ => refused s (run_call be c s)
  end.
Proof. exact (astray be s c k q). Qed.
Print Assumptions C83_no_parent.

(* The top has the directories d, d/e and a and the file d/f; a layer below has the file a, the
   directories d and e, the file e/f and the device n. *)
Definition nn : name := [110]%N.
Definition err_stack : stack :=
  [plain [([nd], ODir 493); ([ne; nd], ODir 493); ([nf; nd], OFile 420 1); ([na], ODir 493)];
   plain [([na], OFile 420 2); ([nd], ODir 493); ([ne], ODir 493); ([nf; ne], OFile 420 3); ([nn], OSpecial 420)]].
Definition answer (c : ocall) : option oerr := err_opt (run_call quiet c err_stack).
Definition straightb (s : stack) (p : path) : bool := forallb (fun i => forallb (fun a => negb (linkb s i a)) (above p)) (seq 0 (length s)).
Lemma straight_check s p : straightb s p = true -> straight s p.
Proof.
  unfold straightb. rewrite forallb_forall. intros H i a g Ha Hg. assert (Hi := at_len s i a _ Hg). specialize (H i). rewrite in_seq in H. specialize (H ltac:(lia)).
  rewrite forallb_forall in H. specialize (H a (proj2 (in_above a p) Ha)). unfold linkb in H. rewrite Hg in H. discriminate.
Qed.
Lemma err_reached p : straightb err_stack p = true -> (p = [] \/ exists m, visible err_stack (tl p) = Some (ODir m)) -> reached quiet err_stack p.
Proof. intros H P. split; [intros i a _ _; reflexivity|]. split; [apply straight_check, H|]. intros Hp. destruct P as [P|P]; [congruence|exact P]. Qed.
Example C83_met : inv err_stack /\ Forall (reached quiet err_stack) [[]; [nd]; [ne]; [na]; [nn]; [nf]; [ne; nd]; [nf; nd]; [na; nd]] /\
  map answer [CRemove []; CRemove [nf]; CRemove [nd]; CRemove [ne; nd]; CRemoveAll [nf]; CMkdir [nn] 493; CMkdir [nf] 493;
              CMkdirAll [na; nf; nd] 493; CMkdirAll [nf; na; nd] 493; COpen [nd] true false false 0; COpen [nf; nd] true true false 0; COpen [nn] false false false 0;
              COpen [nf] false false false 0; COpen [nf] true false false 420; CChmod [nn] 0; CChmod [nf] 0; CLink [nf; nd] [nf]; CLink [nn] [nf]; CLink [nf; nd] [nd]; CLink [nd] [nf]]
  = [Some EInval; Some ENotExist; Some ENotEmpty; None; None; Some EExist; None;
     Some ENotDir; None; Some EIsDir; Some EExist; Some EUnsupported;
     Some ENotExist; None; Some EUnsupported; Some ENotExist; None; Some EUnsupported; Some EExist; Some EOther] /\
  map (fun p => answer (CRename (fst p) (snd p)))
    [([], [nf]); ([nf], [ne]); ([nd], [ne; nd]); ([nd], [nf]); ([ne; nd], [nf]); ([ne; nd], [ne]); ([ne; nd], [nn]); ([nf; nd], [ne]); ([nf; nd], [nn]); ([nn], [nf]); ([nf; nd], [nf; nd])]
  = [Some EInval; Some ENotExist; Some EInval; Some EXDev; None; Some ENotEmpty; Some ENotDir; Some EIsDir; None; Some EUnsupported; None].
Proof.
  split; [apply inv_check; reflexivity|]. split.
  - repeat (constructor; [apply err_reached; [vm_compute; reflexivity|first [left; reflexivity|right; eexists; vm_compute; reflexivity]]|]). constructor.
  - split; vm_compute; reflexivity.
Qed.

(* A directory of which the top holds everything is refused as crossing layers when a layer
   below has a file of the same name, although nothing of that layer shows there. *)
Lemma alone_shows : forall q, under [na] q -> view err_stack 0 q = if path_eqb q [na] then Some (0, ODir 493) else None.
Proof.
  intros q [p ->]. induction p as [|c p IH]; [vm_compute; reflexivity|]. destruct (path_eqb ((c :: p) ++ [na]) [na]) eqn:E.
  - apply path_eqb_eq in E. apply (f_equal (@length _)) in E. rewrite app_length in E. cbn in E. lia.
  - clear E. assert (W : wf err_stack) by (apply wf_check; reflexivity). destruct p as [|d p].
    + cbn [app]. unfold view. cbn [length err_stack Nat.sub seq find]. 
      assert (O0 : offers err_stack 0 [c; na] 0 = false) by (cbn; rewrite ?andb_false_r; reflexivity).
      assert (O1 : offers err_stack 0 [c; na] 1 = false) by (cbn; rewrite ?andb_false_r; reflexivity).
      rewrite O0, O1. reflexivity.
    + destruct (view err_stack 0 ((c :: d :: p) ++ [na])) as [[j n]|] eqn:V; [|reflexivity]. exfalso.
      destruct (visible_ancestor err_stack ((d :: p) ++ [na]) _ j n W (proj2 (strictly_cons _ c _) (under_refl _)) V) as [i [m [_ V']]].
      rewrite IH in V'. destruct (path_eqb ((d :: p) ++ [na]) [na]) eqn:E; [|discriminate].
      apply path_eqb_eq in E. apply (f_equal (@length _)) in E. rewrite app_length in E. cbn in E. lia.
Qed.
Theorem C83_rename_of_own_directory_refuted : exists be s o n, inv s /\ usable be s (CRename o n) /\ visible_dir s o /\
  (forall q j x, under o q -> view s 0 q <> Some (S j, x)) /\ missing s n /\ err_opt (rename be o n s) = Some EXDev.
Proof.
  exists quiet, err_stack, [na], [nf]. destruct C83_met as [I [R _]]. rewrite Forall_forall in R. split; [exact I|].
  split; [split; apply R; cbn; tauto|]. split; [eexists; vm_compute; reflexivity|]. split; [|split; vm_compute; reflexivity].
  intros q j x Hq. rewrite (alone_shows q Hq). destruct (path_eqb q [na]); discriminate.
Qed.
Print Assumptions C83_rename_of_own_directory_refuted.
