(* C34: a walk reports everything reachable once and ends on link cycles. *)
From Verif Require Import Common ContentRange_Model PathLex_Model PathLex_Proofs Views_Spec Walk_Model Walk_Spec Walk_Proofs.
Open Scope Z_scope.

(* When the directories met have keys out of a finite set, the walk ends for every callback. *)
Theorem C34_walk_ends fs follow fn root D fuel : keyed fs follow root D -> (length D < fuel)%nat -> exists l e, walk_dir fs follow fn fuel root = Some (l, e).
Proof. exact (walk_dir_terminates fs follow fn root D fuel). Qed.
Print Assumptions C34_walk_ends.

(* With a callback that goes on or leaves out, the calls made are those of the reachable places:
   SkipDir for a directory, or for the failure to list it, leaves out what is in it, and for
   anything else the entries after it in its directory. *)
Theorem C34_reports_what_is_reachable fs follow d root fuel l e : goes_on d -> steady fs follow (enters d) root -> w_lstat fs root <> None ->
  walk_dir fs follow (fun _ c => d c) fuel root = Some (l, e) ->
  e = None /\ forall c, In c l <-> exists v, reachable fs follow (enters d) root v /\ reports fs follow (enters d) v c.
Proof. exact (walk_dir_exact fs follow d root fuel l e). Qed.
Print Assumptions C34_reports_what_is_reachable.

(* No path is reported twice, for every callback. *)
Theorem C34_once_per_path fs follow fn root fuel l e : proper_listings fs -> walk_dir fs follow fn fuel root = Some (l, e) -> NoDup (succeeded l).
Proof. exact (walk_dir_once fs follow fn root fuel l e). Qed.
Print Assumptions C34_once_per_path.

(* SkipAll and errors end the walk at once, and are what is returned. *)
Theorem C34_stops_when_told fs follow fn root fuel l e : walk_dir fs follow fn fuel root = Some (l, e) ->
  exists rt, obeys fn [] l rt /\ e = match rt with Fail x => Some x | _ => None end.
Proof. exact (walk_dir_obeys fs follow fn root fuel l e). Qed.
Print Assumptions C34_stops_when_told.

(* A directory a holding a link a/l to the top, and a file b beside a. *)
Definition dname : list byte := [dot].
Definition aname : list byte := [97%N].
Definition bname : list byte := [98%N].
Definition lname : list byte := [108%N].
Definition al : list byte := [97%N; sep; 108%N].
Definition idir : winfo := {| i_dir := true; i_link := false; i_id := 1 |}.
Definition ifile : winfo := {| i_dir := false; i_link := false; i_id := 2 |}.
Definition ilink : winfo := {| i_dir := false; i_link := true; i_id := 3 |}.
Definition ex_lstat (p : list byte) : option winfo :=
  if bytes_eqb p dname || bytes_eqb p aname then Some idir else if bytes_eqb p bname then Some ifile else if bytes_eqb p al then Some ilink else None.
Definition ex_readdir (p : list byte) : list (list byte) * bool :=
  if bytes_eqb p dname || bytes_eqb p al then ([aname; bname], false) else if bytes_eqb p aname then ([lname], true) else ([], false).
Definition ex_fs : wfs :=
  {| w_lstat := ex_lstat; w_stat := fun p => if bytes_eqb p al then Some idir else ex_lstat p; w_readdir := ex_readdir;
     w_resolve := fun _ _ => (Some dname, 1); w_ident := fun _ _ _ => None |}.
Definition ex_d (c : wcall) : wret := Cont.
Definition ex_keys : list wkey := [KPath dname; KPath aname].
Definition ex_visits : list visit :=
  [ start dname idir;
    {| v_path := aname; v_real := aname; v_info := idir; v_chain := [KPath dname]; v_left := 40 |};
    {| v_path := bname; v_real := bname; v_info := ifile; v_chain := [KPath dname]; v_left := 40 |};
    {| v_path := al; v_real := al; v_info := ilink; v_chain := [KPath aname; KPath dname]; v_left := 40 |} ].

Lemma ex_closed enter v v1 : In v ex_visits -> child_of ex_fs true enter v v1 -> In v1 ex_visits.
Proof.
  intros Hv Hc. inversion Hc as [r i left pre name post ci He _ Hsp _ Hl]; subst. destruct He as (Hs & Hd & _ & Hk).
  assert (In name (fst (w_readdir ex_fs (v_path v)))) as Hi by (rewrite Hsp; apply in_or_app; right; left; reflexivity). clear Hsp.
  destruct Hv as [<-|[<-|[<-|[<-|[]]]]]; cbn in Hi.
  - inversion Hs; subst; cbn in *; try discriminate. destruct Hi as [<-|[<-|[]]]; cbn in Hl; apply CommonLemmas.some_inj in Hl; subst; cbn; auto.
  - inversion Hs; subst; cbn in *; try discriminate. destruct Hi as [<-|[]]; cbn in Hl; apply CommonLemmas.some_inj in Hl; subst; cbn; auto.
  - contradiction.
  - exfalso. inversion Hs; subst; cbn in *; try discriminate. assert (r = dname) as -> by congruence. cbn in Hk. apply Hk. auto.
Qed.
Lemma ex_reachable enter v : reachable ex_fs true enter dname v -> In v ex_visits.
Proof.
  intros (i & Hi & Hd). assert (In (start dname i) ex_visits) as H0 by (cbn in Hi; apply CommonLemmas.some_inj in Hi; subst; left; reflexivity).
  clear Hi. induction Hd as [|v v1 v2 Hc Hd IH]; [exact H0|]. apply IH. eapply ex_closed; eauto.
Qed.

Example C34_hypotheses_met : keyed ex_fs true dname ex_keys /\ goes_on ex_d /\ steady ex_fs true (enters ex_d) dname /\ proper_listings ex_fs /\
  walk_dir ex_fs true (fun _ c => ex_d c) 3 dname =
    Some ([ok_call dname dname idir; ok_call aname aname idir; err_call aname aname None; ok_call al dname idir; ok_call bname bname ifile], None).
Proof.
  split; [|split; [|split; [|split]]].
  - intros v r i left Hr Hs Hd. apply ex_reachable in Hr. destruct Hr as [<-|[<-|[<-|[<-|[]]]]]; inversion Hs; subst; cbn in *; try discriminate.
    + eexists. split; [reflexivity|]. cbn. auto.
    + eexists. split; [reflexivity|]. cbn. auto.
    + assert (r = dname) as -> by congruence. eexists. split; [reflexivity|]. cbn. auto.
  - intros c. left. reflexivity.
  - intros v r i left name Hr (Hs & Hd & _ & Hk) Hi. apply ex_reachable in Hr. destruct Hr as [<-|[<-|[<-|[<-|[]]]]]; cbn in Hi; try contradiction.
    + destruct Hi as [<-|[<-|[]]]; discriminate.
    + destruct Hi as [<-|[]]; discriminate.
    + exfalso. inversion Hs; subst; cbn in *; try discriminate. assert (r = dname) as -> by congruence. cbn in Hk. apply Hk. auto.
  - intros p. assert (forall b : byte, b <> sep -> b <> dot -> proper [b]) as Hp by (intros b H1 H2; repeat split; try discriminate; intros E; [congruence|destruct E as [E|[]]; congruence]).
    unfold ex_fs, w_readdir, ex_readdir.
    destruct (bytes_eqb p dname || bytes_eqb p al); [|destruct (bytes_eqb p aname)]; cbn; split;
      repeat (apply Forall_cons; [apply Hp; discriminate|]); try apply Forall_nil; repeat (apply NoDup_cons; [intros Hx; cbn in Hx; intuition discriminate|]); apply NoDup_nil.
  - reflexivity.
Qed.

(* Leaving out: b comes before a and is no directory, so a is not reported; and a is a
   directory with an entry, which is not reported. *)
Definition rev_fs : wfs :=
  {| w_lstat := ex_lstat; w_stat := ex_lstat; w_readdir := fun p => (rev (fst (ex_readdir p)), false);
     w_resolve := fun _ _ => (Some dname, 1); w_ident := fun _ _ _ => None |}.
Definition skips (n : list byte) (c : wcall) : wret := if bytes_eqb (c_path c) n then SkipDir else Cont.
Example C34_leaving_out_met : (forall n, goes_on (skips n)) /\
  walk_dir rev_fs true (fun _ c => skips bname c) 3 dname = Some ([ok_call dname dname idir; ok_call bname bname ifile], None) /\
  walk_dir rev_fs true (fun _ c => skips aname c) 3 dname = Some ([ok_call dname dname idir; ok_call bname bname ifile; ok_call aname aname idir], None).
Proof. split; [intros n c; unfold skips; destruct (bytes_eqb (c_path c) n); auto|]. split; reflexivity. Qed.

(* A name that is gone when looked at: although the callback ignores the error, the names
   after it are never reported. *)
Definition lost_fs : wfs :=
  {| w_lstat := fun p => if bytes_eqb p aname then None else ex_lstat p; w_stat := ex_lstat; w_readdir := ex_readdir;
     w_resolve := fun _ _ => (Some dname, 1); w_ident := fun _ _ _ => None |}.
Theorem C34_ignored_error_hides_siblings_refuted : exists fs d root fuel l v c,
  goes_on d /\ w_lstat fs root <> None /\ walk_dir fs true (fun _ c => d c) fuel root = Some (l, None) /\
  reachable fs true (enters d) root v /\ reports fs true (enters d) v c /\ c_err c = false /\ ~ In c l.
Proof.
  exists lost_fs, ex_d, dname, 3%nat, [ok_call dname dname idir; err_call aname aname None].
  exists {| v_path := bname; v_real := bname; v_info := ifile; v_chain := [KPath dname]; v_left := 40 |}, (ok_call bname bname ifile).
  split; [intros c; left; reflexivity|]. split; [discriminate|]. split; [reflexivity|]. split.
  - exists idir. split; [reflexivity|]. eapply DChild; [|apply DHere]. apply (Child lost_fs true (enters ex_d) (start dname idir) dname idir 40 [aname] bname [] ifile); [|reflexivity|reflexivity| |reflexivity].
    2: { intros n nci _ _ [(? & ? & ? & _ & _ & X)|(? & _ & X)]; discriminate X. }
    split; [apply (SPlain lost_fs true (start dname idir)); reflexivity|]. split; [reflexivity|]. split; [reflexivity|]. cbn. intros [].
  - split; [|split; [reflexivity|intros [H|[H|[]]]; discriminate]]. apply (RShown lost_fs true (enters ex_d) {| v_path := bname; v_real := bname; v_info := ifile; v_chain := [KPath dname]; v_left := 40 |} bname ifile 40).
    apply (SPlain lost_fs true {| v_path := bname; v_real := bname; v_info := ifile; v_chain := [KPath dname]; v_left := 40 |}). reflexivity.
Qed.
Print Assumptions C34_ignored_error_hides_siblings_refuted.

(* Answering SkipDir for a lost name ends the loop one directory further up: here x in d is
   lost, and e beside d is never reported. *)
Definition skip_fs : wfs :=
  {| w_lstat := fun p => if bytes_eqb p al then None else ex_lstat p; w_stat := ex_lstat; w_readdir := fun p => (fst (ex_readdir p), false);
     w_resolve := fun _ _ => (Some dname, 1); w_ident := fun _ _ _ => None |}.
Theorem C34_skipdir_on_lost_name_reaches_the_parent_refuted : exists fs root fuel l v c,
  (forall c, In c l -> c_err c = true -> c_path c = al) /\
  walk_dir fs true (fun _ c => if c_err c then SkipDir else Cont) fuel root = Some (l, None) /\
  reachable fs true (fun _ => true) root v /\ reports fs true (fun _ => true) v c /\ dir (c_path c) <> dir al /\ ~ In c l.
Proof.
  exists skip_fs, dname, 4%nat, [ok_call dname dname idir; ok_call aname aname idir; err_call al al None].
  exists {| v_path := bname; v_real := bname; v_info := ifile; v_chain := [KPath dname]; v_left := 40 |}, (ok_call bname bname ifile).
  split; [intros c [<-|[<-|[<-|[]]]]; cbn; congruence|]. split; [reflexivity|]. split.
  - exists idir. split; [reflexivity|]. eapply DChild; [|apply DHere]. apply (Child skip_fs true (fun _ => true) (start dname idir) dname idir 40 [aname] bname [] ifile); [|reflexivity|reflexivity| |reflexivity].
    2: { intros n nci _ _ [(? & ? & ? & _ & _ & X)|(? & _ & X)]; discriminate X. }
    split; [apply (SPlain skip_fs true (start dname idir)); reflexivity|]. split; [reflexivity|]. split; [reflexivity|]. cbn. intros [].
  - split; [|split; [discriminate|intros [H|[H|[H|[]]]]; discriminate]]. apply (RShown skip_fs true (fun _ => true) {| v_path := bname; v_real := bname; v_info := ifile; v_chain := [KPath dname]; v_left := 40 |} bname ifile 40).
    apply (SPlain skip_fs true {| v_path := bname; v_real := bname; v_info := ifile; v_chain := [KPath dname]; v_left := 40 |}). reflexivity.
Qed.
Print Assumptions C34_skipdir_on_lost_name_reaches_the_parent_refuted.
