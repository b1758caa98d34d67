(* C44: overlay lookup and listing implement one merged tree. *)
From Coq Require Import Sorting.Sorted.
From Verif Require Import Common ContentRange_Model Overlay_Model Overlay_Spec Overlay_Proofs.
Open Scope nat_scope.

(* A lookup answers what the merged tree has at the name, from the layer the tree takes it
   from, unless a layer's Lstat fails. *)
Theorem C44_lookup_is_the_merged_tree be ls p : wf ls -> unlinked ls p ->
  match lookup be ls p with
  | LFound j n => view ls 0 p = Some (j, n)
  | LMissing | LNotDir => view ls 0 p = None
  | LErr => exists i a, i < length ls /\ under a p /\ broken be i a = true
  end.
Proof. exact (lookup_true be ls p). Qed.
Print Assumptions C44_lookup_is_the_merged_tree.

(* A listing holds each visible child once, from the layer that shows it, in byte order. *)
Theorem C44_listing_is_the_merged_tree be ls p : wf ls -> unlinked ls p ->
  match read_dir be ls p with
  | DNames es => visible_dir ls p /\ (forall c k, In (c, k) es <-> exists n, view ls 0 (c :: p) = Some (k, n)) /\
                 NoDup (map fst es) /\ Sorted (fun a b => bytes_leb (fst a) (fst b) = true) es
  | DErr ENotExist => visible ls p = None
  | DErr ENotDir => ~ visible_dir ls p
  | DErr _ => exists i a, i < length ls /\ under a p /\ broken be i a = true
  end.
Proof. exact (read_dir_view be ls p). Qed.
Print Assumptions C44_listing_is_the_merged_tree.

(* The search below a layer (what a removal asks) is the merged tree of the rest. *)
Theorem C44_search_from_a_layer be ls p from : wf ls ->
  match lookup_from be ls p from with
  | LFound j n => view ls from p = Some (j, n) \/ linked ls from p
  | LMissing | LNotDir => view ls from p = None
  | LErr => (exists i a, i < length ls /\ under a p /\ broken be i a = true) \/ linked ls from p
  end.
Proof. exact (lookup_from_good be ls p from). Qed.
Print Assumptions C44_search_from_a_layer.

(* Not a directory means the parent is no visible directory. *)
Theorem C44_not_a_directory be ls c q : wf ls -> unlinked ls q -> answers be ls q ->
  lookup be ls (c :: q) = LNotDir -> ~ visible_dir ls q.
Proof. exact (notdir_true be ls c q). Qed.
Print Assumptions C44_not_a_directory.

(* The merged tree is a tree: what is visible has visible directories above it, from the
   same layer or a shallower one. *)
Theorem C44_merged_view_is_a_tree ls a p j n : wf ls -> strictly_under a p -> view ls 0 p = Some (j, n) ->
  exists i m, i <= j /\ view ls 0 a = Some (i, ODir m).
Proof. exact (visible_ancestor ls a p j n). Qed.
Print Assumptions C44_merged_view_is_a_tree.

(* A symlink one layer holds where a shallower layer has a directory: the lookup goes through
   it and finds a name the listing of that directory does not have. *)
Definition na : name := [97]%N. Definition nd : name := [100]%N. Definition ne : name := [101]%N. Definition nf : name := [102]%N.
Definition plain (t : tree) : layer := {| l_tree := t; l_wh := []; l_op := [] |}.
Definition link_lower : tree := [([nd], OLink ne); ([ne], ODir 493); ([nf; ne], OFile 420 7)].
Definition link_stack : stack := [plain [([nd], ODir 493)]; plain link_lower].
(* Lstat through the link: layer 1 answers d/x with what it has at e/x. *)
Definition link_backend : backend :=
  {| through := fun i p => match i, p with
                           | 1, [x; y] => if bytes_eqb y nd then match tget link_lower [x; ne] with Some n => AFound n | None => AMissing end else AMissing
                           | _, _ => AMissing
                           end;
     broken := fun _ _ => false; followed := fun _ _ => None; rmorder := [] |}.
Lemma link_disagrees : wf link_stack /\ lookup link_backend link_stack [nf; nd] = LFound 1 (OFile 420 7) /\
  read_dir link_backend link_stack [nd] = DNames [] /\ view link_stack 0 [nf; nd] = None.
Proof. split; [apply wf_check; reflexivity|]. repeat split; reflexivity. Qed.
Theorem C44_visible_iff_listed_refuted : exists be ls c p n es, wf ls /\
  lookup be ls (c :: p) = LFound 1 n /\ read_dir be ls p = DNames es /\ ~ In c (map fst es).
Proof.
  exists link_backend, link_stack, nf, [nd], (OFile 420 7), []. destruct link_disagrees as [H1 [H2 [H3 _]]].
  split; [exact H1|]. split; [exact H2|]. split; [exact H3|]. intros [].
Qed.
Print Assumptions C44_visible_iff_listed_refuted.

(* A stack where every rule is at work: the top whites out d/a and holds d/e, the middle
   makes d/f opaque, the lowest layer has all of them. *)
Definition ex_top : layer := {| l_tree := [([nd], ODir 493); ([ne; nd], OFile 420 1)]; l_wh := [[na; nd]]; l_op := [] |}.
Definition ex_mid : layer := {| l_tree := [([nd], ODir 448); ([nf; nd], ODir 493); ([na; nf; nd], OFile 420 2)]; l_wh := []; l_op := [[nf; nd]] |}.
Definition ex_low : layer := {| l_tree := [([nd], ODir 448); ([na; nd], OFile 420 3); ([ne; nd], ODir 493); ([nf; ne; nd], OFile 420 4);
  ([nf; nd], ODir 493); ([ne; nf; nd], OFile 420 5); ([nd; nd], OFile 420 6)]; l_wh := []; l_op := [] |}.
Definition ex_stack : stack := [ex_top; ex_mid; ex_low].
Definition quiet : backend := {| through := fun _ _ => AMissing; broken := fun _ _ => false; followed := fun _ _ => None; rmorder := [] |}.
Example C44_hypotheses_met : wf ex_stack /\ (forall p, In p [[nd]; [na; nd]; [nf; nd]; [nd; nd]; [nf; ne; nd]; [ne; nf; nd]] -> unlinked ex_stack p) /\
  read_dir quiet ex_stack [nd] = DNames [(nd, 2); (ne, 0); (nf, 1)] /\ lookup quiet ex_stack [na; nd] = LMissing /\
  lookup quiet ex_stack [nd; nd] = LFound 2 (OFile 420 6) /\ lookup quiet ex_stack [nf; ne; nd] = LNotDir /\
  lookup quiet ex_stack [ne; nf; nd] = LMissing /\ read_dir quiet ex_stack [nf; nd] = DNames [(na, 1)].
Proof.
  split; [apply wf_check; reflexivity|]. split; [|repeat split; reflexivity].
  intros p Hp. apply unlinked_check. cbn in Hp. repeat (destruct Hp as [<- | Hp]; [reflexivity|]). destruct Hp.
Qed.
