(* C87: an overlay is one plain tree through any history. *)
From Verif Require Import Common CommonLemmas ContentRange_Model Overlay_Model Overlay_Spec Overlay_Proofs OverlayOps_Proofs OverlayCalls_Proofs OverlayWorks_Proofs Overlay_Props OverlayOps_Props OverlayErr_Spec OverlayErr_Props OverlayPlain_Spec OverlayPlain_Proofs.
Open Scope nat_scope.

(* Every stack of layers shows a plain tree. *)
Theorem C87_some_tree s : wf s -> exists t, shows s t.
Proof. exact (fun W => ex_intro _ (seen s) (seen_shows s W)). Qed.
Print Assumptions C87_some_tree.

(* Whatever is done to an overlay, each answer is the one the plain tree gives and the overlay
   goes on showing the plain tree; only moving a directory of which a lower has something, and
   moving or chmodding a lower's special file, may be refused, and then nothing changes. *)
Theorem C87_histories h s t : inv s -> shows s t -> Forall (fun x => steady (fst x) /\ lows_clear (tl s) (snd x)) h -> fits t h (snd (run h s)) ->
  right (tl s) t h (snd (run h s)) /\ shows (fst (run h s)) (track t h (snd (run h s))) /\ inv (fst (run h s)) /\ tl (fst (run h s)) = tl s.
Proof. exact (history h s t). Qed.
Print Assumptions C87_histories.

(* Without lowers there is no exception. *)
Theorem C87_one_layer h s t : inv s -> tl s = [] -> shows s t -> Forall (fun x => steady (fst x)) h -> fits t h (snd (run h s)) ->
  exactly t h (snd (run h s)) /\ shows (fst (run h s)) (fold_left deed_effect (map snd h) t).
Proof. exact (alone h s t). Qed.
Print Assumptions C87_one_layer.

(* Looking up a name and listing a directory tell the plain tree. *)
Theorem C87_lookups be s t p : steady be -> inv s -> shows s t -> way t p -> low_way (tl s) p ->
  match lookup be s p with LFound _ n => pat t p = Some (shape n) | LMissing | LNotDir => pat t p = None | LErr => False end.
Proof. exact (lookup_reads be s t p). Qed.
Print Assumptions C87_lookups.

Theorem C87_listings be s t p : steady be -> inv s -> shows s t -> way t p -> low_way (tl s) p ->
  match read_dir be s p with
  | DNames es => pat t p = Some TDir /\ (forall c, In c (map fst es) <-> pat t (c :: p) <> None) /\ NoDup (map fst es) /\ Sorted.Sorted (fun a b => bytes_leb (fst a) (fst b) = true) es
  | DErr ENotExist => pat t p = None
  | DErr ENotDir => pat t p <> Some TDir
  | DErr _ => False
  end.
Proof. exact (listing_reads be s t p). Qed.
Print Assumptions C87_listings.

(* A call cut short at any of its steps shows the tree before it or the tree after it; RemoveAll
   may have taken a part of what it takes, MkdirAll have made a part of what it makes. *)
Theorem C87_cut_short be s t c s' t' : steady be -> inv s -> shows s t -> fit t (DCall c) -> lows_clear (tl s) (DCall c) -> is_rename c = false ->
  reaches s (run_call be c s) s' -> shows s' t' -> between t c t'.
Proof. exact (cut be s t c s' t'). Qed.
Print Assumptions C87_cut_short.

(* A device n, a directory d and e/f in a lower; see err_stack. *)
Definition wayb (t : ptree) (p : path) : bool := forallb (fun b => negb (is_link (pat t b))) (chain (tl p)).
Lemma way_check t p : wayb t p = true -> way t p.
Proof.
  unfold wayb. rewrite forallb_forall. intros H b Hb. destruct b as [|k b]; [reflexivity|]. destruct p as [|c p]; [destruct (strictly_nil _ Hb)|]. apply strictly_cons in Hb.
  apply negb_true_iff, H, in_chain. split; [discriminate|exact Hb].
Qed.
Definition fitb (t : ptree) (a : deed) : bool :=
  forallb (wayb t) (names a) &&
  match a with
  | DCall (CWrite _ _) | DCall (CLink _ _) => false
  | DCall (COpen p _ _ _ _) | DSave p _ _ _ _ _ => negb (is_link (pat t p)) && negb (is_tspecial (pat t p))
  | DCall (CChmod p _) => negb (is_link (pat t p))
  | DCall (CRename o n) => is_tdir (pat t (tl o)) && is_tdir (pat t (tl n))
  | _ => true
  end.
Lemma fit_check t a : fitb t a = true -> fit t a.
Proof.
  unfold fitb. intros H. apply andb_true_iff in H. destruct H as [H1 H2]. split; [intros p Hp; apply way_check; rewrite forallb_forall in H1; exact (H1 p Hp)|].
  destruct a as [[]|]; try discriminate; try exact Logic.I; try (apply andb_true_iff in H2; destruct H2 as [A B]; try apply negb_true_iff in A; try apply negb_true_iff in B; auto); apply negb_true_iff, H2.
Qed.
Fixpoint fitsb (t : ptree) (h : list (backend * deed)) (es : list (option oerr)) : bool :=
  match h, es with (_, a) :: r, e :: es' => fitb t a && fitsb (next t a e) r es' | _, _ => true end.
Lemma fits_check h : forall t es, fitsb t h es = true -> fits t h es.
Proof.
  induction h as [|[be a] h IH]; intros t es H; [exact Logic.I|]. destruct es as [|e es]; [exact Logic.I|]. cbn [fitsb fits] in *. apply andb_true_iff in H. destruct H as [H1 H2].
  split; [exact (fit_check t a H1)|exact (IH _ _ H2)].
Qed.
Definition linkless (lows : list layer) : bool := forallb (fun l => forallb (fun e => match snd e with OLink _ => false | _ => true end) (l_tree l)) lows.
Lemma linkless_check lows a : linkless lows = true -> lows_clear lows a.
Proof.
  unfold linkless. rewrite forallb_forall. intros H p _ b l g _ Hl E. specialize (H l Hl). rewrite forallb_forall in H. destruct b as [|k b].
  - cbn [node_at] in E. destruct (tget (l_tree l) []) as [[]|]; discriminate.
  - cbn [node_at] in E. clear Hl. induction (l_tree l) as [|[q x] r IH]; cbn [tget] in E; [discriminate|]. destruct (path_eqb (k :: b) q).
    + apply some_inj in E. subst x. specialize (H _ (or_introl eq_refl)). discriminate.
    + apply IH; [intros y Hy; apply H; right; exact Hy|exact E].
Qed.
Definition a_history : list (backend * deed) := map (fun a => (quiet, a))
  [DSave [nf; ne] false false false 0 9; DCall (CRemove [nf; nd]); DCall (CMkdir [nf] 493); DCall (CRename [ne; nd] [ne; nf]); DCall (CRename [nd] [nd; nf]); DCall (CChmod [nn] 0);
   DCall (CRename [nf; ne] [nf; nf]); DCall (CRemoveAll [ne]); DCall (CMkdir [ne] 448); DCall (CMkdir [nd; nn] 448); DCall (CMkdirAll [nd; ne; nd; ne] 448); DCall (CSymlink nd [nn; ne]);
   DCall (CRemove [ne]); DCall (CRename [na] [ne; nf]); DSave [na; ne] true true false 420 5].
Example C87_met : inv err_stack /\ shows err_stack (seen err_stack) /\ Forall (fun x => steady (fst x) /\ lows_clear (tl err_stack) (snd x)) a_history /\
  fits (seen err_stack) a_history (snd (run a_history err_stack)) /\
  snd (run a_history err_stack) = [None; None; None; None; Some EXDev; Some EUnsupported; None; None; None; Some ENotDir; None; None; Some ENotEmpty; Some EXDev; None] /\
  (let t := track (seen err_stack) a_history (snd (run a_history err_stack)) in
   map (pat t) [[nf; nd]; [ne; nf]; [nf; nf]; [nf; ne]; [nd; ne; nd; ne]; [nn; ne]; [na; ne]; [na]; [nd; nf]] =
   [None; Some TDir; Some (TFile 420 9); None; Some TDir; Some (TLink nd); Some (TFile 420 5); Some TDir; None]).
Proof.
  split; [exact (proj1 C83_met)|]. split; [exact (seen_shows err_stack (proj1 (proj1 C83_met)))|]. split.
  - apply Forall_forall. intros x Hx. split; [|apply linkless_check; reflexivity]. apply in_map_iff in Hx. destruct Hx as [a [<- _]]. intros i p. reflexivity.
  - split; [apply fits_check; vm_compute; reflexivity|]. split; vm_compute; reflexivity.
Qed.

(* A rename cut short may show a tree that is neither: in crash_stack the lower's e was deleted,
   d is moved there, and e/f comes up inside. *)
Theorem C87_renames_are_atomic_refuted : exists be s t o n s' t', steady be /\ inv s /\ shows s t /\ fit t (DCall (CRename o n)) /\ lows_clear (tl s) (DCall (CRename o n)) /\
  reaches s (run_call be (CRename o n) s) s' /\ shows s' t' /\ ~ (forall q, pat t' q = pat t q) /\ ~ (forall q, pat t' q = pat (effect t (CRename o n)) q).
Proof.
  destruct crash_resurfaces as [H1 [H2 [s' [H3 [H4 H5]]]]]. exists quiet, crash_stack, (seen crash_stack), [nd], [ne], s', (seen s').
  assert (W' : wf s').
  { vm_compute in H3. apply some_inj in H3. subst s'. apply wf_check. reflexivity. }
  assert (S' := seen_shows s' W'). split; [intros i p; reflexivity|]. split; [exact H1|]. split; [exact (seen_shows crash_stack (proj1 H1))|].
  split; [apply fit_check; vm_compute; reflexivity|]. split; [apply linkless_check; reflexivity|]. split; [left; exact (nth_error_In _ _ H3)|]. split; [exact S'|].
  assert (P : pat (seen s') [nf; ne] = Some (TFile 420 7)) by (rewrite <- (shows_at s' _ _ S'), H4; reflexivity).
  split; intros E; specialize (E [nf; ne]); rewrite P in E; vm_compute in E; discriminate.
Qed.
Print Assumptions C87_renames_are_atomic_refuted.
