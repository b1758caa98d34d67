(* Proofs about sqlvfs's locks and names. *)
From Verif Require Import Common CommonLemmas ContentRange_Model PathLex_Model PathLex_Proofs FileClient_Model FileClient_Spec FileClient_Proofs SqlVfs_Model SqlVfs_Spec.
Open Scope nat_scope.

Lemma nth_put_same {A} (l : list A) i x y : nth_error l i = Some y -> nth_error (put_nth l i x) i = Some x.
Proof. revert i; induction l as [|a l IH]; intros [|i] H; cbn in *; try discriminate; auto. Qed.
Lemma nth_put_other {A} (l : list A) i j x : i <> j -> nth_error (put_nth l i x) j = nth_error l j.
Proof.
  revert i j; induction l as [|a l IH]; intros [|i] [|j] H; cbn; try congruence; try reflexivity.
  apply IH. congruence.
Qed.

Lemma os_eqb_true a b : os_eqb a b = true -> a = b.
Proof. destruct a, b; cbn; congruence. Qed.

Lemma grantable_other fs i how : grantable fs i how = true -> forall j g, j <> i -> nth_error fs j = Some g -> allows how (v_os g) = true.
Proof.
  revert i; induction fs as [|f fs IH]; intros i H j g Hj Hg; [destruct j; discriminate|].
  cbn [grantable] in H. destruct i as [|i].
  - destruct j as [|j]; [congruence|]. cbn in Hg. apply nth_error_In in Hg.
    exact (proj1 (forallb_forall _ _) H g Hg).
  - apply andb_true_iff in H as [H1 H2]. destruct j as [|j]; cbn in Hg.
    + injection Hg as <-. exact H1.
    + apply (IH i H2 j g); [congruence|exact Hg].
Qed.

Lemma grantable_intro fs i how : (forall j g, j <> i -> nth_error fs j = Some g -> allows how (v_os g) = true) -> grantable fs i how = true.
Proof.
  revert i; induction fs as [|f fs IH]; intros i H; [reflexivity|]. cbn [grantable]. destruct i as [|i].
  - apply forallb_forall. intros g Hg. apply In_nth_error in Hg as [j Hj]. apply (H (S j) g); [discriminate|exact Hj].
  - apply andb_true_iff. split; [apply (H 0 f); [discriminate|reflexivity]|].
    apply IH. intros j g Hj Hg. apply (H (S j) g); [congruence|exact Hg].
Qed.

(* ---- the invariant ---- *)

(* The OS lock of one handle against its level. *)
Definition backed (f : vfile) : Prop :=
  v_locks f = true /\
  match v_pc f with
  | Idle => (v_level f = l_shared -> v_os f = OSh) /\ (l_reserved <= v_level f -> v_os f = OEx)
  | Wait up l how => (v_os f = ONone \/ v_os f = how) /\ (l = l_shared -> how = OSh) /\ (l_reserved <= l -> how = OEx)
  end.
Definition os_excl (s : vstate) : Prop :=
  forall i j f g, i <> j -> file_at s i f -> file_at s j g -> v_os f = OEx -> v_os g = ONone.
Definition linv (s : vstate) : Prop := os_excl s /\ (forall i f, file_at s i f -> backed f).

(* Changing one handle. *)
Lemma linv_put s i f f' ver : linv s -> file_at s i f -> backed f' ->
  (v_os f' = OEx -> forall j g, j <> i -> file_at s j g -> v_os g = ONone) ->
  (v_os f' <> ONone -> forall j g, j <> i -> file_at s j g -> v_os g <> OEx) ->
  linv (VState (put_nth (vs_files s) i f') ver).
Proof.
  intros [Hx Hb] Hf Hb' H1 H2. split.
  - intros a b fa fb Hab Ha Hb0 Hos. unfold file_at in *. cbn [vs_files] in *.
    destruct (Nat.eq_dec a i) as [->|Na].
    + rewrite (nth_put_same _ _ _ _ Hf) in Ha. injection Ha as <-.
      rewrite nth_put_other in Hb0 by congruence. apply (H1 Hos b fb); [congruence|exact Hb0].
    + rewrite nth_put_other in Ha by congruence. destruct (Nat.eq_dec b i) as [->|Nb].
      * rewrite (nth_put_same _ _ _ _ Hf) in Hb0. injection Hb0 as <-.
        destruct (v_os f') eqn:E; [reflexivity|exfalso; apply (H2 ltac:(discriminate) a fa Na Ha Hos)..].
      * rewrite nth_put_other in Hb0 by congruence. apply (Hx a b fa fb); assumption.
  - intros a fa Ha. unfold file_at in *. cbn [vs_files] in *. destruct (Nat.eq_dec a i) as [->|Na].
    + rewrite (nth_put_same _ _ _ _ Hf) in Ha. injection Ha as <-. exact Hb'.
    + rewrite nth_put_other in Ha by congruence. apply (Hb a fa Ha).
Qed.

(* ... to no lock, or to the same one. *)
Lemma linv_put_weak s i f f' ver : linv s -> file_at s i f -> backed f' -> v_os f' = ONone \/ v_os f' = v_os f ->
  linv (VState (put_nth (vs_files s) i f') ver).
Proof.
  intros Hi Hf Hb' Hos. apply (linv_put s i f f' ver Hi Hf Hb'); destruct Hi as [Hx _].
  - intros E j g Hj Hg. destruct Hos as [Hos|Hos]; [congruence|]. apply (Hx i j f g); auto; congruence.
  - intros E j g Hj Hg Hex. destruct Hos as [Hos|Hos]; [congruence|].
    apply E. rewrite Hos. apply (Hx j i g f); auto.
Qed.

Lemma enter_backed f up l : v_locks f = true -> l_shared <= l -> backed (enter f up l (if l =? l_shared then OSh else OEx)).
Proof.
  intros Hl H1. unfold backed, enter. cbn. split; [exact Hl|]. split.
  - destruct (os_eqb (v_os f) _); auto.
  - unfold l_shared, l_reserved in *. destruct (Nat.eqb_spec l 1); split; intros; try reflexivity; lia.
Qed.

Lemma enter_os f up l how : v_os (enter f up l how) = ONone \/ v_os (enter f up l how) = v_os f.
Proof. cbn. destruct (os_eqb (v_os f) how) eqn:E; [right; symmetry; apply os_eqb_true; exact E|left; reflexivity]. Qed.


Lemma linv_step s o : linv s -> asks o -> survives o -> linv (vstep s o).
Proof.
  intros Hi Ha Hn. destruct o as [i l|i l|i l|i|i|i]; cbn [vstep asks] in *; [| | | |contradiction|].
  - destruct (nth_error (vs_files s) i) as [f|] eqn:E; [|exact Hi]. destruct (v_pc f) eqn:Ep; [|exact Hi].
    pose proof (proj2 Hi i f E) as [Hl Hb]. rewrite Ep in Hb.
    destruct (Nat.leb_spec l (v_level f)); [exact Hi|]. destruct ((l_reserved <=? l) && v_ro f); [exact Hi|]. rewrite Hl.
    apply (linv_put_weak s i f _ _ Hi E); [|apply enter_os]. apply enter_backed; [exact Hl|unfold l_shared; lia].
  - destruct (nth_error (vs_files s) i) as [f|] eqn:E; [|exact Hi]. destruct (v_pc f) eqn:Ep; [|exact Hi].
    pose proof (proj2 Hi i f E) as [Hl Hb]. rewrite Ep in Hb.
    destruct (Nat.leb_spec (v_level f) l); [exact Hi|]. rewrite Hl. destruct (Nat.eqb_spec l l_shared) as [->|Hne].
    + apply (linv_put_weak s i f _ _ Hi E); [|apply enter_os].
      apply (enter_backed f false l_shared Hl). unfold l_shared; lia.
    + apply (linv_put_weak s i f _ _ Hi E); [|left; reflexivity].
      split; [exact Hl|]. cbn. unfold l_shared, l_reserved in *. split; intros; lia.
  - destruct (nth_error (vs_files s) i) as [f|] eqn:E; [|exact Hi]. destruct (v_pc f) eqn:Ep; [|exact Hi].
    pose proof (proj2 Hi i f E) as [Hl Hb]. rewrite Ep in Hb.
    destruct (Nat.leb_spec (v_level f) l); [exact Hi|]. rewrite Hl. destruct (Nat.eqb_spec l l_shared) as [->|Hne]; [exact Hi|]. cbn [andb negb].
    apply (linv_put_weak s i f _ _ Hi E); [|right; reflexivity].
    split; [exact Hl|]. cbn. unfold l_shared, l_reserved in *. split; intros; lia.
  - destruct (nth_error (vs_files s) i) as [f|] eqn:E; [|exact Hi]. destruct (v_pc f) as [|up l how] eqn:Ep; [exact Hi|].
    pose proof (proj2 Hi i f E) as [Hl Hb]. rewrite Ep in Hb. destruct Hb as (_ & Hb1 & Hb2).
    destruct (grantable (vs_files s) i how) eqn:G; [|exact Hi].
    apply (linv_put s i f _ _ Hi E).
    + split; [exact Hl|]. cbn. split; assumption.
    + cbn. intros Hos j g Hj Hg. pose proof (grantable_other _ _ _ G j g Hj Hg) as A.
      rewrite Hos in A. destruct (v_os g); [reflexivity|discriminate..].
    + cbn. intros Hos j g Hj Hg Hex. pose proof (grantable_other _ _ _ G j g Hj Hg) as A.
      rewrite Hex in A. destruct how; [apply Hos; reflexivity|discriminate..].
  - destruct (nth_error (vs_files s) i) as [f|] eqn:E; [|exact Hi]. destruct (l_reserved <=? v_level f); [|exact Hi].
    destruct (v_pc f) eqn:Ep; [|exact Hi]. pose proof (proj2 Hi i f E) as [Hl Hb]. rewrite Ep in Hb.
    apply (linv_put_weak s i f _ _ Hi E); [|right; reflexivity]. split; [exact Hl|]. cbn. exact Hb.
Qed.

Lemma linv_init cs : Forall (fun c => fst c = true) cs -> linv (vinit cs).
Proof.
  intros H. assert (forall i f, nth_error (map new_file cs) i = Some f -> exists c, In c cs /\ f = new_file c) as G.
  { intros i f Hf. apply nth_error_In, in_map_iff in Hf as (c & <- & Hc). exists c; auto. }
  split.
  - intros i j f g _ Hf _ Hos. apply G in Hf as (c & _ & ->). discriminate.
  - intros i f Hf. apply G in Hf as (c & Hc & ->). split; [exact (proj1 (Forall_forall _ _) H c Hc)|].
    cbn. unfold l_none, l_shared, l_reserved. split; intros; lia.
Qed.

Lemma linv_run ops : forall s, linv s -> Forall asks ops -> Forall survives ops -> linv (vrun s ops).
Proof.
  induction ops as [|o ops IH]; intros s Hi Ha Hs; [exact Hi|].
  apply Forall_cons_iff in Ha as [Ha Has]. apply Forall_cons_iff in Hs as [Hs Hss].
  apply (IH (vstep s o)); [apply linv_step; assumption|assumption..].
Qed.

Lemma linv_excludes s : linv s -> excludes s.
Proof.
  intros [Hx Hb] i j f g Hij Hf Hg Pf Pg Hr.
  pose proof (Hb i f Hf) as [_ Bf]. pose proof (Hb j g Hg) as [_ Bg]. rewrite Pf in Bf. rewrite Pg in Bg.
  pose proof (Hx i j f g Hij Hf Hg (proj2 Bf Hr)) as Hn.
  destruct (v_level g) as [|[|n]] eqn:E; [reflexivity|exfalso..].
  - pose proof (proj1 Bg eq_refl). congruence.
  - assert (l_reserved <= S (S n)) as H by (unfold l_reserved; lia). pose proof (proj2 Bg H). congruence.
Qed.

Lemma locks_exclude cs ops : Forall (fun c => fst c = true) cs -> Forall asks ops -> Forall survives ops -> excludes (vrun (vinit cs) ops).
Proof. intros Hc Ha Hs. apply linv_excludes, linv_run; auto. apply linv_init; exact Hc. Qed.

(* ---- read-only handles ---- *)

Definition ro_low (f : vfile) : Prop :=
  v_ro f = true -> v_level f <= l_shared /\ match v_pc f with Wait _ l _ => l <= l_shared | Idle => True end.
Definition all_files (P : vfile -> Prop) (s : vstate) : Prop := forall i f, file_at s i f -> P f.

Lemma all_put (P : vfile -> Prop) s i f ver : all_files P s -> P f -> all_files P (VState (put_nth (vs_files s) i f) ver).
Proof.
  intros H Hf j g Hg. unfold file_at in Hg. cbn [vs_files] in Hg. destruct (Nat.eq_dec i j) as [->|N].
  - destruct (nth_error (vs_files s) j) as [y|] eqn:E.
    + rewrite (nth_put_same _ _ _ _ E) in Hg. injection Hg as <-. exact Hf.
    + exfalso. assert (nth_error (put_nth (vs_files s) j f) j = None) as X; [|congruence].
      clear -E. revert j E. induction (vs_files s) as [|a l IH]; intros [|j] E; cbn in *; try congruence. apply IH. exact E.
  - rewrite nth_put_other in Hg by exact N. apply (H j g Hg).
Qed.

Lemma ro_step s o : all_files ro_low s -> asks o -> all_files ro_low (vstep s o).
Proof.
  intros H Ha. destruct o as [i l|i l|i l|i|i|i]; cbn [vstep asks] in *;
    (destruct (nth_error (vs_files s) i) as [f|] eqn:E; [|exact H]); pose proof (H i f E) as Hf; unfold ro_low in Hf.
  - destruct (v_pc f) eqn:Ep; [|exact H]. destruct (Nat.leb_spec l (v_level f)); [exact H|].
    destruct ((l_reserved <=? l) && v_ro f) eqn:R; [exact H|].
    destruct (v_locks f); apply all_put; auto; intros Hro; cbn in Hro |- *; rewrite Hro, andb_true_r in R; apply Nat.leb_gt in R; specialize (Hf Hro); unfold l_shared, l_reserved in *; lia.
  - destruct (v_pc f) eqn:Ep; [|exact H]. destruct (Nat.leb_spec (v_level f) l); [exact H|].
    destruct (v_locks f); [destruct (l =? l_shared)|]; apply all_put; auto; intros Hro; cbn in Hro |- *; specialize (Hf Hro); unfold l_shared, l_reserved in *; lia.
  - destruct (v_pc f) eqn:Ep; [|exact H]. destruct (Nat.leb_spec (v_level f) l); [exact H|].
    destruct (v_locks f && negb (l =? l_shared)); [|exact H]. apply all_put; auto; intros Hro; cbn in Hro |- *; specialize (Hf Hro); unfold l_shared, l_reserved in *; lia.
  - destruct (v_pc f) as [|up l how] eqn:Ep; [exact H|]. destruct (grantable (vs_files s) i how); [|exact H].
    apply all_put; auto; intros Hro; cbn in Hro |- *; specialize (Hf Hro); lia.
  - destruct (v_pc f) as [|up l how] eqn:Ep; [exact H|].
    apply all_put; auto; intros Hro; cbn in Hro |- *; specialize (Hf Hro); destruct up; lia.
  - destruct (l_reserved <=? v_level f); [|exact H]. destruct (v_pc f) eqn:Ep; [|exact H].
    apply all_put; auto; intros Hro; cbn in Hro |- *; specialize (Hf Hro); lia.
Qed.

Lemma readonly_never_writes cs ops : Forall asks ops ->
  forall i f, file_at (vrun (vinit cs) ops) i f -> v_ro f = true -> v_level f <= l_shared.
Proof.
  intros Ha. assert (all_files ro_low (vrun (vinit cs) ops)) as H.
  { assert (all_files ro_low (vinit cs)) as H0.
    { intros i f Hf Hro. unfold file_at in Hf. cbn in Hf. apply nth_error_In, in_map_iff in Hf as (c & <- & _). cbn. unfold l_none, l_shared. lia. }
    revert H0. generalize (vinit cs). induction ops as [|o ops IH]; intros s Hs; [exact Hs|].
    apply Forall_cons_iff in Ha as [Ha Has]. apply (IH Has (vstep s o)). apply ro_step; assumption. }
  intros i f Hf Hro. apply (H i f Hf Hro).
Qed.

(* ---- snapshots ---- *)

Definition snapped (s : vstate) (f : vfile) : Prop :=
  l_shared <= v_level f ->
  v_snap f = vs_version s /\ match v_pc f with Idle => True | Wait _ _ _ => v_os f = OEx end.
Definition sinv (s : vstate) : Prop := linv s /\ all_files (snapped s) s.

Lemma sinv_step s o : sinv s -> asks o -> survives o -> no_conversion s o -> sinv (vstep s o).
Proof.
  intros [Hi Hs] Ha Hn Hc. split; [apply linv_step; assumption|].
  destruct o as [i l|i l|i l|i|i|i]; cbn [vstep asks no_conversion] in *; [| | | |contradiction|];
    (destruct (nth_error (vs_files s) i) as [f|] eqn:E; [|exact Hs]); pose proof (Hs i f E) as Hf; unfold snapped in Hf;
    pose proof (proj2 Hi i f E) as [Hl Hb].
  - destruct (v_pc f) eqn:Ep; [|exact Hs]. destruct (Nat.leb_spec l (v_level f)); [exact Hs|].
    destruct ((l_reserved <=? l) && v_ro f) eqn:R; [exact Hs|]. rewrite Hl.
    apply all_put; [exact Hs|]. intros Hlv. cbn in Hlv |- *. split; [apply Hf; exact Hlv|].
    destruct (Hc f E) as [C|[C|C]]; [unfold l_none, l_shared in *; lia| |lia].
    rewrite (proj2 Hb C). destruct (Nat.eqb_spec l l_shared); [unfold l_shared, l_reserved in *; lia|]. reflexivity.
  - destruct (v_pc f) eqn:Ep; [|exact Hs]. destruct (Nat.leb_spec (v_level f) l); [exact Hs|]. rewrite Hl.
    destruct (Hc f E) as [->|C]; [|lia]. cbn [Nat.eqb l_none l_shared].
    apply all_put; [exact Hs|]. intros Hlv. cbn in Hlv. unfold l_none, l_shared in Hlv. lia.
  - destruct (v_pc f) eqn:Ep; [|exact Hs]. destruct (Nat.leb_spec (v_level f) l); [exact Hs|]. rewrite Hl.
    destruct (Nat.eqb_spec l l_shared); [exact Hs|]. cbn [andb negb].
    apply all_put; [exact Hs|]. intros Hlv. cbn in Hlv. unfold l_none, l_shared in *. lia.
  - destruct (v_pc f) as [|up l how] eqn:Ep; [exact Hs|]. destruct (grantable (vs_files s) i how) eqn:G; [|exact Hs].
    apply all_put; [exact Hs|]. intros Hlv. cbn in Hlv |- *. split; [|exact I].
    destruct (Nat.eqb_spec (v_level f) l_none) as [E0|E0]; [reflexivity|]. apply Hf. unfold l_none, l_shared in *. lia.
  - destruct (Nat.leb_spec l_reserved (v_level f)) as [Hr|Hr]; [|exact Hs]. destruct (v_pc f) eqn:Ep; [|exact Hs].
    intros j g Hg. unfold file_at in Hg. cbn [vs_files] in Hg. destruct (Nat.eq_dec i j) as [<-|N].
    + rewrite (nth_put_same _ _ _ _ E) in Hg. injection Hg as <-. intros _. cbn. auto.
    + rewrite nth_put_other in Hg by exact N. intros Hlv. exfalso.
      pose proof (Hs j g Hg Hlv) as [_ Hpc]. pose proof (proj2 Hi j g Hg) as [_ Bg].
      pose proof (proj1 Hi i j f g N E Hg (proj2 Hb Hr)) as Hnone.
      destruct (v_pc g); [|congruence]. destruct (v_level g) as [|[|n]] eqn:El; [unfold l_shared in Hlv; lia| |].
      * pose proof (proj1 Bg eq_refl). congruence.
      * assert (l_reserved <= S (S n)) as H by (unfold l_reserved; lia). pose proof (proj2 Bg H). congruence.
Qed.

Lemma snapshots_hold cs ops : Forall (fun c => fst c = true) cs -> Forall asks ops -> Forall survives ops ->
  no_conversions (vinit cs) ops -> current (vrun (vinit cs) ops).
Proof.
  intros Hc Ha Hs Hn. assert (sinv (vrun (vinit cs) ops)) as [_ H].
  { assert (sinv (vinit cs)) as H0.
    { split; [apply linv_init; exact Hc|]. intros i f Hf Hlv. unfold file_at in Hf. cbn in Hf.
      apply nth_error_In, in_map_iff in Hf as (c & <- & _). cbn in Hlv. unfold l_none, l_shared in Hlv. lia. }
    revert H0 Hn. generalize (vinit cs). induction ops as [|o ops IH]; intros s H0 Hn; [exact H0|].
    apply Forall_cons_iff in Ha as [Ha Has]. apply Forall_cons_iff in Hs as [Hs Hss]. destruct Hn as [Hn Hns].
    apply (IH Has Hss (vstep s o)); [apply sinv_step; assumption|exact Hns]. }
  intros i f Hf Hp Hl. apply (H i f Hf Hl).
Qed.

(* ---- getting the lock ---- *)

Definition gives_up (f : vfile) : Prop :=
  match v_pc f with Idle => v_level f = l_none -> v_os f = ONone | Wait _ l _ => l_shared <= l end.
Lemma gives_up_step s o : linv s -> all_files gives_up s -> asks o -> no_failure o -> all_files gives_up (vstep s o).
Proof.
  intros Hi H Ha Hn. destruct o as [i l|i l|i l|i|i|i]; cbn [vstep asks no_failure] in *; try contradiction;
    (destruct (nth_error (vs_files s) i) as [f|] eqn:E; [|exact H]); pose proof (proj2 Hi i f E) as [Hl Hb]; pose proof (H i f E) as Hf; unfold gives_up in Hf.
  - destruct (v_pc f) eqn:Ep; [|exact H]. destruct (Nat.leb_spec l (v_level f)); [exact H|].
    destruct ((l_reserved <=? l) && v_ro f); [exact H|]. rewrite Hl. apply all_put; [exact H|].
    unfold gives_up; cbn. unfold l_shared. lia.
  - destruct (v_pc f) eqn:Ep; [|exact H]. destruct (Nat.leb_spec (v_level f) l); [exact H|]. rewrite Hl.
    destruct (Nat.eqb_spec l l_shared); apply all_put; auto; unfold gives_up; cbn; [unfold l_shared in *; lia|reflexivity].
  - destruct (v_pc f) as [|up l how] eqn:Ep; [exact H|]. destruct (grantable (vs_files s) i how); [|exact H].
    apply all_put; [exact H|]. unfold gives_up; cbn. unfold l_none, l_shared in *. lia.
  - destruct (l_reserved <=? v_level f); [|exact H]. destruct (v_pc f) eqn:Ep; [|exact H].
    apply all_put; [exact H|]. unfold gives_up; cbn. exact Hf.
Qed.

(* A wait ends when all others have given up their locks. *)
Lemma free_lock_is_granted cs ops i f up l how : Forall (fun c => fst c = true) cs -> Forall asks ops -> Forall no_failure ops ->
  file_at (vrun (vinit cs) ops) i f -> v_pc f = Wait up l how ->
  (forall j g, j <> i -> file_at (vrun (vinit cs) ops) j g -> v_pc g = Idle /\ v_level g = l_none) ->
  exists f', file_at (vrun (vinit cs) (ops ++ [AGrant i])) i f' /\ v_pc f' = Idle /\ v_level f' = l.
Proof.
  intros Hc Ha Hs Hf Hp Ho. assert (linv (vrun (vinit cs) ops) /\ all_files gives_up (vrun (vinit cs) ops)) as [Hi Hg].
  { assert (linv (vinit cs) /\ all_files gives_up (vinit cs)) as H0.
    { split; [apply linv_init; exact Hc|]. intros j g Hg. unfold file_at in Hg. cbn in Hg.
      apply nth_error_In, in_map_iff in Hg as (c & <- & _). intros _. reflexivity. }
    revert H0. clear -Ha Hs. generalize (vinit cs). induction ops as [|o ops IH]; intros s [H0 H1]; [split; assumption|].
    apply Forall_cons_iff in Ha as [Ha Has]. apply Forall_cons_iff in Hs as [Hs Hss].
    apply (IH Has Hss (vstep s o)). split; [|apply gives_up_step; assumption].
    apply linv_step; [assumption..|]. destruct o; cbn in *; tauto. }
  unfold vrun in *. rewrite fold_left_app. cbn [fold_left]. set (s := fold_left vstep ops (vinit cs)) in *. clearbody s.
  exists (settle f l how (vs_version s)). unfold file_at in *. cbn [vstep]. rewrite Hf, Hp.
  rewrite grantable_intro.
  - cbn [vs_files]. rewrite (nth_put_same _ _ _ _ Hf). auto.
  - intros j g Hj Hgj. destruct (Ho j g Hj Hgj) as [Pg Lg]. pose proof (Hg j g Hgj) as G. unfold gives_up in G.
    rewrite Pg in G. rewrite (G Lg). destruct how; reflexivity.
Qed.

(* ---- findings ---- *)

Definition two : list (bool * bool) := [(true, false); (true, false)].
(* Handle 0 is at SHARED and asks for RESERVED; flock gives up its shared lock first; handle 1
   locks, writes and unlocks; handle 0 gets RESERVED and has an old snapshot. *)
Definition upgrade_ops : list vop :=
  [ALock 0 1; AGrant 0; ALock 1 1; AGrant 1; ALock 0 2; ALock 1 2; AGrant 1; AWrite 1; AUnlock 1 0; AGrant 0].
Lemma upgrade_stale : exists cs ops, Forall (fun c => fst c = true) cs /\ Forall asks ops /\ Forall no_failure ops /\ ~ current (vrun (vinit cs) ops).
Proof.
  exists two, upgrade_ops. split; [repeat constructor|]. split; [repeat constructor; cbn; unfold l_exclusive, l_shared; lia|].
  split; [repeat constructor|]. intros H.
  specialize (H 0 (VFile true false 2 OEx Idle 0) eq_refl eq_refl). cbn in H. assert (l_shared <= 2) as X by (unfold l_shared; lia).
  specialize (H X). discriminate.
Qed.
(* The same on the way down from EXCLUSIVE to SHARED. *)
Definition downgrade_ops : list vop :=
  [ALock 0 1; AGrant 0; ALock 0 4; AGrant 0; AWrite 0; AUnlock 0 1; ALock 1 1; AGrant 1; ALock 1 4; AGrant 1; AWrite 1; AUnlock 1 0; AGrant 0].
Lemma downgrade_stale : exists cs ops, Forall (fun c => fst c = true) cs /\ Forall asks ops /\ Forall no_failure ops /\
  ~ current (vrun (vinit cs) ops) /\ (forall i f, file_at (vrun (vinit cs) ops) i f -> v_pc f = Idle).
Proof.
  exists two, downgrade_ops. split; [repeat constructor|]. split; [repeat constructor; cbn; unfold l_exclusive, l_shared; lia|].
  split; [repeat constructor|]. split.
  - intros H. specialize (H 0 (VFile true false 1 OSh Idle 1) eq_refl eq_refl). assert (l_shared <= 1) as X by (unfold l_shared; lia).
    specialize (H X). discriminate.
  - intros i f Hf. unfold file_at in Hf. vm_compute in Hf. destruct i as [|[|i]]; cbn in Hf.
    + injection Hf as <-. reflexivity.
    + injection Hf as <-. reflexivity.
    + destruct i; discriminate.
Qed.
(* A failing flock leaves the level without its lock. *)
Definition failed_ops : list vop :=
  [ALock 0 1; AGrant 0; ALock 0 4; AGrant 0; AUnlock 0 1; AFail 0; ALock 1 1; AGrant 1; ALock 1 2; AGrant 1].
Lemma failure_breaks : exists cs ops, Forall (fun c => fst c = true) cs /\ Forall asks ops /\ ~ excludes (vrun (vinit cs) ops).
Proof.
  exists two, failed_ops. split; [repeat constructor|]. split; [repeat constructor; cbn; unfold l_exclusive, l_shared; lia|].
  intros H. specialize (H 1 0 (VFile true false 2 OEx Idle 0) (VFile true false 1 ONone Idle 0) ltac:(discriminate) eq_refl eq_refl eq_refl eq_refl).
  assert (l_reserved <= 2) as X by (unfold l_reserved; lia). specialize (H X). discriminate.
Qed.
(* Without a Locker in the backend nothing excludes anything. *)
Lemma no_locker_breaks : exists cs ops, Forall asks ops /\ Forall no_failure ops /\ ~ excludes (vrun (vinit cs) ops).
Proof.
  exists [(false, false); (false, false)], [ALock 0 1; ALock 0 2; ALock 1 1; ALock 1 2].
  split; [repeat constructor; cbn; unfold l_exclusive, l_shared; lia|]. split; [repeat constructor|].
  intros H. specialize (H 1 0 (VFile false false 2 ONone Idle 0) (VFile false false 2 ONone Idle 0) ltac:(discriminate) eq_refl eq_refl eq_refl eq_refl).
  assert (l_reserved <= 2) as X by (unfold l_reserved; lia). specialize (H X). discriminate.
Qed.

(* ---- names ---- *)

Definition name_comps (n : list byte) : list (list byte) := clean_comps true (split_sep (sep :: n)).
Lemma name_comps_proper n : Forall proper (name_comps n).
Proof.
  pose proof (clean_comps_normal true (split_sep (sep :: n)) (split_sepfree _)) as (k & l & E & Hl & Hk).
  unfold name_comps. rewrite E, (Hk eq_refl). exact Hl.
Qed.
Lemma clean_path_comps n : clean_path n = join_sep (name_comps n).
Proof. reflexivity. Qed.
Lemma normal_proper root l : Forall proper l -> normal root l.
Proof. intros H. exists 0, l. auto. Qed.

(* The name a name stands for, for elements already clean. *)
Lemma clean_path_join l : Forall proper l -> clean_path (join_sep l) = join_sep l.
Proof.
  intros H. rewrite clean_path_comps. f_equal. unfold name_comps.
  change (sep :: join_sep l) with (render true l). apply comps_render. apply normal_proper; exact H.
Qed.
Lemma clean_path_idem n : clean_path (clean_path n) = clean_path n.
Proof. rewrite (clean_path_comps n). apply clean_path_join, name_comps_proper. Qed.

Lemma join_proper_local l : l <> [] -> Forall proper l -> is_local (join_sep l) = true /\ clean (join_sep l) = join_sep l.
Proof.
  intros Hne H. pose proof (normal_proper false l H) as Hn.
  assert (join_sep l = render false l) as E by (destruct l; [congruence|reflexivity]). rewrite E. split.
  - apply is_local_comps. rewrite comps_render, rooted_render by exact Hn. split; [|auto].
    rewrite <- E. intros X. pose proof (split_join l Hne (proper_sepfree l H)) as S. rewrite X in S. cbn in S. subst l.
    apply Forall_inv in H. destruct H as [H _]. congruence.
  - apply clean_render. exact Hn.
Qed.
Lemma clean_path_local n : clean_path n = [] \/ (is_local (clean_path n) = true /\ clean (clean_path n) = clean_path n).
Proof.
  rewrite clean_path_comps. destruct (name_comps n) as [|c l] eqn:E; [left; reflexivity|right].
  apply join_proper_local; [discriminate|]. rewrite <- E. apply name_comps_proper.
Qed.

Lemma proper_app c s : proper c -> ~ In sep s -> proper (c ++ s).
Proof.
  intros (H1 & H2 & H3 & H4) Hs. split; [destruct c; [congruence|discriminate]|].
  destruct c as [|a [|b c]]; [congruence| |].
  - split; [intros X; destruct s; cbn in X; [apply H2; exact X|discriminate]|].
    split; [intros X; destruct s as [|x s]; cbn in X; [discriminate|injection X as -> -> _; apply H2; reflexivity]|].
    intros X. apply in_app_or in X as [X|X]; [apply H4; exact X|apply Hs; exact X].
  - split; [discriminate|]. split; [intros X; cbn in X; injection X as -> -> X; apply app_eq_nil in X as [-> _]; apply H3; reflexivity|].
    intros X. apply in_app_or in X as [X|X]; [apply H4; exact X|apply Hs; exact X].
Qed.

Lemma join_snoc_app l c s : join_sep (l ++ [c]) ++ s = join_sep (l ++ [c ++ s]).
Proof.
  induction l as [|x l IH]; [reflexivity|]. cbn [app]. rewrite !join_cons by (destruct l; discriminate).
  rewrite <- app_assoc. cbn [app]. rewrite IH. reflexivity.
Qed.

(* The files sqlite names after a database are its siblings. *)
Lemma suffix_is_sibling n s : clean_path n <> [] -> ~ In sep s ->
  clean_path (clean_path n ++ s) = clean_path n ++ s /\
  dir (clean_path n ++ s) = dir (clean_path n) /\ base (clean_path n ++ s) = base (clean_path n) ++ s.
Proof.
  intros Hne Hs. rewrite (clean_path_comps n) in *. pose proof (name_comps_proper n) as Hp. set (L := name_comps n) in *. clearbody L.
  assert (L <> []) as HL0 by (intros ->; apply Hne; reflexivity). destruct (exists_last HL0) as (L0 & x & ->).
  apply Forall_app in Hp as [HL Hx]. apply Forall_inv in Hx. rewrite (join_snoc_app L0 x s).
  pose proof (proper_app x s Hx Hs) as Hxs.
  assert (forall y, proper y -> join_sep (L0 ++ [y]) = render false (L0 ++ [y])) as R by (intros; destruct L0; reflexivity).
  rewrite (R x Hx), (R _ Hxs). pose proof (normal_proper false L0 HL) as Hn.
  rewrite !dir_child, !base_child by assumption. split; [|auto].
  rewrite <- (R _ Hxs). apply clean_path_join. apply Forall_app. split; [exact HL|constructor; [exact Hxs|constructor]].
Qed.
(* Distinct suffixes, distinct files; and no suffix, the database itself. *)
Lemma suffix_inj n s t : clean_path n ++ s = clean_path n ++ t -> s = t.
Proof. apply app_inv_head. Qed.

(* Names that differ only in how they are written stand for one file. *)
Lemma clean_path_spelling n : clean_path (sep :: n) = clean_path n /\ clean_path (dot :: sep :: n) = clean_path n /\ clean_path (dot :: dot :: sep :: n) = clean_path n.
Proof.
  unfold clean_path, clean. repeat split; reflexivity.
Qed.

(* ---- data source names ---- *)

Lemma split_bytes p b c : In c (split_sep p) -> In b c -> In b p.
Proof.
  revert c. induction p as [|x p IH]; intros c Hc Hb; cbn [split_sep] in Hc.
  - destruct Hc as [<-|[]]. contradiction.
  - destruct (N.eqb x sep).
    + destruct Hc as [<-|Hc]; [contradiction|right; apply (IH c); assumption].
    + destruct (split_sep p) as [|w ws] eqn:E; [exfalso; apply (split_nonempty p E)|].
      destruct Hc as [<-|Hc].
      * destruct Hb as [->|Hb]; [left; reflexivity|right; apply (IH w); [left; reflexivity|exact Hb]].
      * right; apply (IH c); [right; exact Hc|exact Hb].
Qed.
Lemma join_bytes l b : In b (join_sep l) -> b = sep \/ exists c, In c l /\ In b c.
Proof.
  induction l as [|x l IH]; [contradiction|]. destruct l as [|y l].
  - intros H. right. exists x. split; [left; reflexivity|exact H].
  - intros H. rewrite join_cons in H by discriminate. apply in_app_or in H as [H|[H|H]].
    + right. exists x. split; [left; reflexivity|exact H].
    + left. auto.
    + destruct (IH H) as [->|(c & Hc & Hb)]; [left; reflexivity|right]. exists c. split; [right; exact Hc|exact Hb].
Qed.
Lemma clean_fold_incl l : forall st c, In c (fold_left (clean_step true) l st) -> In c l \/ In c st.
Proof.
  induction l as [|x l IH]; intros st c H; [right; exact H|]. cbn [fold_left] in H. apply IH in H as [H|H]; [left; right; exact H|].
  unfold clean_step in H. destruct (is_empty x || is_dot x); [right; exact H|]. destruct (is_dotdot x).
  - destruct st as [|t st]; [contradiction|]. destruct (is_dotdot t).
    + destruct H as [<-|H]; [left; left; reflexivity|right; exact H].
    + right; right; exact H.
  - destruct H as [<-|H]; [left; left; reflexivity|right; exact H].
Qed.
Lemma clean_path_bytes n b : In b (clean_path n) -> In b (sep :: n).
Proof.
  rewrite clean_path_comps. intros H. apply join_bytes in H as [->|(c & Hc & Hb)]; [left; reflexivity|].
  unfold name_comps, clean_comps in Hc. apply in_rev in Hc. apply clean_fold_incl in Hc as [Hc|[]].
  apply (split_bytes _ b c Hc Hb).
Qed.

Lemma uri_plain_special b : uri_plain b = true -> b <> 37%N /\ b <> query_mark /\ b <> hash_mark.
Proof.
  unfold uri_plain. intros H. apply orb_true_iff in H as [H|H].
  - destruct (plain_special b H) as (H1 & _ & H2 & H3). auto.
  - cbn in H. unfold query_mark, hash_mark. repeat (apply orb_true_iff in H as [H|H]); try (apply N.eqb_eq in H; subst b; repeat split; discriminate). discriminate.
Qed.
Lemma unescape_uri s t : octets s -> unescape (uri_escape s ++ t) = option_map (app s) (unescape t).
Proof.
  induction 1 as [|b s Hb Hs IH]; cbn [uri_escape flat_map app].
  - destruct (unescape t); reflexivity.
  - rewrite <- app_assoc. unfold uri_byte at 1. destruct (uri_plain b) eqn:E.
    + destruct (uri_plain_special b E) as (E37 & _). cbn [app]. rewrite unescape_plain by exact E37.
      change (flat_map uri_byte s) with (uri_escape s). rewrite IH. destruct (unescape t); reflexivity.
    + destruct (div16 b Hb) as (H1 & H2 & H3). cbn [app unescape].
      rewrite (hex_digit_unhex _ H1), (hex_digit_unhex _ H2).
      change (flat_map uri_byte s) with (uri_escape s). rewrite IH, H3. destruct (unescape t); reflexivity.
Qed.
Lemma uri_escape_bytes s b : octets s -> In b (uri_escape s) -> b <> query_mark /\ b <> hash_mark.
Proof.
  intros Ho H. unfold uri_escape in H. apply in_flat_map in H as (x & Hx & Hb). unfold uri_byte in Hb.
  pose proof (proj1 (Forall_forall _ _) Ho x Hx) as Hlt. cbn in Hlt. destruct (uri_plain x) eqn:E.
  - destruct Hb as [<-|[]]. apply (uri_plain_special x E).
  - destruct (div16 x Hlt) as (H1 & H2 & _). destruct Hb as [<-|[<-|[<-|[]]]].
    + split; discriminate.
    + destruct (plain_special _ (hex_digit_plain _ H1)) as (_ & _ & ? & ?). auto.
    + destruct (plain_special _ (hex_digit_plain _ H2)) as (_ & _ & ? & ?). auto.
Qed.
Lemma before_app stop s b r : (forall x, In x s -> stop x = false) -> stop b = true -> before stop (s ++ b :: r) = s.
Proof.
  intros H Hb. induction s as [|x s IH]; cbn [app before]; [rewrite Hb; reflexivity|].
  rewrite (H x (or_introl eq_refl)). f_equal. apply IH. intros y Hy. apply H. right; exact Hy.
Qed.

(* sqlite reads the name back that FullPathname would give. *)
Lemma dsn_names name q : octets name -> uri_name (dsn name q) = Some (sep :: clean_path name) /\ clean_path (sep :: clean_path name) = clean_path name.
Proof.
  intros Ho. split; [|rewrite (proj1 (clean_path_spelling (clean_path name))); apply clean_path_idem].
  assert (octets (sep :: clean_path name)) as Hc.
  { apply Forall_forall. intros b [<-|Hb]; [reflexivity|]. apply clean_path_bytes in Hb as [<-|Hb]; [reflexivity|].
    exact (proj1 (Forall_forall _ _) Ho b Hb). }
  unfold uri_name, dsn. rewrite cut_prefix_app. change (63%N :: q) with (query_mark :: q). set (p := sep :: clean_path name) in *. clearbody p.
  assert (url_path (uri_escape p ++ query_mark :: q) = uri_escape p) as ->.
  { unfold url_path, url_sent.
    assert (exists r, before (N.eqb hash_mark) (uri_escape p ++ query_mark :: q) = uri_escape p ++ query_mark :: r) as [r ->].
    { exists (before (N.eqb hash_mark) q). pose proof (uri_escape_bytes p) as Hb. induction (uri_escape p) as [|x s IH]; [reflexivity|].
      cbn [app before]. destruct (N.eqb_spec hash_mark x) as [E|_]; [exfalso; destruct (Hb x Hc (or_introl eq_refl)); congruence|].
      f_equal. apply IH. intros b _ H. apply (Hb b Hc). right; exact H. }
    apply before_app; [|apply N.eqb_refl]. intros x Hx. apply N.eqb_neq. destruct (uri_escape_bytes p x Hc Hx). congruence. }
  pose proof (unescape_uri p [] Hc) as E. rewrite app_nil_r in E. rewrite E. cbn. rewrite app_nil_r. reflexivity.
Qed.

(* ---- only a granted lock raises the level ---- *)

Definition going_down (f : vfile) : Prop := match v_pc f with Wait false l _ => l < v_level f | _ => True end.
Lemma down_step s o : all_files going_down s -> all_files going_down (vstep s o).
Proof.
  intros H. destruct o as [i l|i l|i l|i|i|i]; cbn [vstep] in *;
    (destruct (nth_error (vs_files s) i) as [f|] eqn:E; [|exact H]); destruct (v_pc f) as [|up l' how] eqn:Ep; try exact H.
  - destruct (l <=? v_level f); [exact H|]. destruct ((l_reserved <=? l) && v_ro f); [exact H|].
    destruct (v_locks f); apply all_put; auto; exact I.
  - destruct (Nat.leb_spec (v_level f) l) as [L|L]; [exact H|]. destruct (v_locks f); [destruct (l =? l_shared)|]; apply all_put; auto; cbn; lia || exact I.
  - destruct (v_level f <=? l); [exact H|]. destruct (v_locks f && negb (l =? l_shared)); [|exact H]. apply all_put; auto; exact I.
  - destruct (grantable (vs_files s) i how); [|exact H]. apply all_put; auto; exact I.
  - apply all_put; auto; exact I.
  - destruct (l_reserved <=? v_level f); [|exact H]. apply all_put; auto; exact I.
  - destruct (l_reserved <=? v_level f); exact H.
Qed.

Lemma step_raises s o i f f' : all_files going_down s -> file_at s i f -> file_at (vstep s o) i f' -> v_locks f = true -> v_level f < v_level f' ->
  o = AGrant i /\ exists up how, v_pc f = Wait up (v_level f') how.
Proof.
  intros Hd. unfold file_at. intros E E' Hl Hlt.
  assert (forall j g ver, nth_error (vs_files s) j <> None -> nth_error (vs_files (VState (put_nth (vs_files s) j g) ver)) i = Some f' ->
            i = j /\ f' = g) as Hput.
  { intros j g ver Hj H. cbn [vs_files] in H. destruct (Nat.eq_dec j i) as [->|N].
    - rewrite (nth_put_same _ _ _ _ E) in H. apply some_inj in H. auto.
    - rewrite (nth_put_other _ _ _ _ N) in H. rewrite E in H. apply some_inj in H. subst f'. lia. }
  assert (nth_error (vs_files s) i = Some f' -> False) as Hsame.
  { intros H. rewrite E in H. apply some_inj in H. subst f'. lia. }
  destruct o as [j l|j l|j l|j|j|j]; cbn [vstep] in E'; destruct (nth_error (vs_files s) j) as [g|] eqn:Ej; try (destruct (Hsame E'));
    assert (nth_error (vs_files s) j <> None) as Hj by congruence; destruct (v_pc g) as [|up l' how] eqn:Ep; try (destruct (Hsame E')).
  - destruct (l <=? v_level g); [destruct (Hsame E')|]. destruct ((l_reserved <=? l) && v_ro g); [destruct (Hsame E')|].
    destruct (v_locks g) eqn:Eg; destruct (Hput _ _ _ Hj E') as [-> ->]; assert (g = f) as -> by congruence; [cbn in Hlt; lia | congruence].
  - destruct (v_level g <=? l) eqn:Elv; [destruct (Hsame E')|]. apply Nat.leb_gt in Elv.
    destruct (v_locks g) eqn:Eg; [destruct (l =? l_shared)|]; destruct (Hput _ _ _ Hj E') as [-> ->]; assert (g = f) as -> by congruence; cbn in Hlt; lia.
  - destruct (v_level g <=? l) eqn:Elv; [destruct (Hsame E')|]. apply Nat.leb_gt in Elv.
    destruct (v_locks g && negb (l =? l_shared)); [|destruct (Hsame E')]. destruct (Hput _ _ _ Hj E') as [-> ->]; assert (g = f) as -> by congruence; cbn in Hlt; lia.
  - destruct (grantable (vs_files s) j how); [|destruct (Hsame E')]. destruct (Hput _ _ _ Hj E') as [-> ->]; assert (g = f) as -> by congruence.
    split; [reflexivity|]. exists up, how. exact Ep.
  - destruct (Hput _ _ _ Hj E') as [-> ->]; assert (g = f) as -> by congruence. destruct up; cbn in Hlt; [lia|].
    pose proof (Hd _ f E) as H. unfold going_down in H. rewrite Ep in H. lia.
  - destruct (l_reserved <=? v_level g); [|destruct (Hsame E')]. destruct (Hput _ _ _ Hj E') as [-> ->]; assert (g = f) as -> by congruence; cbn in Hlt; lia.
  - destruct (l_reserved <=? v_level g); destruct (Hsame E').
Qed.

Lemma only_grants_raise cs ops o i f f' :
  let s := vrun (vinit cs) ops in
  file_at s i f -> file_at (vstep s o) i f' -> v_locks f = true -> v_level f < v_level f' ->
  o = AGrant i /\ exists up how, v_pc f = Wait up (v_level f') how.
Proof.
  intros s. apply step_raises. unfold s. assert (all_files going_down (vinit cs)) as H0.
  { intros j g Hg. unfold file_at in Hg. cbn in Hg. apply nth_error_In, in_map_iff in Hg as (c & <- & _). exact I. }
  revert H0. generalize (vinit cs). clear. induction ops as [|x ops IH]; intros s Hs; [exact Hs|]. apply (IH (vstep s x)). apply down_step, Hs.
Qed.
