From Verif Require Import Common CommonLemmas AferoRace_Model AferoRace_Spec AferoRace_Proofs.
Open Scope nat_scope.

Section apart.
Variables (k0 : nat) (h0 : heap) (mine : nat -> id -> Prop) (top : nat -> nat) (home : nat -> id).
Hypothesis T0 : tidy h0.
Hypothesis AP : apart k0 h0 mine top home.

Lemma ap_home i : i < k0 -> mine i (home i).
Proof. apply AP. Qed.
Lemma ap_root i : i < k0 -> ~ mine i root.
Proof. apply AP. Qed.
Lemma ap_new i n : i < k0 -> mine i (S i, n).
Proof. intros B. destruct AP as (_ & _ & _ & A & _). exact (A i n B). Qed.
Lemma ap_one i j u : i < k0 -> j < k0 -> mine i u -> mine j u -> i = j.
Proof. apply AP. Qed.
Lemma ap_top h i : i < k0 -> h root = h0 root -> dir_lookup h root (top i) = Some (home i).
Proof.
  intros B E. destruct AP as [A _]. destruct (A i B) as (n & es & R & I). unfold dir_lookup. rewrite E, R.
  apply in_assoc; [exact (proj1 (T0 _ _ _ R)) | exact I].
Qed.

(* What is still to be done looks at nothing but the goroutine's own objects, and its
   directory's entry in the root. *)
Fixpoint confined (i : nat) (p : proc) : Prop :=
  match p with
  | Ret _ => True
  | New _ _ k => forall n, confined i (k (S i, n))
  | Lookup d c k =>
      (mine i d /\ forall o, (forall x, o = Some x -> mine i x) -> confined i (k o)) \/
      (d = root /\ c = top i /\ confined i (k (Some (home i))))
  | IsDir u k => mine i u /\ forall b, confined i (k b)
  | Len d k => mine i d /\ forall n, confined i (k n)
  | AddEnt d u k => mine i d /\ mine i u /\ confined i k
  | DropName d _ k => mine i d /\ confined i k
  | DropEnt d u k => mine i d /\ mine i u /\ confined i k
  end.

Definition closed (h : heap) : Prop := forall i d c u, i < k0 -> mine i d -> entry h d c u -> mine i u.
Definition same_on (i : nat) (h h' : heap) : Prop := forall u, mine i u -> h u = h' u.

Lemma lookup_closed h i d c x : i < k0 -> closed h -> mine i d -> dir_lookup h d c = Some x -> mine i x.
Proof.
  intros B C M E. apply (C i d c x B M). unfold dir_lookup in E. unfold entry. destruct (h d) as [[n es|n]|]; try discriminate.
  exists n, es. split; [reflexivity | apply assoc_in; exact E].
Qed.

Lemma set_closed h d o :
  closed h -> (forall i c u, i < k0 -> mine i d -> (exists n es, o = Dir n es /\ In (c, u) es) -> mine i u) -> closed (set h d o).
Proof.
  intros C H i d' c u B M (n & es & E & I). destruct (id_dec d' d) as [->|N].
  - rewrite set_same in E. apply some_inj in E. apply (H i c u B M). exists n, es. auto.
  - rewrite set_other in E by exact N. apply (C i d' c u B M). exists n, es. auto.
Qed.
Lemma add_closed i h d u : i < k0 -> closed h -> mine i d -> mine i u -> closed (dir_add h d u).
Proof.
  intros B C M U. unfold dir_add. destruct (h d) as [[n es|n]|] eqn:E; try exact C. destruct (h u) as [o|]; [|exact C].
  apply set_closed; [exact C|]. intros j c x Bj J (n' & es' & F & I). injection F as <- <-. apply in_app_iff in I. destruct I as [I|[I|[]]].
  - apply (C j d c x Bj J). exists n, es. split; [exact E | exact (in_drop _ _ _ I)].
  - injection I as _ <-. rewrite <- (ap_one i j d B Bj M J). exact U.
Qed.
Lemma drop_closed h d c : closed h -> closed (dir_drop h d c).
Proof.
  intros C. unfold dir_drop. destruct (h d) as [[n es|n]|] eqn:E; try exact C.
  apply set_closed; [exact C|]. intros j a x Bj J (n' & es' & F & I). injection F as <- <-.
  apply (C j d a x Bj J). exists n, es. split; [exact E | exact (in_drop _ _ _ I)].
Qed.
Lemma drop_ent_closed h d u : closed h -> closed (dir_drop_ent h d u).
Proof. intros C. unfold dir_drop_ent. destruct (h u); [apply drop_closed|]; exact C. Qed.

(* Nothing but [d] changes. *)
Lemma add_else h d u x : x <> d -> dir_add h d u x = h x.
Proof. intros N. unfold dir_add. destruct (h d) as [[n es|n]|]; try reflexivity. destruct (h u); [apply set_other; exact N | reflexivity]. Qed.
Lemma drop_else h d c x : x <> d -> dir_drop h d c x = h x.
Proof. intros N. unfold dir_drop. destruct (h d) as [[n es|n]|]; try reflexivity. apply set_other; exact N. Qed.
Lemma drop_ent_else h d u x : x <> d -> dir_drop_ent h d u x = h x.
Proof. intros N. unfold dir_drop_ent. destruct (h u); [apply drop_else; exact N | reflexivity]. Qed.

Lemma exec_confined i n h p h' n' p' :
  i < k0 -> exec (S i) n h p = (h', n', p') -> confined i p -> closed h -> h root = h0 root ->
  confined i p' /\ closed h' /\ (forall x, ~ mine i x -> h' x = h x).
Proof.
  intros B X C L R. destruct p as [r|b nm k|d c k|u k|d k|d u k|d c k|d u k]; cbn in X, C; apply pair_equal_spec in X; destruct X as [X X3]; apply pair_equal_spec in X; destruct X as [X1 X2]; subst h' n' p'.
  - auto.
  - split; [apply C|]. split.
    + apply set_closed; [exact L|]. intros j c u Bj J (a & es & F & I). destruct b; [injection F as <- <-; destruct I | discriminate].
    + intros x N. apply set_other. intros ->. apply N. apply ap_new. exact B.
  - split; [|auto]. destruct C as [[M K]|(-> & -> & K)].
    + apply K. intros x E. exact (lookup_closed h i d c x B L M E).
    + rewrite (ap_top h i B R). exact K.
  - split; [apply C | auto].
  - split; [apply C | auto].
  - destruct C as (M & U & K). split; [exact K|]. split; [exact (add_closed i h d u B L M U)|]. intros x N. apply add_else. intros ->. contradiction.
  - destruct C as (M & K). split; [exact K|]. split; [exact (drop_closed h d c L)|]. intros x N. apply drop_else. intros ->. contradiction.
  - destruct C as (M & U & K). split; [exact K|]. split; [exact (drop_ent_closed h d u L)|]. intros x N. apply drop_ent_else. intros ->. contradiction.
Qed.

Lemma same_lookup i h1 h2 d c : same_on i h1 h2 -> mine i d -> dir_lookup h1 d c = dir_lookup h2 d c.
Proof. intros S M. unfold dir_lookup. rewrite (S d M). reflexivity. Qed.
Lemma set_same_on i h1 h2 d o : same_on i h1 h2 -> same_on i (set h1 d o) (set h2 d o).
Proof.
  intros S u M. destruct (id_dec u d) as [->|N]; [rewrite !set_same; reflexivity | rewrite !set_other by exact N; exact (S u M)].
Qed.
Lemma add_same_on i h1 h2 d u : same_on i h1 h2 -> mine i d -> mine i u -> same_on i (dir_add h1 d u) (dir_add h2 d u).
Proof.
  intros S M U. unfold dir_add. rewrite (S d M), (S u U). destruct (h2 d) as [[n es|n]|]; try exact S. destruct (h2 u); [|exact S].
  apply set_same_on. exact S.
Qed.
Lemma drop_same_on i h1 h2 d c : same_on i h1 h2 -> mine i d -> same_on i (dir_drop h1 d c) (dir_drop h2 d c).
Proof.
  intros S M. unfold dir_drop. rewrite (S d M). destruct (h2 d) as [[n es|n]|]; try exact S. apply set_same_on. exact S.
Qed.
Lemma exec_same i n h1 h2 p h1' n1 p1 h2' n2 p2 :
  i < k0 -> exec (S i) n h1 p = (h1', n1, p1) -> exec (S i) n h2 p = (h2', n2, p2) -> confined i p -> same_on i h1 h2 ->
  h1 root = h0 root -> h2 root = h0 root ->
  n1 = n2 /\ p1 = p2 /\ same_on i h1' h2'.
Proof.
  intros B X Y C S R1 R2. destruct p as [r|b nm k|d c k|u k|d k|d u k|d c k|d u k]; cbn in X, Y, C; apply pair_equal_spec in X; destruct X as [X X3]; apply pair_equal_spec in X; destruct X as [X1 X2];
    apply pair_equal_spec in Y; destruct Y as [Y Y3]; apply pair_equal_spec in Y; destruct Y as [Y1 Y2]; subst; (split; [reflexivity|]).
  - auto.
  - split; [reflexivity | apply set_same_on; exact S].
  - split; [|exact S]. destruct C as [[M K]|(-> & -> & K)].
    + rewrite (same_lookup i _ _ d c S M). reflexivity.
    + rewrite (ap_top _ i B R1), (ap_top _ i B R2). reflexivity.
  - split; [|exact S]. destruct C as [M K]. unfold is_dir. rewrite (S u M). reflexivity.
  - split; [|exact S]. destruct C as [M K]. unfold dir_len. rewrite (S d M). reflexivity.
  - split; [reflexivity|]. destruct C as (M & U & K). apply add_same_on; assumption.
  - split; [reflexivity|]. destruct C as (M & K). apply drop_same_on; assumption.
  - split; [reflexivity|]. destruct C as (M & U & K). unfold dir_drop_ent. rewrite (S u U). destruct (h2 u); [apply drop_same_on; assumption | exact S].
Qed.

(* Programs below the own directory are confined. *)
Lemma walk_confined i d ps q :
  mine i d -> (forall e, confined i (q (inl e))) -> (forall x, mine i x -> confined i (q (inr x))) -> confined i (walk d ps q).
Proof.
  intros M E K. revert d M. induction ps as [|c r IH]; intros d M; cbn; [auto|]. left. split; [exact M|].
  intros [x|] O; [|apply E]. cbn. specialize (O x eq_refl). split; [exact O|]. intros [|]; [apply IH; exact O | apply E].
Qed.
Lemma walk_below i p q :
  i < k0 -> below (top i) p -> (forall e, confined i (q (inl e))) -> (forall x, mine i x -> confined i (q (inr x))) -> confined i (walk root (fst p) q).
Proof.
  intros Bi B E K. unfold below in B. destruct (fst p) as [|c r]; [destruct B|]. subst c. cbn. right. split; [reflexivity|]. split; [reflexivity|].
  split; [apply ap_home; assumption|]. intros [|]; [|apply E]. apply walk_confined; [apply ap_home; assumption | exact E | exact K].
Qed.
Lemma mkdir_all_confined i d ps k : i < k0 -> mine i d -> (forall r, confined i (k r)) -> confined i (mkdir_all d ps k).
Proof.
  intros B M K. revert d M. induction ps as [|c r IH]; intros d M; cbn; [apply K|]. left. split; [exact M|]. intros [x|] O; cbn.
  - specialize (O x eq_refl). split; [exact O|]. intros [|]; [apply IH; exact O | apply K].
  - intros n. split; [exact M|]. split; [apply ap_new; assumption|]. split; [apply ap_new; assumption|]. intros [|]; [apply IH; apply ap_new; assumption | apply K].
Qed.
Lemma do_call_confined i c k : i < k0 -> works_below (top i) c -> (forall r, confined i (k r)) -> confined i (do_call c k).
Proof.
  intros B W K. destruct c as [p|p|p cr ex wr|p|o t|p]; cbn [do_call works_below] in *.
  - apply (walk_below i p); [exact B | exact W | intros e; apply K|]. intros d M. cbn. left. split; [exact M|]. intros [x|] O; [apply K|].
    cbn. intros n. split; [exact M|]. split; [apply ap_new; assumption | apply K].
  - destruct p as [|c r]; [destruct W|]. subst c. cbn. right. split; [reflexivity|]. split; [reflexivity|]. split; [apply ap_home; assumption|].
    intros [|]; [apply mkdir_all_confined; [exact B | apply ap_home; assumption | exact K] | apply K].
  - apply (walk_below i p); [exact B | exact W | intros e; apply K|]. intros d M. cbn. left. split; [exact M|]. intros [x|] O.
    + destruct ex; [apply K|]. cbn. split; [exact (O x eq_refl)|]. intros b. destruct (b && wr); apply K.
    + destruct cr; [|apply K]. cbn. intros n. split; [exact M|]. split; [apply ap_new; assumption | apply K].
  - apply (walk_below i p); [exact B | exact W | intros e; apply K|]. intros d M. cbn. left. split; [exact M|]. intros [x|] O; [|apply K].
    specialize (O x eq_refl). cbn. split; [exact O|]. intros [|]; cbn.
    + split; [exact O|]. intros [|l]; cbn; [split; [exact M | apply K] | apply K].
    + split; [exact M | apply K].
  - destruct W as [W1 W2]. unfold rename. destruct (eqb_list _ _); [apply K|]. destruct (prefix_of _ _); [apply K|].
    apply (walk_below i o); [exact B | exact W1 | intros e; apply K|]. intros op M1. cbn [confined]. left. split; [exact M1|]. intros [x|] O; [|apply K].
    specialize (O x eq_refl).
    apply (walk_below i t); [exact B | exact W2 | intros e; apply K|]. intros np M2. cbn [confined]. left. split; [exact M2|]. intros [y|] O2; [|cbn; auto 6].
    specialize (O2 y eq_refl). cbn. split; [exact O|]. intros bx. split; [exact O2|]. intros by'.
    destruct (negb bx && by'); [apply K|]. destruct (bx && negb by'); [apply K|]. destruct (bx && by'); cbn; [|auto 6].
    split; [exact O2|]. intros [|l]; cbn; auto 6.
  - apply (walk_below i p); [exact B | exact W | intros e; apply K|]. intros d M. cbn. left. split; [exact M|]. intros [x|] O; apply K.
Qed.
Lemma script_confined i cs acc : i < k0 -> Forall (works_below (top i)) cs -> confined i (script cs acc).
Proof.
  intros B. revert acc. induction cs as [|c r IH]; intros acc F; cbn [script]; [exact I|]. apply Forall_cons_iff in F. destruct F as [F1 F2].
  apply do_call_confined; [exact B | exact F1|]. intros x. apply IH. exact F2.
Qed.

Definition inv (m : machine) : Prop :=
  closed (m_heap m) /\ m_heap m root = h0 root /\ forall i g, nth_error (m_gors m) i = Some g -> i < k0 /\ confined i (g_proc g).
Lemma step_inv m i : inv m -> inv (step m i) /\ forall x, ~ mine i x -> m_heap (step m i) x = m_heap m x.
Proof.
  intros (C & R & G). destruct (nth_error (m_gors m) i) as [g|] eqn:E; [|rewrite step_none by exact E; unfold inv; auto].
  destruct (step_self m i g E) as (h & n & p & X & Hh & G'). rewrite Hh.
  destruct (exec_confined _ _ _ _ _ _ _ (proj1 (G i g E)) X (proj2 (G i g E)) C R) as (K1 & K2 & K3). split; [|exact K3].
  unfold inv. rewrite Hh. split; [exact K2|]. split; [rewrite K3 by (apply ap_root; exact (proj1 (G i g E))); exact R|].
  intros j gj Ej. destruct (Nat.eq_dec j i) as [->|N].
  - rewrite G' in Ej. apply some_inj in Ej. subst gj. split; [exact (proj1 (G i g E)) | exact K1].
  - rewrite step_gors in Ej by exact N. exact (G j gj Ej).
Qed.

Lemma run_apart i sched : i < k0 -> forall m1 m2,
  inv m1 -> inv m2 -> nth_error (m_gors m1) i = nth_error (m_gors m2) i -> same_on i (m_heap m1) (m_heap m2) ->
  nth_error (m_gors (run m1 sched)) i = nth_error (m_gors (run m2 (filter (Nat.eqb i) sched))) i /\
  same_on i (m_heap (run m1 sched)) (m_heap (run m2 (filter (Nat.eqb i) sched))).
Proof.
  intros B. induction sched as [|a r IH]; intros m1 m2 I1 I2 E S; [auto|]. rewrite run_cons. cbn [filter].
  destruct (step_inv m1 a I1) as [J1 F1]. destruct (Nat.eqb i a) eqn:A.
  - apply Nat.eqb_eq in A. subst a. rewrite run_cons. destruct (step_inv m2 i I2) as [J2 F2].
    destruct (nth_error (m_gors m1) i) as [g|] eqn:G.
    + symmetry in E. destruct (step_self m1 i g G) as (h1 & n1 & p1 & X1 & H1 & G1). destruct (step_self m2 i g E) as (h2 & n2 & p2 & X2 & H2 & G2).
      destruct (exec_same _ _ _ _ _ _ _ _ _ _ _ (proj1 (proj2 (proj2 I1) i g G)) X1 X2) as (-> & -> & S'); [exact (proj2 (proj2 (proj2 I1) i g G)) | exact S | exact (proj1 (proj2 I1)) | exact (proj1 (proj2 I2))|].
      apply IH; [exact J1 | exact J2 | congruence | rewrite H1, H2; exact S'].
    + rewrite (step_none m1) by exact G. rewrite (step_none m2) by (symmetry; exact E). apply IH; [exact I1 | exact I2 | congruence | exact S].
  - apply Nat.eqb_neq in A. apply IH; [exact J1 | exact I2| |].
    + rewrite step_gors by exact A. exact E.
    + intros u M. destruct (nth_error (m_gors m1) a) as [g|] eqn:G; [|rewrite step_none by exact G; exact (S u M)].
      rewrite F1; [exact (S u M)|]. intros M'. apply A. exact (ap_one i a u B (proj1 (proj2 (proj2 I1) a g G)) M M').
Qed.

Lemma run_alone scripts sched i : length scripts = k0 -> i < k0 ->
  (forall j cs, nth_error scripts j = Some cs -> Forall (works_below (top j)) cs) ->
  let m := run (machine_of h0 scripts) sched in
  let alone := run (machine_of h0 scripts) (filter (Nat.eqb i) sched) in
  (forall rs, returned m i rs <-> returned alone i rs) /\ forall u, mine i u -> m_heap m u = m_heap alone u.
Proof.
  intros Lk B W m alone.
  assert (inv (machine_of h0 scripts)) as J.
  { split; [intros j d c u; apply AP|]. split; [reflexivity|]. intros j g E. cbn in E. rewrite nth_error_map in E.
    destruct (nth_error scripts j) as [cs|] eqn:F; [|discriminate]. cbn in E. apply some_inj in E. subst g. cbn.
    assert (j < k0) as Bj by (rewrite <- Lk; apply nth_error_Some; congruence). split; [exact Bj|]. apply script_confined; [exact Bj | exact (W j cs F)]. }
  destruct (run_apart i sched B _ _ J J eq_refl (fun u _ => eq_refl)) as [E S]. split; [|exact S].
  intros rs. unfold returned. fold m alone in E. rewrite E. reflexivity.
Qed.
End apart.
