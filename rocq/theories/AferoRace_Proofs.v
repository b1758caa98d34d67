From Verif Require Import Common CommonLemmas AferoRace_Model AferoRace_Spec.
Open Scope nat_scope.

(* Ids, the heap, the list of goroutines. *)
Lemma id_eqb_eq a b : id_eqb a b = true <-> a = b.
Proof.
  destruct a as [a1 a2], b as [b1 b2]. unfold id_eqb. cbn [fst snd].
  rewrite andb_true_iff, !Nat.eqb_eq. split; [intros [-> ->]; reflexivity | intros E; injection E as -> ->; auto].
Qed.
Lemma id_eqb_refl a : id_eqb a a = true.
Proof. apply id_eqb_eq. reflexivity. Qed.
Lemma set_same h i o : set h i o i = Some o.
Proof. unfold set. rewrite id_eqb_refl. reflexivity. Qed.
Lemma set_other h i o j : j <> i -> set h i o j = h j.
Proof. intros N. unfold set. destruct (id_eqb j i) eqn:E; [apply id_eqb_eq in E; congruence | reflexivity]. Qed.
Lemma id_dec (a b : id) : a = b \/ a <> b.
Proof. destruct (id_eqb a b) eqn:E; [left; apply id_eqb_eq; exact E | right; intros ->; rewrite id_eqb_refl in E; discriminate]. Qed.

Lemma put_len l i g : length (put l i g) = length l.
Proof. revert i. induction l as [|x r IH]; intros [|i]; cbn; auto. Qed.
Lemma put_same l i g x : nth_error l i = Some x -> nth_error (put l i g) i = Some g.
Proof. revert i. induction l as [|y r IH]; intros [|i]; cbn; intros E; try discriminate; auto. Qed.
Lemma put_other l i j g : i <> j -> nth_error (put l i g) j = nth_error l j.
Proof.
  revert i j. induction l as [|y r IH]; intros [|i] [|j] N; cbn; try reflexivity; try congruence.
  apply IH. congruence.
Qed.

Lemma run_cons m i r : run m (i :: r) = run (step m i) r.
Proof. reflexivity. Qed.
Lemma run_app m a b : run m (a ++ b) = run (run m a) b.
Proof. unfold run. apply fold_left_app. Qed.

(* Entries of a list. *)
Lemma assoc_in l c u : assoc l c = Some u -> In (c, u) l.
Proof.
  induction l as [|[k x] r IH]; cbn; [discriminate|]. destruct (Nat.eqb k c) eqn:E.
  - intros F. apply Nat.eqb_eq in E. injection F as ->. subst. left. reflexivity.
  - intros F. right. auto.
Qed.
Lemma assoc_none l c : assoc l c = None -> ~ In c (map fst l).
Proof.
  induction l as [|[k x] r IH]; cbn; [intros _ []|]. destruct (Nat.eqb k c) eqn:E; [discriminate|].
  apply Nat.eqb_neq in E. intros F [G|G]; [congruence | exact (IH F G)].
Qed.
Lemma in_assoc l c u : NoDup (map fst l) -> In (c, u) l -> assoc l c = Some u.
Proof.
  induction l as [|[k x] r IH]; cbn; [intros _ []|]. intros N [E|E].
  - injection E as -> ->. rewrite Nat.eqb_refl. reflexivity.
  - apply NoDup_cons_iff in N. destruct N as [N1 N2]. destruct (Nat.eqb k c) eqn:F.
    + apply Nat.eqb_eq in F. subst. exfalso. apply N1. apply in_map_iff. exists (c, u). auto.
    + auto.
Qed.
Lemma assoc_app_none l r c : assoc l c = None -> assoc (l ++ r) c = assoc r c.
Proof. induction l as [|[k x] t IH]; cbn; [reflexivity|]. destruct (Nat.eqb k c); [discriminate | auto]. Qed.
Lemma assoc_app_some l r c u : assoc l c = Some u -> assoc (l ++ r) c = Some u.
Proof. induction l as [|[k x] t IH]; cbn; [discriminate|]. destruct (Nat.eqb k c); auto. Qed.
Lemma drop_other l c a : a <> c -> assoc (drop_name l c) a = assoc l a.
Proof.
  intros N. induction l as [|[k x] t IH]; cbn; [reflexivity|]. destruct (Nat.eqb k c) eqn:E.
  - apply Nat.eqb_eq in E. subst k. destruct (Nat.eqb c a) eqn:F; [apply Nat.eqb_eq in F; congruence | reflexivity].
  - cbn. destruct (Nat.eqb k a); auto.
Qed.
Lemma drop_none l c : assoc l c = None -> drop_name l c = l.
Proof. induction l as [|[k x] t IH]; cbn; [reflexivity|]. destruct (Nat.eqb k c); [discriminate|]. intros E. rewrite (IH E). reflexivity. Qed.
Lemma in_drop l c e : In e (drop_name l c) -> In e l.
Proof. induction l as [|[k x] t IH]; cbn; [auto|]. destruct (Nat.eqb k c); cbn; intuition. Qed.
Lemma in_drop_name l c : NoDup (map fst l) -> ~ In c (map fst (drop_name l c)).
Proof.
  induction l as [|[k x] t IH]; cbn; [intros _ []|]. intros N. apply NoDup_cons_iff in N. destruct N as [N1 N2].
  destruct (Nat.eqb k c) eqn:E; [apply Nat.eqb_eq in E; subst; exact N1|]. apply Nat.eqb_neq in E.
  cbn. intros [F|F]; [congruence | exact (IH N2 F)].
Qed.
Lemma drop_nodup l c : NoDup (map fst l) -> NoDup (map fst (drop_name l c)).
Proof.
  induction l as [|[k x] t IH]; cbn; [auto|]. intros N. apply NoDup_cons_iff in N. destruct N as [N1 N2].
  destruct (Nat.eqb k c); [exact N2|]. cbn. constructor; [|auto].
  intros F. apply N1. apply in_map_iff in F. destruct F as [e [E1 E2]]. apply in_map_iff. exists e. split; [exact E1|]. exact (in_drop _ _ _ E2).
Qed.
Lemma nodup_snoc (l : list nat) a : NoDup l -> ~ In a l -> NoDup (l ++ [a]).
Proof.
  induction l as [|x r IH]; cbn; intros N A; [constructor; [intros [] | constructor]|].
  apply NoDup_cons_iff in N. destruct N as [N1 N2]. constructor.
  - intros F. apply in_app_iff in F. destruct F as [F|[F|[]]]; [auto | subst; apply A; left; reflexivity].
  - apply IH; auto.
Qed.

(* Every call is over after a bounded number of its goroutine's own steps. *)
Fixpoint within (n : nat) (p : proc) {struct p} : Prop :=
  match p with
  | Ret _ => True
  | New _ _ k => match n with O => False | S n => forall u, within n (k u) end
  | Lookup _ _ k => match n with O => False | S n => forall o, within n (k o) end
  | IsDir _ k => match n with O => False | S n => forall b, within n (k b) end
  | Len _ k => match n with O => False | S n => forall l, within n (k l) end
  | AddEnt _ _ k => match n with O => False | S n => within n k end
  | DropName _ _ k => match n with O => False | S n => within n k end
  | DropEnt _ _ k => match n with O => False | S n => within n k end
  end.

Lemma within_exec me k h p n :
  within (S n) p -> within n (snd (exec me k h p)).
Proof. destruct p; cbn; auto. Qed.
Lemma within_mono n m p : n <= m -> within n p -> within m p.
Proof.
  revert n m. induction p as [r|b nm k IH|d c k IH|u k IH|d k IH|d u k IH|d c k IH|d u k IH]; intros n m L; cbn; [auto|..];
    (destruct n as [|n]; [intros []|]; destruct m as [|m]; [lia|]; intros W).
  1,2,3,4: intros z; eapply IH; [|apply W]; lia.
  all: eapply IH; [|apply W]; lia.
Qed.
Lemma within_zero p : within 0 p -> exists r, p = Ret r.
Proof. destruct p; cbn; try intros []. eexists. reflexivity. Qed.

Section cost.
Variables (n : nat) (k : res -> proc).
Hypothesis K : forall r, within n (k r).

Lemma walk_within q d ps m : (forall w, within m (q w)) -> within (2 * length ps + m) (walk d ps q).
Proof.
  intros Q. revert d. induction ps as [|c r IH]; intros d; cbn [walk length]; [apply Q|].
  replace (2 * S (length r) + m) with (S (S (2 * length r + m))) by lia.
  cbn. intros [x|]; [|apply (within_mono m); [lia | apply Q]].
  cbn. intros [|]; [apply IH | apply (within_mono m); [lia | apply Q]].
Qed.
Ltac bound := cbv beta iota; first [ apply K | apply (within_mono n); [lia | apply K] ].
Lemma mkdir_all_within d ps : within (4 * length ps + n) (mkdir_all d ps k).
Proof.
  revert d. induction ps as [|c r IH]; intros d; cbn [mkdir_all length]; [apply K|].
  replace (4 * S (length r) + n) with (S (S (S (S (4 * length r + n))))) by lia.
  cbn. intros [x|]; cbn.
  - intros [|]; [eapply within_mono; [|apply IH]; lia | bound].
  - intros u [|]; [apply IH | bound].
Qed.
Lemma do_call_within c : within (cost c + n) (do_call c k).
Proof.
  destruct c as [p|p|p cr ex wr|p|o t|p]; cbn [do_call cost].
  - unfold mkdir. replace (2 * length (fst p) + 3 + n) with (2 * length (fst p) + (3 + n)) by lia.
    apply walk_within. intros [e|d]; [bound|]. cbn. intros [x|]; [bound|]. cbn. intros u. bound.
  - apply mkdir_all_within.
  - unfold open_file. replace (2 * length (fst p) + 3 + n) with (2 * length (fst p) + (3 + n)) by lia.
    apply walk_within. intros [e|d]; [bound|]. cbn. intros [x|].
    + destruct ex; [bound|]. cbn. intros b. destruct (b && wr); bound.
    + destruct cr; [|bound]. cbn. intros u. bound.
  - unfold remove. replace (2 * length (fst p) + 4 + n) with (2 * length (fst p) + (4 + n)) by lia.
    apply walk_within. intros [e|d]; [bound|]. cbn. intros [x|]; [|bound]. cbn. intros [|]; cbn; [|bound].
    intros [|l]; cbn; bound.
  - unfold rename. destruct (eqb_list _ _); [bound|]. destruct (prefix_of _ _); [bound|].
    replace (2 * length (fst o) + 2 * length (fst t) + 7 + n) with (2 * length (fst o) + (S (2 * length (fst t) + (6 + n)))) by lia.
    apply walk_within. intros [e|op]; [bound|]. cbn [within]. intros [x|]; [|bound].
    apply walk_within. intros [e|np]; [bound|]. cbn. intros [y|]; [|cbn; bound].
    cbn. intros bx by'. destruct (negb bx && by'); [bound|]. destruct (bx && negb by'); [bound|].
    destruct (bx && by'); cbn; [|bound]. intros [|l]; cbn; bound.
  - unfold stat. replace (2 * length (fst p) + 1 + n) with (2 * length (fst p) + (1 + n)) by lia.
    apply walk_within. intros [e|d]; [bound|]. cbn. intros [x|]; bound.
Qed.
End cost.

Lemma script_within cs acc : within (costs cs) (script cs acc).
Proof.
  revert acc. induction cs as [|c r IH]; intros acc; cbn [costs script]; [exact I|].
  apply do_call_within. intros x. apply IH.
Qed.

(* A step of [i] is a step of [i] only. *)
Lemma step_gors m i j : j <> i -> nth_error (m_gors (step m i)) j = nth_error (m_gors m) j.
Proof.
  intros N. unfold step. destruct (nth_error (m_gors m) i) as [g|]; [|reflexivity].
  destruct (exec (S i) (g_made g) (m_heap m) (g_proc g)) as [[h n] p]. cbn. apply put_other. congruence.
Qed.
Lemma step_self m i g :
  nth_error (m_gors m) i = Some g ->
  exists h n p, exec (S i) (g_made g) (m_heap m) (g_proc g) = (h, n, p) /\
    m_heap (step m i) = h /\ nth_error (m_gors (step m i)) i = Some {| g_made := n; g_proc := p |}.
Proof.
  intros E. unfold step. rewrite E. destruct (exec (S i) (g_made g) (m_heap m) (g_proc g)) as [[h n] p] eqn:X.
  exists h, n, p. cbn. split; [reflexivity|]. split; [reflexivity|]. exact (put_same _ _ _ _ E).
Qed.
Lemma step_none m i : nth_error (m_gors m) i = None -> step m i = m.
Proof. intros E. unfold step. rewrite E. reflexivity. Qed.

Lemma turns_cons i a sched : turns i (a :: sched) = (if Nat.eqb i a then 1 else 0) + turns i sched.
Proof. unfold turns. cbn. destruct (Nat.eqb i a); reflexivity. Qed.

Lemma run_within sched : forall m i g n,
  nth_error (m_gors m) i = Some g -> within n (g_proc g) -> n <= turns i sched ->
  exists rs, returned (run m sched) i rs.
Proof.
  induction sched as [|a sched IH]; intros m i g n E W L.
  - unfold turns in L. cbn in L. assert (n = 0) by lia. subst n. destruct (within_zero _ W) as [r R].
    exists r, g. split; [exact E | exact R].
  - rewrite turns_cons in L. rewrite run_cons. destruct (Nat.eqb i a) eqn:A.
    + apply Nat.eqb_eq in A. subst a. destruct (step_self m i g E) as (h & n' & p & X & H & G).
      destruct n as [|n].
      * destruct (within_zero _ W) as [r R]. rewrite R in X. cbn in X. apply pair_equal_spec in X. destruct X as [_ X]. subst p.
        apply (IH _ i _ 0 G); cbn; [exact I | lia].
      * apply (IH _ i _ n G); [|lia]. cbn. pose proof (within_exec (S i) (g_made g) (m_heap m) (g_proc g) n W) as V.
        rewrite X in V. exact V.
    + apply Nat.eqb_neq in A. apply (IH _ i g n); [|exact W | lia]. rewrite step_gors by congruence. exact E.
Qed.

(* How many results a goroutine ends with. *)
Fixpoint ends (Q : list res -> Prop) (p : proc) : Prop :=
  match p with
  | Ret r => Q r
  | New _ _ k => forall u, ends Q (k u)
  | Lookup _ _ k => forall o, ends Q (k o)
  | IsDir _ k => forall b, ends Q (k b)
  | Len _ k => forall l, ends Q (k l)
  | AddEnt _ _ k | DropName _ _ k | DropEnt _ _ k => ends Q k
  end.
Lemma ends_exec Q me n h p : ends Q p -> ends Q (snd (exec me n h p)).
Proof. destruct p; cbn; auto. Qed.
Lemma walk_ends Q d ps q : (forall w, ends Q (q w)) -> ends Q (walk d ps q).
Proof.
  intros H. revert d. induction ps as [|c r IH]; intros d; cbn; [apply H|]. intros [x|]; [|apply H].
  cbn. intros [|]; [apply IH | apply H].
Qed.
Lemma mkdir_all_ends Q d ps k : (forall r, ends Q (k r)) -> ends Q (mkdir_all d ps k).
Proof.
  intros H. revert d. induction ps as [|c r IH]; intros d; cbn; [apply H|]. intros [x|]; cbn.
  - intros [|]; [apply IH | apply H].
  - intros u [|]; [apply IH | apply H].
Qed.
Lemma do_call_ends Q c k : (forall r, ends Q (k r)) -> ends Q (do_call c k).
Proof.
  intros H. destruct c as [p|p|p cr ex wr|p|o t|p]; cbn [do_call].
  - apply walk_ends. intros [e|d]; [apply H|]. cbn. intros [x|]; [apply H|]. cbn. intros u. apply H.
  - apply mkdir_all_ends. exact H.
  - apply walk_ends. intros [e|d]; [apply H|]. cbn. intros [x|].
    + destruct ex; [apply H|]. cbn. intros b. destruct (b && wr); apply H.
    + destruct cr; [|apply H]. cbn. intros u. apply H.
  - apply walk_ends. intros [e|d]; [apply H|]. cbn. intros [x|]; [|apply H]. cbn. intros [|]; cbn; [|apply H].
    intros [|l]; cbn; apply H.
  - unfold rename. destruct (eqb_list _ _); [apply H|]. destruct (prefix_of _ _); [apply H|].
    apply walk_ends. intros [e|op]; [apply H|]. cbn [ends]. intros [x|]; [|apply H].
    apply walk_ends. intros [e|np]; [apply H|]. cbn. intros [y|]; [|cbn; apply H].
    cbn. intros bx by'. destruct (negb bx && by'); [apply H|]. destruct (bx && negb by'); [apply H|].
    destruct (bx && by'); cbn; [|apply H]. intros [|l]; cbn; apply H.
  - apply walk_ends. intros [e|d]; [apply H|]. cbn. intros [x|]; apply H.
Qed.
Lemma script_ends cs acc : ends (fun r => length r = length acc + length cs) (script cs acc).
Proof.
  revert acc. induction cs as [|c r IH]; intros acc; cbn [script]; [cbn; lia|].
  apply do_call_ends. intros x. specialize (IH (acc ++ [x])). rewrite app_length in IH. cbn in IH |- *.
  replace (length acc + S (length r)) with (length acc + 1 + length r) by lia. exact IH.
Qed.
Lemma run_ends Q sched : forall m i g, nth_error (m_gors m) i = Some g -> ends Q (g_proc g) ->
  forall g', nth_error (m_gors (run m sched)) i = Some g' -> ends Q (g_proc g').
Proof.
  induction sched as [|a sched IH]; intros m i g E W g' G; [cbn in G; rewrite E in G; apply some_inj in G; subst; exact W|].
  rewrite run_cons in G. destruct (Nat.eq_dec i a) as [<-|N].
  - destruct (step_self m i g E) as (h & n' & p & X & _ & G').
    apply (IH _ i _ G'); [|exact G]. cbn. pose proof (ends_exec Q (S i) (g_made g) (m_heap m) (g_proc g) W) as V. rewrite X in V. exact V.
  - apply (IH (step m a) i g); [|exact W | exact G]. rewrite step_gors by congruence. exact E.
Qed.

Lemma machine_gor h scripts i cs : nth_error scripts i = Some cs -> nth_error (m_gors (machine_of h scripts)) i = Some (start cs).
Proof. intros E. cbn. apply map_nth_error. exact E. Qed.

Lemma calls_return h scripts sched i cs :
  nth_error scripts i = Some cs -> costs cs <= turns i sched ->
  exists rs, returned (run (machine_of h scripts) sched) i rs /\ length rs = length cs.
Proof.
  intros E L. pose proof (machine_gor h scripts i cs E) as G.
  destruct (run_within sched _ i _ (costs cs) G (script_within cs []) L) as [rs R].
  exists rs. split; [exact R|]. destruct R as [g [G1 G2]].
  pose proof (run_ends _ sched _ i _ G (script_ends cs []) g G1) as H. rewrite G2 in H. cbn in H. exact H.
Qed.

(* The list of a directory and its map agree throughout. *)
Definition unborn (m : machine) : Prop :=
  forall i g n, nth_error (m_gors m) i = Some g -> g_made g <= n -> m_heap m (S i, n) = None.

Lemma called_set h i o u c :
  (h i = None \/ exists o', h i = Some o' /\ name_of o' = name_of o /\
     match o', o with Dir _ _, Dir _ _ | File _, File _ => True | _, _ => False end) ->
  called h u c -> called (set h i o) u c.
Proof.
  intros H C. destruct (id_dec u i) as [->|N].
  - destruct H as [H|[o' (H & H2 & H3)]].
    + destruct C as [C|[es C]]; congruence.
    + unfold called. rewrite set_same. destruct C as [C|[es C]]; rewrite H in C; apply some_inj in C; subst o'; destruct o as [n es'|n]; cbn in *; try contradiction; subst; eauto.
  - unfold called. rewrite set_other by exact N. exact C.
Qed.
Lemma called_name h u o : h u = Some o -> called h u (name_of o).
Proof. intros E. unfold called. destruct o as [n es|n]; cbn; eauto. Qed.

Lemma tidy_new h i o : tidy h -> h i = None -> match o with Dir _ es => es = [] | File _ => True end -> tidy (set h i o).
Proof.
  intros T N O d n es E. destruct (id_dec d i) as [->|D].
  - rewrite set_same in E. apply some_inj in E. subst o. subst es. split; [constructor | intros c u []].
  - rewrite set_other in E by exact D. destruct (T _ _ _ E) as [T1 T2]. split; [exact T1|].
    intros c u I. apply called_set; [left; exact N | exact (T2 _ _ I)].
Qed.
Lemma tidy_ents h d n es es' :
  tidy h -> h d = Some (Dir n es) -> NoDup (map fst es') -> (forall c u, In (c, u) es' -> called h u c) ->
  tidy (set h d (Dir n es')).
Proof.
  intros T E N C d' n' es2 E2.
  assert (forall c u, called h u c -> called (set h d (Dir n es')) u c) as P
    by (intros c u; apply called_set; right; exists (Dir n es); cbn; auto).
  destruct (id_dec d' d) as [->|D].
  - rewrite set_same in E2. apply some_inj in E2. injection E2 as <- <-. split; [exact N|]. intros c u I. apply P. exact (C _ _ I).
  - rewrite set_other in E2 by exact D. destruct (T _ _ _ E2) as [T1 T2]. split; [exact T1|]. intros c u I. apply P. exact (T2 _ _ I).
Qed.
Lemma tidy_add h d u : tidy h -> tidy (dir_add h d u).
Proof.
  intros T. unfold dir_add. destruct (h d) as [[n es|n]|] eqn:E; try exact T. destruct (h u) as [o|] eqn:U; [|exact T].
  destruct (T _ _ _ E) as [T1 T2]. apply (tidy_ents h d n es); [exact T | exact E| |].
  - rewrite map_app. cbn. apply nodup_snoc; [apply drop_nodup; exact T1 | apply in_drop_name; exact T1].
  - intros c x I. apply in_app_iff in I. destruct I as [I|[I|[]]].
    + exact (T2 _ _ (in_drop _ _ _ I)).
    + injection I as <- <-. exact (called_name h u o U).
Qed.
Lemma tidy_drop h d c : tidy h -> tidy (dir_drop h d c).
Proof.
  intros T. unfold dir_drop. destruct (h d) as [[n es|n]|] eqn:E; try exact T.
  destruct (T _ _ _ E) as [T1 T2]. apply (tidy_ents h d n es); [exact T | exact E| |].
  - apply drop_nodup. exact T1.
  - intros a x I. exact (T2 _ _ (in_drop _ _ _ I)).
Qed.

(* The heap a step leaves has every object where it was; only [New] adds one. *)
Lemma add_dom h d u x : h x = None -> dir_add h d u x = None.
Proof.
  intros N. unfold dir_add. destruct (h d) as [[n es|n]|] eqn:E; try exact N. destruct (h u); [|exact N].
  rewrite set_other; [exact N | congruence].
Qed.
Lemma drop_dom h d c x : h x = None -> dir_drop h d c x = None.
Proof.
  intros N. unfold dir_drop. destruct (h d) as [[n es|n]|] eqn:E; try exact N. rewrite set_other; [exact N | congruence].
Qed.
Lemma drop_ent_dom h d u x : h x = None -> dir_drop_ent h d u x = None.
Proof. intros N. unfold dir_drop_ent. destruct (h u); [apply drop_dom; exact N | exact N]. Qed.
Lemma exec_dom me n h p h' n' p' x :
  exec me n h p = (h', n', p') -> h x = None -> (x = (me, n) -> False) -> h' x = None.
Proof.
  intros X N D. destruct p; cbn in X; apply pair_equal_spec in X; destruct X as [X _]; apply pair_equal_spec in X; destruct X as [X _]; subst h';
    try exact N; [|apply add_dom; exact N | apply drop_dom; exact N | apply drop_ent_dom; exact N].
  rewrite set_other; [exact N | intros E; exact (D E)].
Qed.
Lemma exec_made me n h p h' n' p' :
  exec me n h p = (h', n', p') -> n <= n' /\ (n = n' -> h' (me, n) = h (me, n) \/ h (me, n) <> None).
Proof.
  intros X. destruct p; cbn in X; apply pair_equal_spec in X; destruct X as [X Y]; apply pair_equal_spec in X; destruct X as [X Z]; subst h' n';
    split; try lia; intros _; try (left; reflexivity); destruct (h (me, n)) eqn:E; try (right; discriminate); left;
    [apply add_dom | apply drop_dom | apply drop_ent_dom]; exact E.
Qed.
Lemma exec_unborn me n h p h' n' p' :
  exec me n h p = (h', n', p') -> (forall k, n <= k -> h (me, k) = None) -> forall k, n' <= k -> h' (me, k) = None.
Proof.
  intros X U k L. destruct (exec_made _ _ _ _ _ _ _ X) as [M _].
  destruct (Nat.eq_dec k n) as [->|D].
  - assert (n = n') by lia. subst n'. destruct (exec_made _ _ _ _ _ _ _ X) as [_ M2]. destruct (M2 eq_refl) as [E|E]; [|destruct E; apply U; lia].
    rewrite E. apply U. lia.
  - apply (exec_dom _ _ _ _ _ _ _ _ X); [apply U; lia | intros E; injection E as E; contradiction].
Qed.
Lemma step_unborn m i : unborn m -> unborn (step m i).
Proof.
  intros U j g n E L. destruct (nth_error (m_gors m) i) as [gi|] eqn:G.
  - destruct (step_self m i gi G) as (h & n' & p & X & H & G'). rewrite H.
    destruct (Nat.eq_dec j i) as [->|N].
    + rewrite G' in E. apply some_inj in E. subst g. cbn in L. apply (exec_unborn _ _ _ _ _ _ _ X); [|exact L]. intros k K. exact (U i gi k G K).
    + rewrite step_gors in E by exact N. apply (exec_dom _ _ _ _ _ _ _ _ X); [exact (U j g n E L)|]. intros F. injection F as F. congruence.
  - rewrite step_none in E |- * by exact G. exact (U j g n E L).
Qed.
Lemma exec_tidy me n h p h' n' p' :
  exec me n h p = (h', n', p') -> h (me, n) = None -> tidy h -> tidy h'.
Proof.
  intros X N T. destruct p; cbn in X; apply pair_equal_spec in X; destruct X as [X _]; apply pair_equal_spec in X; destruct X as [X _]; subst h';
    try exact T; [| apply tidy_add; exact T | apply tidy_drop; exact T |].
  - apply tidy_new; [exact T | exact N | destruct dir; reflexivity || exact I].
  - unfold dir_drop_ent. destruct (h u); [apply tidy_drop; exact T | exact T].
Qed.
Lemma step_tidy m i : unborn m -> tidy (m_heap m) -> tidy (m_heap (step m i)).
Proof.
  intros U T. destruct (nth_error (m_gors m) i) as [g|] eqn:G; [|rewrite step_none by exact G; exact T].
  destruct (step_self m i g G) as (h & n' & p & X & H & _). rewrite H. apply (exec_tidy _ _ _ _ _ _ _ X); [|exact T]. apply (U i g); auto.
Qed.
Lemma run_tidy sched : forall m, unborn m -> tidy (m_heap m) -> tidy (m_heap (run m sched)) /\ unborn (run m sched).
Proof.
  induction sched as [|a r IH]; intros m U T; [auto|]. rewrite run_cons. apply IH; [apply step_unborn; exact U | apply step_tidy; assumption].
Qed.
Lemma machine_unborn h scripts : nobodys h -> unborn (machine_of h scripts).
Proof. intros N i g n _ _. apply N. Qed.
Lemma stays_tidy h scripts sched : tidy h -> nobodys h -> tidy (m_heap (run (machine_of h scripts) sched)).
Proof. intros T N. apply run_tidy; [apply machine_unborn; exact N | exact T]. Qed.

(* ---- which answers belong to which call ---- *)

Lemma walk_lost Q d ps q : (forall x, ends Q (q (inr x))) -> (forall e, lost e -> ends Q (q (inl e))) -> ends Q (walk d ps q).
Proof.
  intros H1 H2. revert d. induction ps as [|c r IH]; intros d; cbn [walk ends]; [apply H1|].
  intros [x|]; cbn [ends]; [|apply H2; left; reflexivity]. intros [|]; [apply IH|apply H2; right; reflexivity].
Qed.

Lemma mkdir_all_answers Q p k : (forall r, r = Done \/ r = Fail ENotDir -> ends Q (k r)) -> forall d, ends Q (mkdir_all d p k).
Proof.
  intros H. induction p as [|c r IH]; intros d; cbn [mkdir_all ends]; [apply H; auto|].
  intros [x|]; cbn [ends]; [intros [|]; [apply IH|apply H; auto]|]. intros u [|]; [apply IH|apply H; auto].
Qed.

Lemma eqb_list_eq a : forall b, eqb_list a b = true <-> a = b.
Proof.
  induction a as [|x a IH]; intros [|y b]; cbn [eqb_list]; try (split; [discriminate|discriminate]); [split; reflexivity|].
  rewrite andb_true_iff, Nat.eqb_eq, IH. split; [intros [-> ->]; reflexivity|intros E; inversion E; auto].
Qed.

Lemma prefix_of_eq a : forall b, prefix_of a b = true <-> exists r, b = a ++ r.
Proof.
  induction a as [|x a IH]; intros b; cbn [prefix_of]; [split; [exists b; reflexivity|reflexivity]|].
  destruct b as [|y b]; [split; [discriminate|intros [r E]; discriminate E]|].
  rewrite andb_true_iff, Nat.eqb_eq, IH. split; [intros [-> [r ->]]; exists r; reflexivity|intros [r E]; inversion E; split; [reflexivity|exists r; reflexivity]].
Qed.

Lemma same_or_above o n : whole o <> whole n -> (exists r, whole n = whole o ++ r) <-> above o n.
Proof.
  intros Hne. split; [intros [[|a r] E]; [rewrite app_nil_r in E; congruence|exists a, r; exact E]|intros (a & r & E); exists (a :: r); exact E].
Qed.

Lemma not_above_self o n : whole o = whole n -> ~ above o n.
Proof. intros E (a & r & E'). rewrite <- E in E'. apply (f_equal (@length nat)) in E'. rewrite app_length in E'. cbn in E'. lia. Qed.

Lemma rename_answers Q o n k : (forall r, answers (Rename o n) r -> ends Q (k r)) -> ends Q (rename o n k).
Proof.
  intros H. unfold rename. change (full o) with (whole o). change (full n) with (whole n).
  destruct (eqb_list (whole o) (whole n)) eqn:E1.
  { apply eqb_list_eq in E1. apply H. cbn [answers]. split; [reflexivity|]. split; [|auto]. split; [discriminate|]. intros A. destruct (not_above_self _ _ E1 A). }
  assert (whole o <> whole n) as Hne by (intros E; apply eqb_list_eq in E; congruence).
  destruct (prefix_of (whole o) (whole n)) eqn:E2.
  { apply prefix_of_eq in E2. apply (same_or_above _ _ Hne) in E2. apply H. cbn [answers]. split; [intros E; contradiction|]. split; [split; auto|]. auto. }
  assert (~ above o n) as Hna.
  { intros A. apply (same_or_above _ _ Hne), prefix_of_eq in A. congruence. }
  assert (forall r, r <> Fail EInval -> r = Done \/ r = Fail EIsDir \/ r = Fail ENotEmpty \/ (exists e, r = Fail e /\ lost e) -> ends Q (k r)) as K.
  { intros r Hr Hd. apply H. cbn [answers]. split; [intros E; contradiction|]. split; [split; [intros E; contradiction|intros A; contradiction]|]. tauto. }
  assert (forall e, lost e -> ends Q (k (Fail e))) as KL.
  { intros e He. apply K; [destruct He; subst; discriminate|]. right. right. right. exists e. auto. }
  assert (ends Q (k Done)) as KD by (apply K; [discriminate|auto]).
  apply walk_lost; [|exact KL]. intros op. cbn [ends]. intros [x|]; [|apply KL; left; reflexivity].
  apply walk_lost; [|exact KL]. intros np. cbn [ends]. intros [y|]; [|cbn [move ends]; exact KD].
  cbn [ends]. intros bx by'. destruct bx, by'; cbn [negb andb].
  - cbn [ends]. intros l. destruct (0 <? l); [apply K; [discriminate|auto]|cbn [move ends]; exact KD].
  - apply KL. right. reflexivity.
  - apply K; [discriminate|auto].
  - cbn [move ends]. exact KD.
Qed.

Lemma do_call_answers Q c k : (forall r, answers c r -> ends Q (k r)) -> ends Q (do_call c k).
Proof.
  intros H. destruct c as [p|p|p cr ex w|p|o n|p]; cbn [do_call].
  - apply walk_lost; [|intros e He; apply H; cbn; eauto]. intros d. cbn [ends]. intros [x|]; cbn [ends]; [apply H; cbn; auto|]. intros u. apply H. cbn. auto.
  - apply mkdir_all_answers. exact H.
  - apply walk_lost; [|intros e He; apply H; cbn; eauto 6]. intros d. cbn [ends]. intros [x|].
    + destruct ex; [apply H; cbn; auto|]. cbn [ends]. intros b. destruct (b && w) eqn:E; [apply andb_true_iff in E; destruct E; apply H; cbn; right; right; left; auto|apply H; cbn; eauto].
    + destruct cr; cbn [ends]; [intros u; apply H; cbn; eauto|]. apply H. cbn. right. right. right. exists ENoEnt. split; [reflexivity|left; reflexivity].
  - apply walk_lost; [|intros e He; apply H; cbn; eauto]. intros d. cbn [ends]. intros [x|]; [|apply H; cbn; right; right; exists ENoEnt; split; [reflexivity|left; reflexivity]].
    cbn [ends]. intros b. destruct b; cbn [ends]; [|apply H; cbn; auto]. intros n. destruct (0 <? n); [apply H; cbn; auto|]. cbn [ends]. apply H; cbn; auto.
  - apply rename_answers. exact H.
  - apply walk_lost; [|intros e He; apply H; cbn; eauto]. intros d. cbn [ends]. intros [x|]; apply H; cbn; eauto. right. exists ENoEnt. split; [reflexivity|left; reflexivity].
Qed.

Lemma script_answers cs : forall acc, ends (fun rs => exists r, rs = acc ++ r /\ Forall2 answers cs r) (script cs acc).
Proof.
  induction cs as [|c cs IH]; intros acc; cbn [script ends]; [exists []; split; [symmetry; apply app_nil_r|constructor]|].
  apply do_call_answers. intros x Hx. specialize (IH (acc ++ [x])).
  assert (forall Q Q' : list res -> Prop, (forall r, Q r -> Q' r) -> forall p, ends Q p -> ends Q' p) as Hmono.
  { intros Q Q' HQ. induction p; cbn [ends]; intros Hp; auto. }
  revert IH. apply Hmono. intros rs (r & -> & Hr). exists (x :: r). split; [rewrite <- app_assoc; reflexivity|]. constructor; assumption.
Qed.

Lemma each_answers h scripts sched i cs rs :
  nth_error scripts i = Some cs -> returned (run (machine_of h scripts) sched) i rs -> Forall2 answers cs rs.
Proof.
  intros Hi (g & Hg & Hp). pose proof (run_ends _ sched _ _ _ (machine_gor h scripts i cs Hi) (script_answers cs []) g Hg) as He.
  rewrite Hp in He. cbn [ends] in He. destruct He as (r & -> & Hr). exact Hr.
Qed.
