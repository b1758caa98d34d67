From Verif Require Import Common CommonLemmas AferoRace_Model AferoRace_Spec AferoRace_Proofs.
Open Scope nat_scope.

(* What only grows while nobody removes or renames. *)
Definition same_sort (o o' : obj) : Prop :=
  match o, o' with Dir n _, Dir n' _ => n = n' | File n, File n' => n = n' | _, _ => False end.
Definition ext (h h' : heap) : Prop :=
  (forall d c u, dir_lookup h d c = Some u -> dir_lookup h' d c = Some u) /\
  (forall u o, h u = Some o -> exists o', h' u = Some o' /\ same_sort o o').

Lemma same_sort_refl o : same_sort o o.
Proof. destruct o; reflexivity. Qed.
Lemma same_sort_trans a b c : same_sort a b -> same_sort b c -> same_sort a c.
Proof. destruct a, b, c; cbn; try contradiction; congruence. Qed.
Lemma same_sort_name a b : same_sort a b -> name_of b = name_of a.
Proof. destruct a, b; cbn; try contradiction; congruence. Qed.
Lemma ext_refl h : ext h h.
Proof. split; [auto|]. intros u o E. exists o. split; [exact E | apply same_sort_refl]. Qed.
Lemma ext_trans a b c : ext a b -> ext b c -> ext a c.
Proof.
  intros [A1 A2] [B1 B2]. split; [auto|]. intros u o E. destruct (A2 u o E) as [o1 [E1 S1]]. destruct (B2 u o1 E1) as [o2 [E2 S2]].
  exists o2. split; [exact E2 | exact (same_sort_trans _ _ _ S1 S2)].
Qed.

Fixpoint finds (h : heap) (d : id) (ps : list nat) (u : id) : Prop :=
  match ps with [] => d = u | c :: r => exists x, dir_lookup h d c = Some x /\ finds h x r u end.
Lemma finds_ext h h' d ps u : ext h h' -> finds h d ps u -> finds h' d ps u.
Proof.
  intros X. revert d. induction ps as [|c r IH]; intros d; cbn; [auto|]. intros [x [E F]]. exists x. split; [apply X; exact E | auto].
Qed.
Lemma finds_snoc h d ps x c u : finds h d ps x -> dir_lookup h x c = Some u -> finds h d (ps ++ [c]) u.
Proof.
  revert d. induction ps as [|a r IH]; intros d; cbn.
  - intros -> E. exists u. auto.
  - intros [y [E F]] G. exists y. auto.
Qed.
Lemma finds_leads h d ps u : finds h d ps u -> leads h d ps u.
Proof.
  revert d. induction ps as [|c r IH]; intros d; cbn; [auto|]. intros [x [E F]]. exists x. split; [|auto].
  unfold dir_lookup in E. unfold entry. destruct (h d) as [[n es|n]|]; try discriminate. exists n, es. split; [reflexivity | apply assoc_in; exact E].
Qed.
Lemma a_dir_ext h h' u : ext h h' -> a_dir h u -> a_dir h' u.
Proof.
  intros [_ X] (n & es & E). destruct (X u _ E) as [o' [E' S]]. destruct o' as [n' es'|n']; [|contradiction]. exists n', es'. exact E'.
Qed.
Lemma is_dir_a h u : is_dir h u = true -> a_dir h u.
Proof. unfold is_dir, a_dir. destruct (h u) as [[n es|n]|]; try discriminate. eauto. Qed.

Lemma forall2_imp {X Y} (R S : X -> Y -> Prop) l r : (forall a b, R a b -> S a b) -> Forall2 R l r -> Forall2 S l r.
Proof. intros I F. induction F; constructor; auto. Qed.

Section own.
Variables (me : nat) (own : nat -> Prop).

(* What the others may do while this goroutine is not looking, and what it may do itself. *)
Definition rely (h h' : heap) : Prop :=
  ext h h' /\ (forall d c, own c -> dir_lookup h d c = None -> dir_lookup h' d c = None).
Definition guar (h h' : heap) : Prop :=
  ext h h' /\ (forall d c, ~ own c -> dir_lookup h d c = None -> dir_lookup h' d c = None).

Lemma rely_refl h : rely h h.
Proof. split; [apply ext_refl | auto]. Qed.
Lemma rely_trans a b c : rely a b -> rely b c -> rely a c.
Proof. intros [A1 A2] [B1 B2]. split; [exact (ext_trans _ _ _ A1 B1) | auto]. Qed.

Variable Q : list res -> heap -> Prop.
Fixpoint wp (n : nat) (p : proc) (h : heap) {struct p} : Prop :=
  match p with
  | Ret r => forall h', rely h h' -> Q r h'
  | New b nm k => forall h', rely h h' -> h' (me, n) = None -> wp (S n) (k (me, n)) (set h' (me, n) (if b then Dir nm [] else File nm))
  | Lookup d c k => forall h', rely h h' -> wp n (k (dir_lookup h' d c)) h'
  | IsDir u k => forall h', rely h h' -> wp n (k (is_dir h' u)) h'
  | Len d k => forall h', rely h h' -> wp n (k (dir_len h' d)) h'
  | AddEnt d u k => forall h', rely h h' -> guar h' (dir_add h' d u) /\ wp n k (dir_add h' d u)
  | DropName _ _ _ | DropEnt _ _ _ => False
  end.

Lemma wp_rely n p h h' : rely h h' -> wp n p h -> wp n p h'.
Proof.
  intros R W. destruct p; cbn in *; auto; intros h2 R2; try (apply W; exact (rely_trans _ _ _ R R2)).
Qed.
Lemma new_guar h x o : h x = None -> match o with Dir _ es => es = [] | File _ => True end -> guar h (set h x o).
Proof.
  intros N O. assert (forall d c, d <> x -> dir_lookup (set h x o) d c = dir_lookup h d c) as D
    by (intros d c E; unfold dir_lookup; rewrite set_other by exact E; reflexivity).
  split; [split|].
  - intros d c u E. destruct (id_dec d x) as [->|E2]; [|rewrite D by exact E2; exact E].
    unfold dir_lookup in E. rewrite N in E. discriminate.
  - intros u o' E. exists o'. split; [|apply same_sort_refl]. rewrite set_other; [exact E | congruence].
  - intros d c _ E. destruct (id_dec d x) as [->|E2]; [|rewrite D by exact E2; exact E].
    unfold dir_lookup. rewrite set_same. destruct o as [nm es|nm]; [|reflexivity]. subst es. reflexivity.
Qed.
(* Adding a name of its own that is not there. *)
Lemma add_guar h d u c :
  (exists o, h u = Some o /\ name_of o = c) -> own c -> dir_lookup h d c = None -> a_dir h d ->
  guar h (dir_add h d u) /\ dir_lookup (dir_add h d u) d c = Some u.
Proof.
  intros (o & U & <-) O N (n & es & E). unfold dir_add. rewrite E, U.
  assert (assoc es (name_of o) = None) as N2 by (unfold dir_lookup in N; rewrite E in N; exact N).
  rewrite (drop_none _ _ N2).
  assert (dir_lookup (set h d (Dir n (es ++ [(name_of o, u)]))) d (name_of o) = Some u) as L.
  { unfold dir_lookup. rewrite set_same, (assoc_app_none _ _ _ N2). cbn. rewrite Nat.eqb_refl. reflexivity. }
  split; [|exact L]. split; [split|].
  - intros d' c' u' F. destruct (id_dec d' d) as [->|D].
    + unfold dir_lookup in *. rewrite set_same. rewrite E in F. apply assoc_app_some. exact F.
    + unfold dir_lookup in *. rewrite set_other by exact D. exact F.
  - intros u' o' F. destruct (id_dec u' d) as [->|D].
    + rewrite set_same. rewrite E in F. apply some_inj in F. subst o'. eexists. split; [reflexivity|]. reflexivity.
    + rewrite set_other by exact D. exists o'. split; [exact F | apply same_sort_refl].
  - intros d' c' O' F. destruct (id_dec d' d) as [->|D].
    + unfold dir_lookup in *. rewrite set_same. rewrite E in F. rewrite (assoc_app_none _ _ _ F). cbn.
      destruct (Nat.eqb (name_of o) c') eqn:X; [apply Nat.eqb_eq in X; subst c'; contradiction | reflexivity].
    + unfold dir_lookup in *. rewrite set_other by exact D. exact F.
Qed.

Lemma guar_ext h h' : guar h h' -> ext h h'.
Proof. intros [G _]. exact G. Qed.
Lemma rely_ext h h' : rely h h' -> ext h h'.
Proof. intros [G _]. exact G. Qed.

Lemma walk_wp n q h pre d ps :
  finds h root pre d -> a_dir h d ->
  (forall w h', ext h h' -> match w with inr d' => finds h' root (pre ++ ps) d' /\ a_dir h' d' | inl _ => True end -> wp n (q w) h') ->
  wp n (walk d ps q) h.
Proof.
  revert h pre d. induction ps as [|c r IH]; intros h pre d F D K; cbn [walk].
  - apply K; [apply ext_refl|]. rewrite app_nil_r. auto.
  - cbn [wp]. intros h1 R1. destruct (dir_lookup h1 d c) as [x|] eqn:L; [|apply K; [exact (rely_ext _ _ R1) | exact I]].
    cbn [wp]. intros h2 R2. pose proof (ext_trans _ _ _ (rely_ext _ _ R1) (rely_ext _ _ R2)) as X.
    destruct (is_dir h2 x) eqn:B; [|apply K; [exact X | exact I]].
    apply (IH h2 (pre ++ [c]) x).
    + apply finds_snoc with (x := d); [exact (finds_ext _ _ _ _ _ X F)|]. apply (rely_ext _ _ R2). exact L.
    + apply is_dir_a. exact B.
    + intros w h' X' P. apply K; [exact (ext_trans _ _ _ X X')|]. destruct w as [e|d']; [exact I|]. rewrite <- app_assoc in P. exact P.
Qed.

(* Making an entry that was not there, and going on. *)
Lemma make_wp n b nm h d k :
  own nm -> a_dir h d -> dir_lookup h d nm = None ->
  (forall h', ext h h' -> dir_lookup h' d nm = Some (me, n) -> (b = true -> a_dir h' (me, n)) -> wp (S n) (k (me, n)) h') ->
  wp n (New b nm (fun u => AddEnt d u (k u))) h.
Proof.
  intros O D L K. cbn [wp]. intros h1 R1 N1. set (o := if b then Dir nm [] else File nm).
  assert (match o with Dir _ es => es = [] | File _ => True end) as O1 by (subst o; destruct b; reflexivity || exact I).
  assert (name_of o = nm) as O2 by (subst o; destruct b; reflexivity).
  pose proof (new_guar h1 (me, n) o N1 O1) as G1.
  assert (ext h (set h1 (me, n) o)) as X1 by exact (ext_trans _ _ _ (rely_ext _ _ R1) (guar_ext _ _ G1)).
  assert (dir_lookup (set h1 (me, n) o) d nm = None) as L1.
  { destruct R1 as [R1 R1']. pose proof (a_dir_ext _ _ _ R1 D) as D1. unfold dir_lookup. rewrite set_other.
    - exact (R1' d nm O L).
    - intros ->. destruct D1 as (a & es & E). rewrite N1 in E. discriminate. }
  intros h2 R2.
  assert (ext h h2) as X2 by exact (ext_trans _ _ _ X1 (rely_ext _ _ R2)).
  assert (exists o', h2 (me, n) = Some o' /\ same_sort o o') as [o' [E2 S2]].
  { apply (rely_ext _ _ R2). apply set_same. }
  destruct (add_guar h2 d (me, n) nm) as [G2 L2].
  - exists o'. split; [exact E2|]. rewrite (same_sort_name _ _ S2). exact O2.
  - exact O.
  - apply R2; [exact O | exact L1].
  - exact (a_dir_ext _ _ _ X2 D).
  - split; [exact G2|]. apply K; [exact (ext_trans _ _ _ X2 (guar_ext _ _ G2)) | exact L2|].
    intros ->. apply (a_dir_ext h2); [exact (guar_ext _ _ G2)|]. destruct o' as [a es|a]; [exists a, es; exact E2 | cbn in S2; contradiction].
Qed.

(* [holds] with paths as they are looked up. *)
Definition held (h : heap) (c : call) (r : res) : Prop :=
  match c, r with
  | Mkdir p, Done => exists u, finds h root (fst p ++ [snd p]) u /\ a_dir h u /\ fst u = me
  | MkdirAll p, Done => exists u, finds h root p u /\ a_dir h u
  | Open p _ excl _, Got u => finds h root (fst p ++ [snd p]) u /\ (excl = true -> fst u = me)
  | Stat p, Got u => finds h root (fst p ++ [snd p]) u
  | _, _ => True
  end.
Lemma held_ext h h' c r : ext h h' -> held h c r -> held h' c r.
Proof.
  intros X. destruct c as [p|p|p cr ex wr|p|o t|p], r as [e| |u]; cbn; auto.
  - intros (u & F & D & M). exists u. split; [exact (finds_ext _ _ _ _ _ X F)|]. split; [exact (a_dir_ext _ _ _ X D) | exact M].
  - intros (u & F & D). exists u. split; [exact (finds_ext _ _ _ _ _ X F) | exact (a_dir_ext _ _ _ X D)].
  - intros [F M]. split; [exact (finds_ext _ _ _ _ _ X F) | exact M].
  - apply finds_ext. exact X.
Qed.

Lemma mkdir_all_wp n h pre d ps k :
  Forall own ps -> finds h root pre d -> a_dir h d ->
  (forall n' r h', ext h h' -> match r with Done => exists u, finds h' root (pre ++ ps) u /\ a_dir h' u | _ => True end -> wp n' (k r) h') ->
  wp n (mkdir_all d ps k) h.
Proof.
  revert n h pre d. induction ps as [|c r IH]; intros n h pre d O F D K; cbn [mkdir_all].
  - apply K; [apply ext_refl|]. exists d. rewrite app_nil_r. auto.
  - apply Forall_cons_iff in O. destruct O as [O1 O2]. cbn [wp]. intros h1 R1. pose proof (rely_ext _ _ R1) as X1.
    destruct (dir_lookup h1 d c) as [x|] eqn:L.
    + cbn [wp]. intros h2 R2. pose proof (ext_trans _ _ _ X1 (rely_ext _ _ R2)) as X2.
      destruct (is_dir h2 x) eqn:B; [|apply K; [exact X2 | exact I]].
      apply (IH n h2 (pre ++ [c]) x); [exact O2| | apply is_dir_a; exact B|].
      * apply finds_snoc with (x := d); [exact (finds_ext _ _ _ _ _ X2 F)|]. apply (rely_ext _ _ R2). exact L.
      * intros n' q h' X' P. apply K; [exact (ext_trans _ _ _ X2 X')|]. destruct q; try exact I. rewrite <- app_assoc in P. exact P.
    + apply (make_wp n true c h1 d (fun u => IsDir u (fun b => if b then mkdir_all u r k else k (Fail ENotDir)))); [exact O1 | exact (a_dir_ext _ _ _ X1 D) | exact L|].
      intros h2 X2 L2 _. cbn [wp]. intros h3 R3. pose proof (ext_trans _ _ _ X1 (ext_trans _ _ _ X2 (rely_ext _ _ R3))) as X3.
      destruct (is_dir h3 (me, n)) eqn:B; [|apply K; [exact X3 | exact I]].
      apply (IH (S n) h3 (pre ++ [c]) (me, n)); [exact O2| | apply is_dir_a; exact B|].
      * apply finds_snoc with (x := d); [exact (finds_ext _ _ _ _ _ X3 F)|]. apply (rely_ext _ _ R3). exact L2.
      * intros n' q h' X' P. apply K; [exact (ext_trans _ _ _ X3 X')|]. destruct q; try exact I. rewrite <- app_assoc in P. exact P.
Qed.

Lemma do_call_wp n h c k :
  only_makes c -> Forall own (makes c) -> a_dir h root ->
  (forall n' r h', ext h h' -> held h' c r -> wp n' (k r) h') ->
  wp n (do_call c k) h.
Proof.
  intros M O D K. destruct c as [p|p|p cr ex wr|p|o t|p]; try contradiction; cbn [do_call].
  - unfold mkdir. apply (walk_wp n _ h [] root); [reflexivity | exact D|]. intros [e|d] h1 X1 P; [apply K; [exact X1 | exact I]|].
    destruct P as [F D1]. cbn [app] in F. cbn [wp]. intros h2 R2. pose proof (ext_trans _ _ _ X1 (rely_ext _ _ R2)) as X2.
    destruct (dir_lookup h2 d (snd p)) as [x|] eqn:L; [apply K; [exact X2 | exact I]|].
    apply (make_wp n true (snd p) h2 d (fun _ => k Done)); [cbn in O; inversion O; assumption | exact (a_dir_ext _ _ _ (rely_ext _ _ R2) D1) | exact L|].
    intros h3 X3 L3 A3. apply K; [exact (ext_trans _ _ _ X2 X3)|]. cbn. exists (me, n). split; [|split; [apply A3; reflexivity | reflexivity]].
    apply finds_snoc with (x := d); [|exact L3]. exact (finds_ext _ _ _ _ _ (ext_trans _ _ _ (rely_ext _ _ R2) X3) F).
  - apply (mkdir_all_wp n h [] root p k O); [reflexivity | exact D|]. intros n' r h' X P. apply K; [exact X|]. destruct r; cbn; auto.
  - unfold open_file. apply (walk_wp n _ h [] root); [reflexivity | exact D|]. intros [e|d] h1 X1 P; [apply K; [exact X1 | exact I]|].
    destruct P as [F D1]. cbn [app] in F. cbn [wp]. intros h2 R2. pose proof (ext_trans _ _ _ X1 (rely_ext _ _ R2)) as X2.
    destruct (dir_lookup h2 d (snd p)) as [x|] eqn:L.
    + destruct ex; [apply K; [exact X2 | exact I]|]. cbn [wp]. intros h3 R3. pose proof (ext_trans _ _ _ X2 (rely_ext _ _ R3)) as X3.
      destruct (is_dir h3 x && wr); [apply K; [exact X3 | exact I]|]. apply K; [exact X3|]. cbn. split; [|discriminate].
      apply finds_snoc with (x := d); [|apply (rely_ext _ _ R3); exact L]. exact (finds_ext _ _ _ _ _ (ext_trans _ _ _ (rely_ext _ _ R2) (rely_ext _ _ R3)) F).
    + destruct cr; [|apply K; [exact X2 | exact I]].
      apply (make_wp n false (snd p) h2 d (fun u => k (Got u))); [cbn in O; inversion O; assumption | exact (a_dir_ext _ _ _ (rely_ext _ _ R2) D1) | exact L|].
      intros h3 X3 L3 _. apply K; [exact (ext_trans _ _ _ X2 X3)|]. cbn. split; [|reflexivity].
      apply finds_snoc with (x := d); [|exact L3]. exact (finds_ext _ _ _ _ _ (ext_trans _ _ _ (rely_ext _ _ R2) X3) F).
  - unfold stat. apply (walk_wp n _ h [] root); [reflexivity | exact D|]. intros [e|d] h1 X1 P; [apply K; [exact X1 | exact I]|].
    destruct P as [F D1]. cbn [app] in F. cbn [wp]. intros h2 R2. pose proof (ext_trans _ _ _ X1 (rely_ext _ _ R2)) as X2.
    destruct (dir_lookup h2 d (snd p)) as [x|] eqn:L; [|apply K; [exact X2 | exact I]].
    apply K; [exact X2|]. cbn. apply finds_snoc with (x := d); [exact (finds_ext _ _ _ _ _ (rely_ext _ _ R2) F) | exact L].
Qed.
End own.

Lemma script_wp me own all cs : forall n done acc h,
  all = done ++ cs -> Forall2 (held me h) done acc -> Forall only_makes cs -> Forall (fun c => Forall own (makes c)) cs -> a_dir h root ->
  wp me own (fun rs h => Forall2 (held me h) all rs) n (script cs acc) h.
Proof.
  induction cs as [|c r IH]; intros n done acc h E F M O D; cbn [script].
  - cbn. intros h' R. rewrite app_nil_r in E. subst done. eapply forall2_imp; [|exact F]. intros a b. apply held_ext. exact (rely_ext _ _ _ R).
  - apply Forall_cons_iff in M. destruct M as [M1 M2]. apply Forall_cons_iff in O. destruct O as [O1 O2].
    apply do_call_wp; [exact M1 | exact O1 | exact D|]. intros n' x h' X Hx.
    apply (IH n' (done ++ [c])); [rewrite <- app_assoc; exact E| | exact M2 | exact O2 | exact (a_dir_ext _ _ _ X D)].
    apply Forall2_app; [|constructor; [exact Hx | constructor]]. eapply forall2_imp; [|exact F]. intros a b. apply held_ext. exact X.
Qed.

(* Soundness: what each goroutine may do is allowed for by all the others. *)
Section sound.
Variables (own : nat -> nat -> Prop) (Q : nat -> list res -> heap -> Prop).
Hypothesis A : forall i j c, i <> j -> own i c -> own j c -> False.
Definition good (m : machine) : Prop :=
  unborn m /\ forall i g, nth_error (m_gors m) i = Some g -> wp (S i) (own i) (Q i) (g_made g) (g_proc g) (m_heap m).
Lemma step_good m i : good m -> good (step m i).
Proof.
  intros [U G]. split; [apply step_unborn; exact U|]. destruct (nth_error (m_gors m) i) as [g|] eqn:E; [|rewrite step_none by exact E; exact G].
  destruct (step_self m i g E) as (h & n' & p & X & Hh & G').
  pose proof (G i g E) as W.
  assert (guar (own i) (m_heap m) h /\ wp (S i) (own i) (Q i) n' p h) as [Gu W'].
  { destruct (g_proc g) as [r|b nm k|d c k|u k|d k|d u k|d c k|d u k]; cbn in X, W; apply pair_equal_spec in X; destruct X as [X X3]; apply pair_equal_spec in X; destruct X as [X1 X2]; subst h n' p; try contradiction.
    1,3,4,5: split; [split; [apply ext_refl | auto] |].
    - exact W.
    - apply W. apply rely_refl.
    - apply W. apply rely_refl.
    - apply W. apply rely_refl.
    - assert (m_heap m (S i, g_made g) = None) as N by (apply (U i g); auto).
      split; [apply new_guar; [exact N | destruct b; reflexivity || exact I] | apply W; [apply rely_refl | exact N]].
    - apply W. apply rely_refl. }
  intros j gj Ej. rewrite Hh. destruct (Nat.eq_dec j i) as [->|N].
  - rewrite G' in Ej. apply some_inj in Ej. subst gj. exact W'.
  - rewrite step_gors in Ej by exact N. apply (wp_rely _ _ _ _ _ (m_heap m)); [|exact (G j gj Ej)].
    destruct Gu as [Gu1 Gu2]. split; [exact Gu1|]. intros d c O L. apply Gu2; [|exact L]. intros O'. exact (A i j c (not_eq_sym N) O' O).
Qed.
Lemma run_good sched : forall m, good m -> good (run m sched).
Proof. induction sched as [|a r IH]; intros m G; [exact G|]. rewrite run_cons. apply IH. apply step_good. exact G. Qed.
End sound.

Lemma held_holds i h c r : held (S i) h c r -> holds i h c r.
Proof.
  destruct c as [p|p|p cr ex wr|p|o t|p], r as [e| |u]; cbn; auto.
  - intros (u & F & D & M). exists u. split; [exact (finds_leads _ _ _ _ F) | auto].
  - intros (u & F & D). exists u. split; [exact (finds_leads _ _ _ _ F) | auto].
  - intros [F M]. split; [exact (finds_leads _ _ _ _ F) | exact M].
  - apply finds_leads.
Qed.

Lemma own_names_keep h scripts sched i cs rs :
  nobodys h -> a_dir h root -> own_names scripts -> Forall (Forall only_makes) scripts -> nth_error scripts i = Some cs ->
  let m := run (machine_of h scripts) sched in
  returned m i rs -> Forall2 (holds i (m_heap m)) cs rs.
Proof.
  intros N D W M E m (g & G & P).
  set (own := fun j a => exists cs c, nth_error scripts j = Some cs /\ In c cs /\ In a (makes c)).
  set (Q := fun j rs h => forall cs, nth_error scripts j = Some cs -> Forall2 (held (S j) h) cs rs).
  assert (good own Q (machine_of h scripts)) as G0.
  { split; [apply machine_unborn; exact N|]. intros j gj Ej. cbn in Ej.
    destruct (nth_error scripts j) as [csj|] eqn:F; [|rewrite nth_error_map, F in Ej; discriminate].
    rewrite nth_error_map, F in Ej. cbn in Ej. apply some_inj in Ej. subst gj. cbn.
    assert (wp (S j) (own j) (fun rs h => Forall2 (held (S j) h) csj rs) 0 (script csj []) h) as V.
    { apply (script_wp _ _ _ csj 0 []); [reflexivity | constructor | | | exact D].
      - rewrite Forall_forall in M. apply M. exact (nth_error_In _ _ F).
      - apply Forall_forall. intros c Ic. apply Forall_forall. intros a Ia. exists csj, c. auto. }
    assert (forall p n h0 (Q1 Q2 : list res -> heap -> Prop), (forall r h1, Q1 r h1 -> Q2 r h1) ->
              wp (S j) (own j) Q1 n p h0 -> wp (S j) (own j) Q2 n p h0) as Mono.
    { clear. intros p. induction p as [r|b nm k IH|d c k IH|u k IH|d k IH|d u k IH|d c k IH|d u k IH]; intros n h0 Q1 Q2 Y; cbn; auto.
      - intros Z h' R Hn. eapply IH; [exact Y | apply Z; assumption].
      - intros Z h' R. eapply IH; [exact Y | apply Z; assumption].
      - intros Z h' R. eapply IH; [exact Y | apply Z; assumption].
      - intros Z h' R. eapply IH; [exact Y | apply Z; assumption].
      - intros Z h' R. destruct (Z h' R) as [Z1 Z2]. split; [exact Z1|]. eapply IH; [exact Y | exact Z2]. }
    eapply Mono; [|exact V]. intros r h1 Hr cs' Ecs. rewrite F in Ecs. apply some_inj in Ecs. subst cs'. exact Hr. }
  assert (forall a b c, a <> b -> own a c -> own b c -> False) as A.
  { intros a b c Nab (cs1 & c1 & E1 & I1 & M1) (cs2 & c2 & E2 & I2 & M2). exact (W a b cs1 cs2 c1 c2 c Nab E1 E2 I1 I2 M1 M2). }
  destruct (run_good own Q A sched _ G0) as [_ G1]. specialize (G1 i g G). rewrite P in G1. cbn in G1.
  specialize (G1 (m_heap m) (rely_refl _ _) cs E). eapply forall2_imp; [|exact G1]. intros a b. apply held_holds.
Qed.
