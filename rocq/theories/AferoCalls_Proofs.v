(* What each call of aferofs/synth does to the entries and the views. *)
From Coq Require Import Permutation.
From Verif Require Import Common CommonLemmas ContentRange_Model PathLex_Model PathLex_Proofs Afero_Model Afero_Spec Afero_Proofs AferoOps_Proofs.
Open Scope nat_scope.

Lemma inr_inj {A B} (x y : B) : @inr A B x = inr y -> x = y.
Proof. congruence. Qed.
Lemma pair_inj {A B} (a a' : A) (b b' : B) : (a, b) = (a', b') -> a = a' /\ b = b'.
Proof. intros H; split; congruence. Qed.
Lemma shows_dir d p m : entry_at d p = Some (DirEnt m) <-> exists es, node_at d p = Some (Dir m es).
Proof.
  rewrite entry_is. destruct (node_at d p) as [[a v|a es]|]; cbn; split; try discriminate; try (intros (? & ?); discriminate).
  - intros H; injection H as ->; eauto. - intros (es' & H); injection H as -> ->; reflexivity.
Qed.
Lemma shows_file d p m v : entry_at d p = Some (FileEnt m v) <-> node_at d p = Some (File m v).
Proof.
  rewrite entry_is. destruct (node_at d p) as [[a w|a es]|]; cbn; split; try discriminate; intros H; injection H as -> ->; reflexivity.
Qed.
Lemma shows_none d p : entry_at d p = None <-> node_at d p = None.
Proof. rewrite entry_is. destruct (node_at d p); cbn; split; congruence. Qed.
Lemma none_below d p r : node_at d p = None -> node_at d (p ++ r) = None.
Proof. intros H. now rewrite node_app, H. Qed.

Lemma validate_inv s p r : ordinary p -> find_parent s (spell p) = inr r -> acceptable p.
Proof.
  intros Ho H. apply validate_ok; [assumption|]. unfold find_parent in H. destruct (validate (spell p)); [discriminate|reflexivity].
Qed.

Lemma m_dir_bit i : N.testbit m_dir i = (i =? 31)%N.
Proof. change m_dir with (2 ^ 31)%N. rewrite N.pow2_bits_eqb. apply N.eqb_sym. Qed.
Lemma m_perm_bit i : N.testbit m_perm i = (i <? 9)%N.
Proof.
  change m_perm with (N.ones 9). destruct (i <? 9)%N eqn:E.
  - apply N.ltb_lt in E. now apply N.ones_spec_low.
  - apply N.ltb_ge in E. now apply N.ones_spec_high.
Qed.
Lemma dir_mode_masked s perm : masked (a_umask s) perm (dir_mode s perm).
Proof.
  intros i. unfold dir_mode, perm_of. rewrite N.lor_spec, N.ldiff_spec, N.land_spec, m_dir_bit, m_perm_bit. rewrite orb_comm. f_equal.
  now rewrite (andb_comm (N.testbit perm i)).
Qed.

(* ---- Mkdir ---- *)


Lemma find_writable_spec s p d : ordinary p -> find_writable_dir s (spell p) = inr d <->
  acceptable p /\ way_open s p /\ node_at (a_root s) p = Some d /\ dirish d /\ may_write (mode_of d).
Proof.
  intros Ho. unfold find_writable_dir. destruct (find s (spell p)) as [e|x] eqn:E.
  - split; [discriminate|]. intros (A & B & C & _). exfalso. pose proof (proj2 (find_spec s p d Ho) (conj A (conj B C))). congruence.
  - apply find_spec in E; [|assumption]. destruct E as (A & B & C). destruct x as [m v|m es]; cbn [is_dir negb].
    + split; [discriminate|]. intros (_ & _ & H & (a & b & ->) & _). congruence.
    + destruct (has_perm (Dir m es) 2) eqn:E2; cbn [negb].
      * apply has_2 in E2. split; [|intros (_ & _ & H & _); congruence]. intros H. apply inr_inj in H. subst d. split; [assumption|]. split; [assumption|]. split; [assumption|]. split; [unfold dirish; eauto|assumption].
      * split; [discriminate|]. intros (_ & _ & H & _ & Hm). assert (d = Dir m es) as -> by congruence. apply has_2 in Hm. congruence.
Qed.

Theorem mkdir_spec s p c perm : sound s -> ordinary (p ++ [c]) ->
  forall s' e, mkdir s (spell (p ++ [c])) perm = (s', e) ->
  (e = None <-> acceptable p /\ way_open s (p ++ [c]) /\ writable_parent s p /\ shows s (p ++ [c]) = None) /\
  (e <> None -> s' = s) /\
  (e = None ->
     (exists m, shows s' (p ++ [c]) = Some (DirEnt m) /\ masked (a_umask s) perm m) /\
     (forall q, q <> p ++ [c] -> shows s' q = shows s q) /\
     a_views s' = a_views s /\ a_closed s' = a_closed s /\ Permutation (views_in (a_root s')) (views_in (a_root s))).
Proof.
  intros [Hu Hr] Ho s' e. unfold mkdir. rewrite dir_spell, base_spell by assumption. destruct (ordinary_snoc _ _ Ho) as [Hp Hc]. rewrite proper_not_dot by assumption.
  destruct (find_writable_dir s (spell p)) as [e0|d] eqn:Ef.
  { intros H. injection H as <- <-. split; [|split; [auto|discriminate]]. split; [discriminate|]. intros (A & B & (m & M1 & M2 & M3) & D). exfalso.
    apply shows_dir in M1. destruct M1 as (es & M1). apply (proj1 (way_from_root s p c)) in B. destruct B as [B1 B2].
    assert (way_open s p) as Hw.
    { destruct (snoc_cases p) as [->|(q & b & ->)]; [apply way_nil|]. apply way_from_root. split; [assumption|]. intros t x r ->. apply (B2 t x (r ++ [b])). now rewrite <- app_assoc. }
    assert (find_writable_dir s (spell p) = inr (Dir m es)) by (apply find_writable_spec; [assumption|]; split; [assumption|]; split; [assumption|]; split; [assumption|]; split; [unfold dirish; eauto|assumption]). congruence. }
  apply find_writable_spec in Ef; [|assumption]. destruct Ef as (A & B & C & (m & es & ->) & W). cbn [mode_of] in W.
  assert (node_at (a_root s) (p ++ [c]) = child (Dir m es) c) as Hn by (rewrite node_app, C; cbn [node_at]; destruct (child (Dir m es) c); reflexivity).
  destruct (child (Dir m es) c) as [x|] eqn:Ec.
  { intros H. injection H as <- <-. split; [|split; [auto|discriminate]]. split; [discriminate|]. intros (_ & _ & _ & D). exfalso. apply shows_none in D. congruence. }
  destruct (has_perm (Dir m es) 1) eqn:E1; cbn [negb].
  2: { intros H. injection H as <- <-. split; [|split; [auto|discriminate]]. split; [discriminate|]. intros (_ & _ & (m' & M1 & M2 & M3) & _). exfalso.
       apply shows_dir in M1. destruct M1 as (es' & M1). assert (m' = m) as -> by congruence. apply (proj2 (has_1 (Dir m es))) in M2. congruence. }
  apply has_1 in E1. cbn [mode_of] in E1. rewrite (proj2 (has_2 (Dir m es)) W). cbn [negb].
  intros H. injection H as <- <-. split; [|split; [congruence|]].
  - split; [|reflexivity]. intros _. split; [assumption|]. split; [|split].
    + apply way_from_root. destruct (snoc_cases p) as [->|(q & b & ->)].
      * cbn in C. injection C as C. split; [rewrite C; eauto|]. intros t x r H. destruct t; discriminate.
      * apply (proj1 (way_from_root s q b)) in B. destruct B as [B1 B2]. split; [assumption|]. intros t x r H. destruct (snoc_cases r) as [->|(r' & z & ->)].
        -- apply app_inj_tail in H. destruct H as [<- <-]. exists m. split; [|assumption]. apply shows_dir. eauto.
        -- apply (B2 t x r'). change (x :: r' ++ [z]) with ((x :: r') ++ [z]) in H. rewrite app_assoc in H. apply app_inj_tail in H. apply H.
    + exists m. split; [apply shows_dir; eauto|auto].
    + apply shows_none. congruence.
  - intros _. rewrite comps_spell by assumption. unfold shows. cbn [a_root set_root a_views a_closed]. assert (dirish (Dir m es)) as Hd by (unfold dirish; eauto). split; [|split; [|split; [reflexivity|split; [reflexivity|]]]].
    + exists (dir_mode s perm). split; [|apply dir_mode_masked]. pose proof (add_in (a_root s) p c (Dir (dir_mode s perm) []) _ [] Hu C Hd) as E. rewrite app_nil_r in E. exact E.
    + intros q Hq. destruct (below_dec (p ++ [c]) q) as [[r ->]|Hb]; [|now apply add_out]. rewrite (add_in _ _ _ _ _ _ Hu C Hd).
      destruct r as [|b r]; [rewrite app_nil_r in Hq; contradiction|]. cbn [entry_at List.find]. symmetry. apply shows_none, none_below, Hn.
    + destruct (views_update _ _ _ C) as (rest & P1 & P2). rewrite (P2 _), P1. apply Permutation_app_tail. exact (views_add_new c (Dir (dir_mode s perm) []) _ Hd Ec).
Qed.

(* ---- Chmod ---- *)

Lemma set_mode_child m d c : child (set_mode m d) c = child d c.
Proof. destruct d; reflexivity. Qed.
Theorem chmod_spec s p m : sound s -> ordinary p -> forall s' e, chmod s (spell p) m = (s', e) ->
  (e = None <-> acceptable p /\ way_open s p /\ shows s p <> None) /\
  (e <> None -> s' = s) /\
  (e = None -> (exists m' x, typed m m' /\ shows s p = Some x /\ shows s' p = Some (with_mode m' x)) /\ (forall q, q <> p -> shows s' q = shows s q) /\
     a_views s' = a_views s /\ a_closed s' = a_closed s /\ Permutation (views_in (a_root s')) (views_in (a_root s))).
Proof.
  intros [Hu Hr] Ho s' e. unfold chmod. destruct (find s (spell p)) as [e0|x] eqn:Ef; intros H; injection H as <- <-.
  - split; [|split; [auto|discriminate]]. split; [discriminate|]. intros (A & B & C). exfalso. unfold shows in C. rewrite entry_is in C.
    destruct (node_at (a_root s) p) as [x|] eqn:En; [|now apply C]. pose proof (proj2 (find_spec s p x Ho) (conj A (conj B En))). congruence.
  - apply find_spec in Ef; [|assumption]. destruct Ef as (A & B & C). split; [|split; [congruence|]].
    + split; [|reflexivity]. intros _. split; [assumption|]. split; [assumption|]. unfold shows. rewrite entry_is, C. discriminate.
    + intros _. rewrite comps_spell by assumption. unfold shows. cbn [a_root set_root a_views a_closed]. split; [|split; [|split; [reflexivity|split; [reflexivity|]]]].
      * exists (N.land m (N.lor m_type m_perm)), (kind x). split; [|split].
        -- intros i. rewrite N.land_spec, N.lor_spec, m_perm_bit. reflexivity.
        -- rewrite entry_is, C. reflexivity.
        -- rewrite entry_is. pose proof (node_update_in (a_root s) p (set_mode m) x [] C) as E. rewrite app_nil_r in E. rewrite E. destruct x; reflexivity.
      * intros q Hq. destruct (below_dec p q) as [[r ->]|Hb]; [|now apply entry_update_out].
        destruct r as [|b r]; [rewrite app_nil_r in Hq; contradiction|].
        rewrite !entry_is, (node_update_in _ _ _ _ _ C), node_app, C. cbn [node_at]. now rewrite set_mode_child.
      * destruct (views_update _ _ _ C) as (rest & P1 & P2). rewrite (P2 _), P1, views_mode. reflexivity.
Qed.

(* ---- MkdirAll ---- *)

Lemma not_below_cons (c b : name) p q : ~ below (b :: q) (c :: p) -> b = c -> ~ below q p.
Proof. intros H -> [r ->]. apply H. now exists r. Qed.
Definition above (p q : list name) : Prop := below q p.
Lemma mk_all_spec m cs : forall d, unique d -> dirish d -> forall d' e, mk_all m d cs = (d', e) ->
  kind d' = kind d /\
  (forall q, ~ below q cs -> entry_at d' q = entry_at d q) /\
  (forall q, below q cs -> entry_at d' q = entry_at d q \/ entry_at d q = None /\ entry_at d' q = Some (DirEnt m)) /\
  (e = None -> forall q, below q cs -> exists k, entry_at d' q = Some (DirEnt k)) /\
  Permutation (views_in d') (views_in d).
Proof.
  induction cs as [|c r IH]; intros d Hu Hd d' e; cbn [mk_all].
  - intros H. injection H as <- <-. split; [reflexivity|]. split; [auto|]. split; [auto|]. split; [|reflexivity].
    intros _ q [t H]. symmetry in H. apply app_eq_nil in H. destruct H as [-> _]. destruct Hd as (a & es & ->). exists a. reflexivity.
  - assert (exists x, child d c = Some x \/ child d c = None /\ x = Dir m []) as (x & Hx) by (destruct (child d c) as [y|]; eauto).
    assert (match child d c with Some x => x | None => Dir m [] end = x) as -> by (destruct Hx as [->|[-> ->]]; reflexivity).
    set (d1 := match child d c with Some _ => d | None => add_child c x d end).
    assert (unique x) as Ux by (destruct Hx as [E|[_ ->]]; [eapply unique_child; eauto|apply unique_empty]).
    assert (unique d1 /\ dirish d1 /\ child d1 c = Some x /\ kind d1 = kind d /\ Permutation (views_in d1) (views_in d) /\
            (forall b q, b <> c -> entry_at d1 (b :: q) = entry_at d (b :: q)) /\
            (entry_at d [c] = None -> x = Dir m []) /\ (forall q, child d c = Some x -> entry_at d (c :: q) = entry_at x q)) as (U1 & D1 & C1 & K1 & P1 & O1 & N1 & S1).
    { unfold d1. destruct Hx as [E|[E ->]]; rewrite E.
      - split; [assumption|]. split; [assumption|]. split; [assumption|]. split; [reflexivity|]. split; [reflexivity|]. split; [reflexivity|]. split; [|intros q _; now apply entry_child].
        rewrite entry_is. cbn [node_at]. rewrite E. discriminate.
      - split; [apply unique_add; [assumption|apply unique_empty]|]. split; [now apply dirish_add|]. split.
        { pose proof (add_here c (Dir m []) d Hu Hd []) as H. cbn [node_at] in H. destruct (child (add_child c (Dir m []) d) c); congruence. }
        split; [apply kind_add|]. split; [exact (views_add_new c (Dir m []) d Hd E)|]. split; [|split; [auto|discriminate]].
        intros b q Hb. rewrite !entry_is. now rewrite add_other. }
    clearbody d1. destruct (searchable (Some x)) as [e0|] eqn:Es.
    + intros H. injection H as <- <-. split; [assumption|].
      assert (forall q, entry_at d1 (c :: q) = entry_at x q) as Hin by (intros q; now apply entry_child).
      split; [|split; [|split; [discriminate|assumption]]].
      * intros q Hq. destruct q as [|b q]; [exfalso; apply Hq; now exists (c :: r)|].
        destruct (list_eq_dec N.eq_dec b c) as [->|Hb]; [|now apply O1]. rewrite Hin. destruct Hx as [E|[E ->]]; [symmetry; now apply S1|].
        rewrite (entry_is d). cbn [node_at]. rewrite E. destruct q as [|a q]; [exfalso; apply Hq; now exists r|reflexivity].
      * intros q [t Ht]. destruct q as [|b q]; [left; rewrite !entry_is; cbn [node_at option_map]; now rewrite K1|]. cbn in Ht. injection Ht as <- Ht.
        rewrite Hin. destruct Hx as [E|[E ->]]; [left; symmetry; now apply S1|].
        rewrite (entry_is d). cbn [node_at]. rewrite E. destruct q as [|a q]; [right; split; reflexivity|left; reflexivity].
    + destruct (mk_all m x r) as [x' e'] eqn:Em. intros H. apply pair_inj in H. destruct H as [<- <-].
      assert (dirish x) as Dx by (apply searchable_ok in Es; destruct Es as (a & es & Es & _); injection Es as ->; unfold dirish; eauto).
      destruct (IH x Ux Dx _ _ Em) as (K & O & I & S & P). clear IH.
      assert (node_at d1 [c] = Some x) as Cn by (cbn; now rewrite C1).
      assert (forall q, entry_at (update d1 [c] (fun _ => x')) (c :: q) = entry_at x' q) as Hin.
      { intros q. rewrite !entry_is. change (c :: q) with ([c] ++ q). now rewrite (node_update_in _ _ _ _ _ Cn). }
      assert (forall q, (forall t, q <> c :: t) -> entry_at (update d1 [c] (fun _ => x')) q = entry_at d q) as Hout.
      { intros q Hq. rewrite entry_update_out; [|intros [t ->]; now apply (Hq t)]. destruct q as [|b q]; [rewrite !entry_is; cbn [node_at option_map]; now rewrite K1|].
        apply O1. intros ->. now apply (Hq q). }
      split; [rewrite kind_update; assumption|]. split; [|split; [|split]].
      * intros q Hq. destruct q as [|b q]; [apply Hout; discriminate|]. destruct (list_eq_dec N.eq_dec b c) as [->|Hb]; [|apply Hout; congruence].
        rewrite Hin, O; [|intros [t ->]; apply Hq; now exists t]. destruct Hx as [E|[E ->]]; [symmetry; now apply S1|].
        rewrite (entry_is d). cbn [node_at]. rewrite E. destruct q as [|a q]; [exfalso; apply Hq; now exists r|reflexivity].
      * intros q [t Ht]. destruct q as [|b q]; [left; apply Hout; discriminate|]. cbn in Ht. injection Ht as <- Ht. rewrite Hin.
        assert (below q r) as Hb by (now exists t). destruct Hx as [E|[E ->]].
        -- rewrite (S1 q E). auto.
        -- rewrite (entry_is d). cbn [node_at]. rewrite E. cbn [option_map]. destruct (I q Hb) as [H|[H1 H2]]; [|auto].
           destruct q as [|a q]; [right; split; [reflexivity|exact H]|left; exact H].
      * intros He q [t Ht]. destruct q as [|b q].
        -- rewrite Hout by discriminate. destruct Hd as (a & es & ->). exists a. reflexivity.
        -- cbn in Ht. injection Ht as <- Ht. rewrite Hin. apply S; [assumption|now exists t].
      * destruct (views_update _ _ _ Cn) as (rest & Q1 & Q2). rewrite (Q2 _), P, <- Q1. assumption.
Qed.
Lemma node_update_one d c x f b q : node_at d [c] = Some x -> node_at (update d [c] f) (b :: q) = if bytes_eqb b c then node_at (f x) q else node_at d (b :: q).
Proof.
  intros H. destruct (bytes_eqb b c) eqn:E.
  - apply eqb_true in E. subst b. exact (node_update_in d [c] f x q H).
  - destruct d as [m v|m es]; [discriminate|]. cbn [node_at child] in H. cbn [update]. destruct (assoc es c) as [y|] eqn:Ey; [|discriminate]. cbn [node_at child].
    rewrite assoc_replace, E. reflexivity.
Qed.
Lemma mk_all_nodes m cs : forall d, unique d -> dirish d -> forall q, ~ below q cs -> node_at (fst (mk_all m d cs)) q = node_at d q.
Proof.
  induction cs as [|c r IH]; intros d Hu Hd q Hq; cbn [mk_all]; [reflexivity|].
  destruct q as [|b q]; [exfalso; apply Hq; now exists (c :: r)|].
  assert (b = c -> ~ below q r) as Hq' by (intros -> [t ->]; apply Hq; now exists t).
  assert (exists x, (child d c = Some x \/ child d c = None /\ x = Dir m []) /\ match child d c with Some x => x | None => Dir m [] end = x) as (x & Hx & ->).
  { destruct (child d c) as [y|]; eauto. }
  set (d1 := match child d c with Some _ => d | None => add_child c x d end).
  assert (node_at d1 [c] = Some x /\ (forall q, b <> c -> node_at d1 (b :: q) = node_at d (b :: q)) /\ (b = c -> ~ below q r -> node_at x q = node_at d (b :: q))) as (C1 & O1 & I1).
  { unfold d1. destruct Hx as [E|[E ->]]; rewrite E.
    - split; [cbn; now rewrite E|]. split; [reflexivity|]. intros -> _. cbn. now rewrite E.
    - split; [exact (add_here c (Dir m []) d Hu Hd [])|]. split; [intros t Hb; now apply add_other|]. intros -> Hb. cbn [node_at]. rewrite E. destruct q; [exfalso; apply Hb; now exists r|reflexivity]. }
  assert (unique x) as Ux by (destruct Hx as [E|[_ ->]]; [eapply unique_child; eauto|apply unique_empty]).
  clearbody d1. destruct (searchable (Some x)) as [e0|] eqn:Es.
  - cbn [fst]. destruct (list_eq_dec N.eq_dec b c) as [->|Hb]; [|now apply O1]. rewrite <- (I1 eq_refl (Hq' eq_refl)). change (c :: q) with ([c] ++ q). now rewrite node_app, C1.
  - assert (dirish x) as Dx by (apply searchable_ok in Es; destruct Es as (a & es & Es & _); injection Es as ->; unfold dirish; eauto).
    pose proof (IH x Ux Dx q) as IHx. destruct (mk_all m x r) as [x' e']. cbn [fst] in *. rewrite (node_update_one _ _ x _ _ _ C1).
    destruct (bytes_eqb b c) eqn:E.
    + apply eqb_true in E. rewrite (IHx (Hq' E)). auto.
    + apply O1. intros ->. rewrite eqb_refl' in E. discriminate.
Qed.
Lemma mkdir_all_nodes s p perm : sound s -> ordinary p -> forall q, ~ below q p -> node_at (a_root (fst (mkdir_all s (spell p) perm))) q = node_at (a_root s) q.
Proof.
  intros [Hu Hr] Ho q Hq. unfold mkdir_all. destruct (validate (spell p)); [reflexivity|]. destruct (is_dot (spell p)); [reflexivity|]. destruct (searchable (Some (a_root s))); [reflexivity|].
  rewrite comps_spell by assumption. pose proof (mk_all_nodes (dir_mode s perm) p (a_root s) Hu Hr q Hq) as E. destruct (mk_all (dir_mode s perm) (a_root s) p). exact E.
Qed.
Theorem mkdir_all_spec s p perm : sound s -> ordinary p -> forall s' e, mkdir_all s (spell p) perm = (s', e) ->
  (forall q, ~ below q p -> shows s' q = shows s q) /\
  (forall q, below q p -> shows s' q = shows s q \/ shows s q = None /\ exists m, shows s' q = Some (DirEnt m) /\ masked (a_umask s) perm m) /\
  (e = None -> forall q, below q p -> exists m, shows s' q = Some (DirEnt m)) /\
  a_views s' = a_views s /\ a_closed s' = a_closed s /\ Permutation (views_in (a_root s')) (views_in (a_root s)) /\ a_umask s' = a_umask s /\ a_alloc s' = a_alloc s.
Proof.
  intros [Hu Hr] Ho s' e. unfold mkdir_all.
  match goal with |- _ -> ?G => assert (forall e0, (s, Some e0) = (s', e) -> G) as Hfail end.
  2: destruct (validate (spell p)) as [e0|]; [apply Hfail|].
  { intros e0 H. injection H as <- <-. split; [auto|]. split; [auto|]. split; [discriminate|]. repeat split; reflexivity. }
  rewrite spell_dot by assumption. destruct p as [|c r].
  - intros H. injection H as <- <-. split; [auto|]. split; [auto|]. split; [|repeat split; reflexivity].
    intros _ q [t H]. symmetry in H. apply app_eq_nil in H. destruct H as [-> _]. destruct Hr as (m & es & Hr). exists m. unfold shows. rewrite Hr. reflexivity.
  - destruct (searchable (Some (a_root s))) as [e0|]; [apply Hfail|].
    rewrite comps_spell by assumption. destruct (mk_all (dir_mode s perm) (a_root s) (c :: r)) as [r' e'] eqn:Em. intros H. injection H as <- <-.
    destruct (mk_all_spec _ _ _ Hu Hr _ _ Em) as (K & O & I & S & P). split; [exact O|]. split; [|split; [exact S|repeat split; auto]].
    intros q Hq. destruct (I q Hq) as [H|[H1 H2]]; [now left|right]. split; [assumption|]. exists (dir_mode s perm). split; [assumption|apply dir_mode_masked].
Qed.
