(* Proofs for building an overlay (C86). *)
From Verif Require Import Common CommonLemmas ContentRange_Model ContentRange_Proofs Stack_Model Stack_Spec.
From Verif Require Masks_Model Masks_Proofs.
Open Scope nat_scope.

Lemma eqb_refl b : bytes_eqb b b = true. Proof. apply bytes_eqb_eq. reflexivity. Qed.
Lemma eqb_neq a b : a <> b -> bytes_eqb a b = false.
Proof. intros H. destruct (bytes_eqb a b) eqn:E; [|reflexivity]. apply bytes_eqb_eq in E. contradiction. Qed.

(* Entries. *)
Lemma entry_in n r x : entry n r = Some x -> In (n, x) r.
Proof.
  induction r as [|[m y] r IH]; cbn [entry]; [discriminate|]. destruct (bytes_eqb n m) eqn:E.
  - apply bytes_eqb_eq in E. subst. intros H. inversion H. subst. left. reflexivity.
  - intros H. right. exact (IH H).
Qed.
Lemma in_entry n r x : proper_root r -> In (n, x) r -> entry n r = Some x.
Proof.
  induction r as [|[m y] r IH]; intros P H; [destruct H|]. cbn [entry]. inversion P as [|a b N P']. subst.
  destruct H as [H|H].
  - inversion H. subst. rewrite eqb_refl. reflexivity.
  - rewrite eqb_neq; [exact (IH P' H)|]. intros ->. apply N. apply in_map_iff. exists (m, x). split; [reflexivity|exact H].
Qed.
Lemma entry_none n r : entry n r = None <-> absent r n.
Proof.
  unfold absent. induction r as [|[m y] r IH]; cbn [entry].
  - split; [intros _ x []|reflexivity].
  - destruct (bytes_eqb n m) eqn:E.
    + apply bytes_eqb_eq in E. subst. split; [discriminate|]. intros H. exfalso. apply (H y). left. reflexivity.
    + split.
      * intros H x [F|F]; [inversion F; subst; rewrite eqb_refl in E; discriminate|]. exact (proj1 IH H x F).
      * intros H. apply IH. intros x F. apply (H x). right. exact F.
Qed.
Lemma in_once r n x y : proper_root r -> In (n, x) r -> In (n, y) r -> x = y.
Proof. intros P A B. apply (in_entry _ _ _ P) in A. apply (in_entry _ _ _ P) in B. congruence. Qed.

(* Following links finds exactly where a name leads. *)
Lemma follow_sound k r : forall n m x, follow k r n = inr (m, x) -> leads r n x /\ In (m, x) r /\ (forall t, x <> Link t).
Proof.
  induction k as [|k IH]; intros n m x; cbn [follow]; destruct (entry n r) as [[es|c|t]|] eqn:E; try discriminate;
    intros H; try (apply entry_in in E; inversion H; subst; split; [apply leads_here; [exact E|discriminate]|split; [exact E|discriminate]]).
  apply IH in H. destruct H as [A B]. split; [|exact B]. eapply leads_on; [exact (entry_in _ _ _ E)|exact A].
Qed.
Inductive trail (r : root) : name -> list name -> node -> Prop :=
  | trail_here n x : In (n, x) r -> (forall t, x <> Link t) -> trail r n [n] x
  | trail_on n t l x : In (n, Link t) r -> trail r t l x -> trail r n (n :: l) x.
Lemma leads_trail r n x : leads r n x -> exists l, trail r n l x.
Proof.
  induction 1 as [n x A B|n t x A _ [l IH]]; [exists [n]; apply trail_here; assumption|].
  exists (n :: l). eapply trail_on; eassumption.
Qed.
Lemma trail_once r : proper_root r -> forall n l x, trail r n l x -> forall l' x', trail r n l' x' -> l = l' /\ x = x'.
Proof.
  intros P n l x H. induction H as [n x A B|n t l x A T IH]; intros l' x' H'.
  - inversion H' as [? ? A' B'|? t ? ? A' T']; subst.
    + split; [reflexivity|exact (in_once _ _ _ _ P A A')].
    + exfalso. exact (B t (in_once _ _ _ _ P A A')).
  - inversion H' as [? ? A' B'|? t' ? ? A' T']; subst.
    + exfalso. exact (B' t (in_once _ _ _ _ P A' A)).
    + pose proof (in_once _ _ _ _ P A A') as E. inversion E. subst. destruct (IH _ _ T') as [-> ->]. split; reflexivity.
Qed.
Lemma trail_mid r : forall n l x, trail r n l x -> forall m, In m l -> exists l2, trail r m l2 x /\ length l2 <= length l.
Proof.
  intros n l x H. induction H as [n x A B|n t l x A T IH]; intros m I.
  - destruct I as [<-|[]]. exists [n]. split; [apply trail_here; assumption|reflexivity].
  - destruct I as [<-|I].
    + exists (n :: l). split; [eapply trail_on; eassumption|reflexivity].
    + destruct (IH m I) as (l2 & X & Y). exists l2. split; [exact X|cbn; lia].
Qed.
Lemma trail_fresh r : proper_root r -> forall n l x, trail r n l x -> NoDup l /\ incl l (map fst r).
Proof.
  intros P n l x H. induction H as [n x A B|n t l x A T [IH1 IH2]].
  - split; [repeat constructor; intros []|]. intros m [<-|[]]. apply in_map_iff. exists (n, x). split; [reflexivity|exact A].
  - split.
    + constructor; [|exact IH1]. intros I. destruct (trail_mid _ _ _ _ T n I) as (l2 & X & Y).
      destruct (trail_once r P _ _ _ X (n :: l) x) as [E _]; [eapply trail_on; eassumption|]. subst. cbn in Y. lia.
    + intros m [<-|I]; [apply in_map_iff; exists (n, Link t); split; [reflexivity|exact A]|exact (IH2 m I)].
Qed.
Lemma trail_follow r : proper_root r -> forall n l x, trail r n l x -> forall k, length l <= S k -> exists m, follow k r n = inr (m, x).
Proof.
  intros P n l x H. induction H as [n x A B|n t l x A T IH]; intros k L.
  - exists n. destruct k; cbn [follow]; rewrite (in_entry _ _ _ P A); destruct x as [es|c|t]; try reflexivity; exfalso; exact (B t eq_refl).
  - destruct k as [|k].
    + exfalso. inversion T; subst; cbn in L; lia.
    + cbn [follow]. rewrite (in_entry _ _ _ P A). apply IH. cbn in L. lia.
Qed.
Lemma stat_complete r n x : proper_root r -> leads r n x -> exists m, stat r n = inr (m, x).
Proof.
  intros P H. destruct (leads_trail _ _ _ H) as [l T]. destruct (trail_fresh r P _ _ _ T) as [N I].
  apply (trail_follow r P _ _ _ T). pose proof (NoDup_incl_length N I) as L. rewrite map_length in L. lia.
Qed.
Lemma stat_sound r n m x : stat r n = inr (m, x) -> leads r n x /\ In (m, x) r /\ (forall t, x <> Link t).
Proof. apply follow_sound. Qed.
Lemma leads_once r n x y : proper_root r -> leads r n x -> leads r n y -> x = y.
Proof.
  intros P A B. destruct (stat_complete _ _ _ P A) as [m E]. destruct (stat_complete _ _ _ P B) as [m' E']. congruence.
Qed.
Lemma leads_grows r more n x : leads r n x -> leads (r ++ more) n x.
Proof.
  induction 1 as [n x A B|n t x A _ IH].
  - apply leads_here; [apply in_or_app; left; exact A|exact B].
  - eapply leads_on; [apply in_or_app; left; exact A|exact IH].
Qed.
Lemma absent_no_lead r n x : absent r n -> ~ leads r n x.
Proof. intros A L. inversion L as [? ? I _|? t ? I _]; subst; exact (A _ I). Qed.
Lemma stat_absent r n : absent r n -> stat r n = inl ENotExist.
Proof. intros A. apply entry_none in A. unfold stat. destruct (length r); cbn [follow]; rewrite A; reflexivity. Qed.
Lemma follow_err k r : forall n e, follow k r n = inl e -> e = ENotExist \/ e = ELoop.
Proof.
  induction k as [|k IH]; intros n e; cbn [follow]; destruct (entry n r) as [[es|c|t]|]; try discriminate; intros H;
    try (inversion H; auto; fail). exact (IH _ _ H).
Qed.

(* Making the layout. *)
Lemma grown_refl r ns : proper_root r -> grown r r ns.
Proof. intros P. split; [exact P|]. exists []. split; [rewrite app_nil_r; reflexivity|intros n x []]. Qed.
Lemma proper_snoc r n x : proper_root r -> absent r n -> proper_root (r ++ [(n, x)]).
Proof.
  unfold proper_root. intros P A. rewrite map_app. apply NoDup_rev in P.
  rewrite <- (rev_involutive (map fst r ++ map fst [(n, x)])). apply NoDup_rev. rewrite rev_app_distr. cbn [map fst rev app].
  constructor; [|exact P]. intros I. apply in_rev in I. apply in_map_iff in I. destruct I as ([m y] & E & I). cbn in E. subst. exact (A _ I).
Qed.
Lemma grown_trans r r1 r2 ns : grown r r1 ns -> grown r1 r2 ns -> grown r r2 ns.
Proof.
  intros [P1 (m1 & E1 & H1)] [P2 (m2 & E2 & H2)]. split; [exact P2|]. exists (m1 ++ m2).
  split; [rewrite E2, E1, app_assoc; reflexivity|]. intros n x I. apply in_app_or in I. destruct I as [I|I]; [exact (H1 n x I)|].
  destruct (H2 n x I) as (A & B & C). split; [exact A|]. split; [exact B|]. intros y J. apply (C y). rewrite E1. apply in_or_app. left. exact J.
Qed.
Lemma grown_leads r r' ns n x : grown r r' ns -> leads r n x -> leads r' n x.
Proof. intros [_ (m & -> & _)]. apply leads_grows. Qed.
Lemma grown_absent r r' ns n : grown r r' ns -> absent r' n -> absent r n.
Proof. intros [_ (m & -> & _)] A x I. apply (A x). apply in_or_app. left. exact I. Qed.

Lemma ensure_one_does frozen r fs n ns r' fs' e :
  proper_root r -> In n ns -> ensure_one frozen r fs n = (r', fs', e) ->
  grown r r' ns /\ (frozen = true -> r' = r) /\
  (e = None -> a_directory r' n) /\
  (a_directory r n -> r' = r).
Proof.
  intros P I. unfold ensure_one. destruct (now fs) as [f|].
  - destruct (is ENotExist f).
    + destruct (now (later fs)) as [g|].
      * intros H. inversion H. subst. split; [auto using grown_refl|]. split; [auto|]. split; [discriminate|auto].
      * unfold mkdir. destruct frozen.
        { intros H. inversion H. subst. split; [auto using grown_refl|]. split; [auto|]. split; [discriminate|auto]. }
        destruct (entry n r) as [x|] eqn:E.
        { intros H. inversion H. subst. split; [auto using grown_refl|]. split; [auto|]. split; [discriminate|auto]. }
        apply entry_none in E. intros H. inversion H. subst. split.
        { split; [apply proper_snoc; assumption|]. exists [(n, Dir [])]. split; [reflexivity|].
          intros m x [J|[]]. inversion J. subst. repeat split; assumption. }
        split; [discriminate|]. split.
        { intros _. exists []. apply leads_here; [apply in_or_app; right; left; reflexivity|discriminate]. }
        intros [es L]. exfalso. exact (absent_no_lead _ _ _ E L).
    + intros H. inversion H. subst. split; [auto using grown_refl|]. split; [auto|]. split; [discriminate|auto].
  - destruct (stat r n) as [f|[m x]] eqn:S.
    + destruct (is ENotExist f).
      * destruct (now (later fs)) as [g|].
        { intros H. inversion H. subst. split; [auto using grown_refl|]. split; [auto|]. split; [discriminate|auto]. }
        unfold mkdir. destruct frozen.
        { intros H. inversion H. subst. split; [auto using grown_refl|]. split; [auto|]. split; [discriminate|auto]. }
        destruct (entry n r) as [x|] eqn:E.
        { intros H. inversion H. subst. split; [auto using grown_refl|]. split; [auto|]. split; [discriminate|auto]. }
        apply entry_none in E. intros H. inversion H. subst. split.
        { split; [apply proper_snoc; assumption|]. exists [(n, Dir [])]. split; [reflexivity|].
          intros m x [J|[]]. inversion J. subst. repeat split; assumption. }
        split; [discriminate|]. split.
        { intros _. exists []. apply leads_here; [apply in_or_app; right; left; reflexivity|discriminate]. }
        intros [es L]. exfalso. exact (absent_no_lead _ _ _ E L).
      * intros H. inversion H. subst. split; [auto using grown_refl|]. split; [auto|]. split; [discriminate|auto].
    + destruct (stat_sound _ _ _ _ S) as (L & _ & _).
      destruct x as [es|c|t]; intros H; inversion H; subst; split; auto using grown_refl; split; auto; split; try discriminate; auto.
      intros _. exists es. exact L.
Qed.

Lemma quiet_now fs : quiet fs -> now fs = None.
Proof. intros Q. destruct Q; [reflexivity|]. cbn. congruence. Qed.
Lemma quiet_later fs : quiet fs -> quiet (later fs).
Proof. intros Q. destruct Q; [constructor|assumption]. Qed.

Lemma ensure_one_quiet frozen r fs n : quiet fs -> proper_root r ->
  (a_directory r n \/ (absent r n /\ frozen = false)) ->
  exists r' fs', ensure_one frozen r fs n = (r', fs', None) /\ quiet fs'.
Proof.
  intros Q P H. unfold ensure_one. rewrite (quiet_now _ Q). pose proof (quiet_later _ Q) as Q1. destruct H as [[es L]|[A ->]].
  - destruct (stat_complete _ _ _ P L) as [m ->]. eexists _, _. split; [reflexivity|exact Q1].
  - rewrite (stat_absent _ _ A). cbn [is err_eqb]. rewrite (quiet_now _ Q1). unfold mkdir.
    apply entry_none in A. rewrite A. eexists _, _. split; [reflexivity|]. apply quiet_later, Q1.
Qed.
Lemma layout_does frozen r fs r' fs' e : proper_root r -> ensure_canonical frozen r fs = (r', fs', e) ->
  grown r r' the_two /\ (frozen = true -> r' = r) /\
  (e = None -> forall n, In n the_two -> a_directory r' n) /\
  ((forall n, In n the_two -> a_directory r n) -> r' = r).
Proof.
  intros P. unfold ensure_canonical. cbn [ensure_each].
  destruct (ensure_one frozen r fs merged) as [[r1 fs1] e1] eqn:E1.
  destruct (ensure_one_does _ _ _ _ the_two _ _ _ P (or_introl eq_refl) E1) as (G1 & F1 & D1 & S1).
  destruct e1 as [x|].
  { intros H. inversion H. subst. split; [exact G1|]. split; [exact F1|]. split; [discriminate|].
    intros D. apply S1, D. left. reflexivity. }
  destruct (ensure_one frozen r1 fs1 work) as [[r2 fs2] e2] eqn:E2.
  destruct (ensure_one_does _ _ _ _ the_two _ _ _ (proj1 G1) (or_intror (or_introl eq_refl)) E2) as (G2 & F2 & D2 & S2).
  assert (X : (r2, e2) = (r', e) -> grown r r' the_two /\ (frozen = true -> r' = r) /\
    (e = None -> forall n, In n the_two -> a_directory r' n) /\ ((forall n, In n the_two -> a_directory r n) -> r' = r)).
  { intros H. inversion H. subst. split; [exact (grown_trans _ _ _ _ G1 G2)|]. split; [intros Z; rewrite (F2 Z); exact (F1 Z)|]. split.
    - intros Z n [<-|[<-|[]]].
      + destruct (D1 eq_refl) as [es L]. exists es. exact (grown_leads _ _ _ _ _ G2 L).
      + exact (D2 Z).
    - intros D. assert (Y : r1 = r) by (apply S1, D; left; reflexivity). rewrite S2; [exact Y|]. rewrite Y. apply D. right. left. reflexivity. }
  destruct e2 as [y|]; intros H; inversion H; subst; apply X; reflexivity.
Qed.
Lemma layout_succeeds frozen r fs : quiet fs -> proper_root r ->
  (forall n, In n the_two -> a_directory r n \/ (absent r n /\ frozen = false)) ->
  exists r' fs', ensure_canonical frozen r fs = (r', fs', None) /\ quiet fs'.
Proof.
  intros Q P H. unfold ensure_canonical. cbn [ensure_each].
  destruct (ensure_one_quiet frozen r fs merged Q P (H merged (or_introl eq_refl))) as (r1 & fs1 & E1 & Q1). rewrite E1.
  destruct (ensure_one_does _ _ _ _ the_two _ _ _ P (or_introl eq_refl) E1) as (G1 & F1 & D1 & S1).
  assert (W : a_directory r1 work \/ (absent r1 work /\ frozen = false)).
  { destruct (H work (or_intror (or_introl eq_refl))) as [[es L]|[A F]].
    - left. exists es. exact (grown_leads _ _ _ _ _ G1 L).
    - right. split; [|exact F]. clear H. unfold ensure_one in E1. rewrite (quiet_now _ Q) in E1.
      destruct (stat r merged) as [f|[m [es|c|t]]].
      + destruct (is ENotExist f); [|discriminate]. rewrite (quiet_now _ (quiet_later _ Q)) in E1. unfold mkdir in E1.
        rewrite F in E1. destruct (entry merged r); [discriminate|]. inversion E1. subst.
        intros x I. apply in_app_or in I. destruct I as [I|[I|[]]]; [exact (A x I)|discriminate].
      + inversion E1. subst. exact A.
      + discriminate.
      + discriminate. }
  destruct (ensure_one_quiet frozen r1 fs1 work Q1 (proj1 G1) W) as (r2 & fs2 & E2 & Q2). rewrite E2.
  exists r2, fs2. split; [reflexivity|exact Q2].
Qed.
Lemma ensure_one_quiet_conv frozen r fs n r' fs' e : quiet fs -> proper_root r -> ensure_one frozen r fs n = (r', fs', e) ->
  (e = None <-> a_directory r n \/ (absent r n /\ frozen = false)) /\ quiet fs' /\ (e = Some ENotCanonical <-> a_file r n).
Proof.
  intros Q P. pose proof (quiet_later _ Q) as Q1. unfold ensure_one. rewrite (quiet_now _ Q).
  destruct (stat r n) as [f|[m x]] eqn:S.
  - assert (ND : forall x, ~ leads r n x).
    { intros x L. destruct (stat_complete _ _ _ P L) as [m E]. rewrite E in S. discriminate. }
    destruct (follow_err _ _ _ _ S) as [-> | ->]; cbn [is err_eqb].
    + rewrite (quiet_now _ Q1). unfold mkdir. destruct frozen; [|destruct (entry n r) as [y|] eqn:E]; intros H; inversion H; subst.
      * split; [|split; [apply quiet_later, Q1|]].
        { split; [discriminate|]. intros [[es L]|[_ ?]]; [exfalso; exact (ND _ L)|discriminate]. }
        split; [discriminate|]. intros [c L]. exfalso. exact (ND _ L).
      * split; [|split; [apply quiet_later, Q1|]].
        { split; [discriminate|]. intros [[es L]|[A _]]; [exfalso; exact (ND _ L)|]. exfalso. exact (A _ (entry_in _ _ _ E)). }
        split; [discriminate|]. intros [c L]. exfalso. exact (ND _ L).
      * split; [|split; [apply quiet_later, Q1|]].
        { split; [intros _; right; split; [apply entry_none; exact E|reflexivity]|reflexivity]. }
        split; [discriminate|]. intros [c L]. exfalso. exact (ND _ L).
    + intros H. inversion H. subst. split; [|split; [exact Q1|]].
      * split; [discriminate|]. intros [[es L]|[A _]]; [exfalso; exact (ND _ L)|]. rewrite (stat_absent _ _ A) in S. discriminate.
      * split; [discriminate|]. intros [c L]. exfalso. exact (ND _ L).
  - destruct (stat_sound _ _ _ _ S) as (L & _ & K). destruct x as [es|c|t]; intros H; inversion H; subst.
    + split; [split; [left; exists es; exact L|reflexivity]|]. split; [exact Q1|]. split; [discriminate|].
      intros [c L']. pose proof (leads_once _ _ _ _ P L L'). discriminate.
    + split; [|split; [exact Q1|]].
      * split; [discriminate|]. intros [[es L']|[A _]]; [pose proof (leads_once _ _ _ _ P L L'); discriminate|].
        exfalso. exact (absent_no_lead _ _ _ A L).
      * split; [intros _; exists c; exact L|reflexivity].
    + exfalso. exact (K t eq_refl).
Qed.
Lemma layout_not_canonical frozen r fs r' fs' : quiet fs -> proper_root r ->
  ensure_canonical frozen r fs = (r', fs', Some ENotCanonical) -> exists n, In n the_two /\ a_file r' n.
Proof.
  intros Q P. unfold ensure_canonical. cbn [ensure_each].
  destruct (ensure_one frozen r fs merged) as [[r1 fs1] e1] eqn:E1.
  destruct (ensure_one_quiet_conv _ _ _ _ _ _ _ Q P E1) as (_ & Q1 & K1).
  destruct (ensure_one_does _ _ _ _ the_two _ _ _ P (or_introl eq_refl) E1) as (G1 & _).
  destruct e1 as [x|].
  { intros H. inversion H. subst. destruct (proj1 K1 eq_refl) as [c L]. exists merged. split; [left; reflexivity|]. exists c. exact (grown_leads _ _ _ _ _ G1 L). }
  destruct (ensure_one frozen r1 fs1 work) as [[r2 fs2] e2] eqn:E2.
  destruct (ensure_one_quiet_conv _ _ _ _ _ _ _ Q1 (proj1 G1) E2) as (_ & _ & K2).
  destruct (ensure_one_does _ _ _ _ the_two _ _ _ (proj1 G1) (or_intror (or_introl eq_refl)) E2) as (G2 & _).
  intros H. assert (e2 = Some ENotCanonical /\ r2 = r') as [-> ->] by (destruct e2; inversion H; auto).
  destruct (proj1 K2 eq_refl) as [c L]. exists work. split; [right; left; reflexivity|]. exists c. exact (grown_leads _ _ _ _ _ G2 L).
Qed.
Lemma layout_file frozen r fs r' fs' e n : quiet fs -> proper_root r -> ensure_canonical frozen r fs = (r', fs', e) ->
  In n the_two -> a_file r n -> e <> None.
Proof.
  intros Q P H I [c L] ->. destruct (layout_does _ _ _ _ _ _ P H) as (G & _ & D & _).
  destruct (D eq_refl n I) as [es L']. pose proof (leads_once _ _ _ _ (proj1 G) (grown_leads _ _ _ _ _ G L) L'). discriminate.
Qed.

(* The schema. *)
Fixpoint all_ok (d : db) (ss : list (db -> db + err)) : option db :=
  match ss with [] => Some d | s :: r => match s d with inl d' => all_ok d' r | inr _ => None end end.
Lemma statements_ok ss : forall d fs fs' d', statements d fs ss = (fs', inl d') -> all_ok d ss = Some d'.
Proof.
  induction ss as [|s ss IH]; intros d fs fs' d'; cbn [statements all_ok]; [intros H; inversion H; reflexivity|].
  destruct (now fs); [discriminate|]. destruct (s d) as [d1|e]; [apply IH|discriminate].
Qed.
Lemma statements_quiet ss : forall d fs, quiet fs ->
  exists fs', quiet fs' /\ match all_ok d ss with
    | Some d' => statements d fs ss = (fs', inl d')
    | None => exists e, statements d fs ss = (fs', inr e)
    end.
Proof.
  induction ss as [|s ss IH]; intros d fs Q; cbn [statements all_ok]; [exists fs; split; [exact Q|reflexivity]|].
  rewrite (quiet_now _ Q). destruct (s d) as [d1|e].
  - apply IH, quiet_later, Q.
  - exists (later fs). split; [apply quiet_later, Q|exists e; reflexivity].
Qed.
Definition five : list (db -> db + err) := [ddl_node; ddl_index; ddl_info; insert_version; check_version].
Lemma value_in k kvs v : value_of k kvs = Some v -> In (k, v) kvs.
Proof.
  induction kvs as [|[k' v'] r IH]; cbn [value_of]; [discriminate|]. destruct (bytes_eqb k k') eqn:E.
  - apply bytes_eqb_eq in E. subst. intros H. inversion H. left. reflexivity.
  - intros H. right. exact (IH H).
Qed.
Lemma in_value k kvs v : NoDup (map fst kvs) -> In (k, v) kvs -> value_of k kvs = Some v.
Proof.
  induction kvs as [|[k' v'] r IH]; intros N I; [destruct I|]. cbn [value_of]. inversion N as [|a b N1 N2]. subst. destruct I as [I|I].
  - inversion I. subst. rewrite eqb_refl. reflexivity.
  - rewrite eqb_neq; [exact (IH N2 I)|]. intros ->. apply N1. apply in_map_iff. exists (k', v). split; [reflexivity|exact I].
Qed.
Lemma value_none k kvs : value_of k kvs = None -> forall v, ~ In (k, v) kvs.
Proof.
  induction kvs as [|[k' v'] r IH]; cbn [value_of]; [intros _ v []|]. destruct (bytes_eqb k k') eqn:E; [discriminate|].
  intros H v [I|I]; [inversion I; subst; rewrite eqb_refl in E; discriminate|exact (IH H v I)].
Qed.
Lemma value_snoc k kvs v : value_of k kvs = None -> value_of k (kvs ++ [(k, v)]) = Some v.
Proof.
  induction kvs as [|[k' v'] r IH]; cbn [value_of app]; [intros _; rewrite eqb_refl; reflexivity|].
  destruct (bytes_eqb k k'); [discriminate|exact IH].
Qed.
Lemma check_ok d d' : check_version d = inl d' -> d' = d /\ says d one.
Proof.
  unfold check_version, says. destruct (db_info d) as [[[|] kvs]|]; try discriminate.
  destruct (value_of k_version kvs) as [v|] eqn:V; [|discriminate]. destruct (bytes_eqb v schema_version) eqn:E; [|discriminate].
  apply bytes_eqb_eq in E. subst. intros H. inversion H. subst. split; [reflexivity|]. exists kvs. split; [reflexivity|exact (value_in _ _ _ V)].
Qed.
Lemma says_check d : proper_db d -> says d one -> check_version d = inl d.
Proof.
  intros P (kvs & E & I). unfold check_version. rewrite E. change k_version with key. rewrite (in_value _ _ _ (P _ _ E) I).
  change schema_version with one. rewrite eqb_refl. reflexivity.
Qed.
(* What the five statements make of a database. *)
Lemma five_ok d d' : proper_db d -> all_ok d five = Some d' ->
  finished d d' /\ (says d one \/ (forall v, ~ says d v)) /\ proper_db d' /\ (ours d -> d' = d).
Proof.
  intros P. unfold five. cbn [all_ok].
  destruct (ddl_node d) as [d1|] eqn:E1; [|discriminate]. destruct (ddl_index d1) as [d2|] eqn:E2; [|discriminate].
  destruct (ddl_info d2) as [d3|] eqn:E3; [|discriminate]. destruct (insert_version d3) as [d4|] eqn:E4; [|discriminate].
  destruct (check_version d4) as [d5|] eqn:E5; [|discriminate]. intros H. inversion H. subst d5. clear H.
  apply check_ok in E5. destruct E5 as [E5 S]. subst d4.
  assert (A1 : rows d1 = rows d /\ db_other d1 = db_other d /\ db_info d1 = db_info d /\ db_index d1 = db_index d /\ db_node d1 <> None /\
               (db_node d <> None -> d1 = d)).
  { unfold ddl_node in E1. unfold rows. destruct (db_node d) as [[b t]|] eqn:N; inversion E1; subst; cbn.
    - rewrite N. repeat split; try reflexivity. discriminate.
    - repeat split; try reflexivity; try discriminate. intros F. exfalso. apply F. reflexivity. }
  assert (A2 : rows d2 = rows d1 /\ db_other d2 = db_other d1 /\ db_info d2 = db_info d1 /\ db_node d2 = db_node d1 /\ db_index d2 = true /\
               (db_index d1 = true -> d2 = d1)).
  { unfold ddl_index in E2. unfold rows. destruct (db_index d1) eqn:I.
    - inversion E2. subst. repeat split; auto.
    - destruct (db_node d1) as [[[|] t]|] eqn:N; inversion E2. subst. cbn. repeat split; auto. discriminate. }
  assert (A3 : rows d3 = rows d2 /\ db_other d3 = db_other d2 /\ db_node d3 = db_node d2 /\ db_index d3 = db_index d2 /\
               (db_info d2 = None /\ db_info d3 = Some (true, []) \/ db_info d2 <> None /\ d3 = d2)).
  { unfold ddl_info in E3. unfold rows. destruct (db_info d2) as [[b kvs]|] eqn:I; inversion E3; subst; cbn; repeat split; auto.
    right. split; [discriminate|reflexivity]. }
  destruct A1 as (R1 & O1 & I1 & X1 & N1 & K1). destruct A2 as (R2 & O2 & I2 & N2 & X2 & K2). destruct A3 as (R3 & O3 & N3 & X3 & C3).
  assert (A4 : rows d' = rows d3 /\ db_other d' = db_other d3 /\ db_node d' = db_node d3 /\ db_index d' = db_index d3 /\
    exists kvs, db_info d3 = Some (true, kvs) /\
      ((exists v, value_of k_version kvs = Some v) /\ d' = d3 \/ value_of k_version kvs = None /\ db_info d' = Some (true, kvs ++ [(k_version, schema_version)]))).
  { unfold insert_version in E4. unfold rows. destruct (db_info d3) as [[[|] kvs]|] eqn:I; try discriminate.
    destruct (value_of k_version kvs) as [v|] eqn:V; inversion E4; subst; cbn; repeat split; auto; exists kvs; split; auto.
    left. split; [exists v; exact V|reflexivity]. }
  destruct A4 as (R4 & O4 & N4 & X4 & kvs & I3 & C4).
  assert (Q3 : NoDup (map fst kvs)).
  { destruct C3 as [[Z1 Z2]|[Z1 ->]].
    - assert (kvs = []) as -> by congruence. constructor.
    - apply (P true). congruence. }
  assert (Orig : (db_info d = None /\ kvs = []) \/ db_info d = Some (true, kvs)).
  { destruct C3 as [[Z1 Z2]|[Z1 ->]].
    - left. split; congruence.
    - right. congruence. }
  split.
  { split; [congruence|]. split; [congruence|]. split; [exact S|]. split; [congruence|]. split; [congruence|]. intros k v NK.
    assert (Info : exists kvs', db_info d' = Some (true, kvs') /\ (In (k, v) kvs' <-> In (k, v) kvs)).
    { destruct C4 as [[_ ->]|[_ E]]; [exists kvs; split; [exact I3|reflexivity]|]. exists (kvs ++ [(k_version, schema_version)]). split; [exact E|].
      rewrite in_app_iff. split; [|auto]. intros [I|[I|[]]]; [exact I|]. inversion I. subst. exfalso. apply NK. reflexivity. }
    destruct Info as (kvs' & E' & W). split.
    - intros (b & q & E & I). assert (q = kvs') by congruence. subst. apply W in I. destruct Orig as [[_ ->]|E0]; [destruct I|].
      exists true, kvs. auto.
    - intros (b & q & E & I). exists true, kvs'. split; [exact E'|]. apply W. destruct Orig as [[E0 _]|E0]; congruence. }
  split.
  { destruct Orig as [[E0 ->]|E0].
    - right. intros v (q & E & _). congruence.
    - destruct C4 as [[[v V] ->]|[V _]].
      + left. destruct S as (q & E & I). exists q. split; [congruence|exact I].
      + right. intros v (q & E & I). assert (q = kvs) by congruence. subst. exact (value_none _ _ V v I). }
  split.
  { intros b q E. destruct C4 as [[_ ->]|[V E']].
    - assert (q = kvs) by congruence. subst. exact Q3.
    - assert (q = kvs ++ [(k_version, schema_version)]) by congruence. subst. rewrite map_app. cbn.
      apply NoDup_rev in Q3. rewrite <- (rev_involutive (map fst kvs ++ [k_version])). apply NoDup_rev. rewrite rev_app_distr. cbn.
      constructor; [|exact Q3]. rewrite <- in_rev. intros I. apply in_map_iff in I. destruct I as ([k v] & E2' & I). cbn in E2'. subst.
      exact (value_none _ _ V v I). }
  intros (Nt & Ix & (q & E & I)). assert (d1 = d) by (apply K1; congruence). subst d1. assert (d2 = d) by (apply K2; exact Ix). subst d2.
  destruct C3 as [[Z1 _]|[_ ->]]; [congruence|]. destruct C4 as [[_ ->]|[V _]]; [reflexivity|].
  exfalso. assert (q = kvs) by congruence. subst. exact (value_none _ _ V _ I).
Qed.
Lemma five_ours d : proper_db d -> ours d -> all_ok d five = Some d.
Proof.
  intros P (N & I & S). pose proof S as (kvs & E & J). unfold five. cbn [all_ok]. unfold ddl_node.
  destruct (db_node d) as [[b t]|] eqn:N'; [clear N|exfalso; apply N; reflexivity]. unfold ddl_index. rewrite I.
  unfold ddl_info. rewrite E. unfold insert_version. rewrite E. change k_version with key. rewrite (in_value _ _ _ (P _ _ E) J).
  rewrite (says_check _ P S). reflexivity.
Qed.
Lemma schema_does landed d fs d' fs' e : proper_db d -> init_schema landed d fs = (d', fs', e) ->
  (e = None -> finished d d' /\ (says d one \/ forall v, ~ says d v)) /\
  (e <> None -> d' = d \/ (landed = true /\ finished d d' /\ (says d one \/ forall v, ~ says d v))) /\
  (forall v, says d v -> v <> one -> e <> None /\ d' = d) /\
  proper_db d'.
Proof.
  intros P H. unfold init_schema in H. destruct (now fs) as [x|] eqn:N.
  { inversion H. subst. split; [discriminate|]. split; [auto|]. split; [split; [discriminate|reflexivity]|exact P]. }
  destruct (statements d (later fs) [ddl_node; ddl_index; ddl_info; insert_version; check_version]) as [fs1 [d1|x]] eqn:S.
  - pose proof (statements_ok _ _ _ _ _ S) as A. destruct (five_ok _ _ P A) as (F & O & PD & _).
    assert (V : forall v, says d v -> v <> one -> False).
    { intros v Sv Nv. destruct O as [O|O]; [|exact (O v Sv)]. destruct O as (q & E & I). destruct Sv as (q' & E' & I').
      assert (q' = q) by congruence. subst. pose proof (in_value _ _ _ (P _ _ E) I). pose proof (in_value _ _ _ (P _ _ E) I'). congruence. }
    destruct (now fs1) as [y|] eqn:N1; inversion H; subst.
    + split; [discriminate|]. split; [intros _; destruct landed; auto|]. split; [intros v Sv Nv; exfalso; exact (V v Sv Nv)|].
      destruct landed; assumption.
    + split; [auto|]. split; [congruence|]. split; [intros v Sv Nv; exfalso; exact (V v Sv Nv)|exact PD].
  - inversion H. subst. assert (Z : join (Some x) (now fs1) <> None) by (unfold join; destruct (now fs1); discriminate).
    split; [intros E; contradiction|]. split; [auto|]. split; [auto|exact P].
Qed.
Lemma schema_quiet landed d fs d' : quiet fs -> all_ok d five = Some d' -> exists fs', init_schema landed d fs = (d', fs', None) /\ quiet fs'.
Proof.
  intros Q A. unfold init_schema. rewrite (quiet_now _ Q). destruct (statements_quiet five d _ (quiet_later _ Q)) as (fs1 & Q1 & S).
  rewrite A in S. change [ddl_node; ddl_index; ddl_info; insert_version; check_version] with five. rewrite S. rewrite (quiet_now _ Q1).
  eexists. split; [reflexivity|apply quiet_later, Q1].
Qed.
Lemma schema_ours landed d fs : quiet fs -> proper_db d -> ours d -> exists fs', init_schema landed d fs = (d, fs', None) /\ quiet fs'.
Proof. intros Q P O. exact (schema_quiet landed d fs d Q (five_ours d P O)). Qed.
Lemma schema_fresh landed fs : quiet fs -> exists d fs', init_schema landed no_tables fs = (d, fs', None) /\ quiet fs' /\ ours d /\ proper_db d /\ rows d = [].
Proof.
  intros Q. destruct (schema_quiet landed no_tables fs (Db (Some (true, [])) true (Some (true, [(key, one)])) []) Q) as (fs' & E & Q').
  { reflexivity. }
  exists (Db (Some (true, [])) true (Some (true, [(key, one)])) []), fs'. split; [exact E|]. split; [exact Q'|]. split.
  - split; [discriminate|]. split; [reflexivity|]. exists [(key, one)]. split; [reflexivity|left; reflexivity].
  - split; [|reflexivity]. intros b kvs H. inversion H. subst. cbn. constructor; [intros []|constructor].
Qed.

(* Opening the store. *)
Lemma proper_fresh : proper_db no_tables.
Proof. intros b kvs H. discriminate. Qed.
Lemma finished_fresh d : finished no_tables d -> rows d = [] /\ db_other d = [] /\ ours d.
Proof. intros (R & O & S & N & I & _). split; [exact R|]. split; [exact O|]. split; [exact N|]. split; [exact I|exact S]. Qed.
Lemma finished_ours d0 d : finished d0 d -> ours d.
Proof. intros (R & O & S & N & I & _). split; [exact N|]. split; [exact I|exact S]. Qed.

Lemma writable_does landed frozen f fs f' fs' x : proper_file f -> store_writable landed frozen f fs = (f', fs', x) ->
  proper_file f' /\ (frozen = true -> f' = f /\ exists e, x = inr e) /\
  (forall d, x = inl d -> f' = Some (Database d) /\ brought_up f d /\ ours d) /\
  (forall d0 v, f = Some (Database d0) -> says d0 v -> v <> one -> f' = f /\ exists e, x = inr e).
Proof.
  intros P. unfold store_writable, open_writable. destruct (now fs) as [y|].
  { intros H. inversion H. subst. split; [exact P|]. split; [eauto|]. split; [discriminate|eauto]. }
  destruct frozen.
  { intros H. inversion H. subst. split; [exact P|]. split; [eauto|]. split; [discriminate|eauto]. }
  assert (Main : forall d0, proper_db d0 -> match init_schema landed d0 (later fs) with
      | (d', fs2, None) => (Some (Database d'), fs2, inl d')
      | (d', fs2, Some e) => (Some (Database d'), later fs2, inr (match now fs2 with Some x => EJoin e x | None => e end))
      end = (f', fs', x) ->
      proper_file f' /\ (forall d, x = inl d -> f' = Some (Database d) /\ finished d0 d /\ (says d0 one \/ forall v, ~ says d0 v)) /\
      (forall v, says d0 v -> v <> one -> f' = Some (Database d0) /\ exists e, x = inr e)).
  { intros d0 P0 H. destruct (init_schema landed d0 (later fs)) as [[d1 fs1] e1] eqn:E.
    destruct (schema_does _ _ _ _ _ _ P0 E) as (A & B & C & D). destruct e1 as [e1|]; inversion H; subst.
    - split; [intros d Q; inversion Q; subst; exact D|]. split; [discriminate|].
      intros v Sv Nv. destruct (C v Sv Nv) as [_ ->]. split; [reflexivity|eauto].
    - split; [intros d Q; inversion Q; subst; exact D|]. split.
      + intros d Q. inversion Q. subst. split; [reflexivity|exact (A eq_refl)].
      + intros v Sv Nv. destruct (C v Sv Nv) as [F _]. congruence. }
  destruct f as [[|d0]|].
  - intros H. inversion H. subst. split; [exact P|]. split; [discriminate|]. split; [discriminate|discriminate].
  - intros H. destruct (Main d0 (P d0 eq_refl) H) as (A & B & C). split; [exact A|]. split; [discriminate|]. split.
    + intros d Q. destruct (B d Q) as (B1 & B2 & B3). split; [exact B1|]. split; [split; assumption|exact (finished_ours _ _ B2)].
    + intros d1 v Q Sv Nv. inversion Q. subst. exact (C v Sv Nv).
  - intros H. destruct (Main no_tables proper_fresh H) as (A & B & C). split; [exact A|]. split; [discriminate|]. split; [|discriminate].
    intros d Q. destruct (B d Q) as (B1 & B2 & B3). split; [exact B1|]. split; [exact (finished_fresh _ B2)|exact (finished_ours _ _ B2)].
Qed.
Lemma frozen_does f fs fs' x : proper_file f -> store_frozen f fs = (fs', x) ->
  (forall d, x = inl d -> f = Some (Database d) /\ says d one) /\
  (quiet fs -> forall d, f = Some (Database d) -> says d one -> x = inl d /\ quiet fs').
Proof.
  intros P. unfold store_frozen, open_frozen. destruct (now fs) as [y|] eqn:N.
  { intros H. inversion H. subst. split; [discriminate|]. intros Q. rewrite (quiet_now _ Q) in N. discriminate. }
  destruct f as [[|d0]|].
  - intros H. inversion H. subst. split; [discriminate|discriminate].
  - cbn [statements]. destruct (now (later fs)) as [y|] eqn:N1.
    { intros H. inversion H. subst. split; [discriminate|]. intros Q. rewrite (quiet_now _ (quiet_later _ Q)) in N1. discriminate. }
    destruct (check_version d0) as [d1|y] eqn:C; intros H; inversion H; subst.
    + apply check_ok in C. destruct C as [-> S]. split.
      * intros d Q. inversion Q. subst. split; [reflexivity|exact S].
      * intros Q d Q1 _. inversion Q1. subst. split; [reflexivity|apply quiet_later, quiet_later, Q].
    + split; [discriminate|]. intros Q d Q1 S. inversion Q1. subst. rewrite (says_check _ (P _ eq_refl) S) in C. discriminate.
  - intros H. inversion H. subst. split; discriminate.
Qed.
Lemma store_does landed frozen f fs f' fs' x : proper_file f -> open_store landed frozen f fs = (f', fs', x) ->
  proper_file f' /\
  (forall d, x = inl (d, false) -> frozen = false /\ f' = Some (Database d) /\ brought_up f d /\ ours d) /\
  (forall d, x = inl (d, true) -> f' = Some (Database d) /\ says d one /\
     exists f1 fs1 e, store_writable landed frozen f fs = (f1, fs1, inr e) /\ (is EROFS e = true \/ is EPermission e = true)) /\
  (forall e, x = inr e -> exists f1 fs1 e1, store_writable landed frozen f fs = (f1, fs1, inr e1) /\ forall t, is t e1 = true -> is t e = true) /\
  (frozen = true -> f' = f) /\
  (forall d0 v, f = Some (Database d0) -> says d0 v -> v <> one -> f' = f /\ exists e, x = inr e).
Proof.
  intros P. unfold open_store. destruct (store_writable landed frozen f fs) as [[f1 fs1] y] eqn:W.
  destruct (writable_does _ _ _ _ _ _ _ P W) as (P1 & Fz & Ok & Other).
  destruct y as [d1|e1].
  - intros H. inversion H. subst. destruct (Ok d1 eq_refl) as (A & B & C). split; [exact P1|]. split.
    { intros d Q. inversion Q. subst. split; [|auto]. destruct frozen; [|reflexivity]. destruct (Fz eq_refl) as [_ [e Z]]. discriminate. }
    split; [discriminate|]. split; [discriminate|]. split; [intros Z; destruct (Fz Z) as [_ [e Z']]; discriminate|].
    intros d0 v Q Sv Nv. destruct (Other d0 v Q Sv Nv) as [_ [e Z]]. discriminate.
  - destruct (is EROFS e1 || is EPermission e1) eqn:R.
    + destruct (store_frozen f1 fs1) as [fs2 y] eqn:Z. destruct (frozen_does _ _ _ _ P1 Z) as [A _].
      destruct y as [d2|e2]; intros H; inversion H; subst.
      * destruct (A d2 eq_refl) as [E S]. split; [exact P1|]. split; [discriminate|]. split.
        { intros d Q. assert (d = d2) by congruence. subst d. split; [exact E|]. split; [exact S|]. exists f', fs1, e1. split; [reflexivity|]. apply orb_true_iff, R. }
        split; [discriminate|]. split; [intros F; exact (proj1 (Fz F))|].
        intros d0 v Q Sv Nv. exfalso. destruct (Other d0 v Q Sv Nv) as [E2 _]. assert (d0 = d2) by congruence. subst d0.
        destruct S as (q & Eq & I). destruct Sv as (q' & Eq' & I'). assert (q' = q) by congruence. subst q'.
        pose proof (in_value _ _ _ (P _ Q _ _ Eq) I). pose proof (in_value _ _ _ (P _ Q _ _ Eq) I'). congruence.
      * split; [exact P1|]. split; [discriminate|]. split; [discriminate|]. split.
        { intros e Q. inversion Q. subst. exists f', fs1, e1. split; [reflexivity|]. intros t T. cbn [is]. rewrite T. reflexivity. }
        split; [intros F; exact (proj1 (Fz F))|]. intros d0 v Q Sv Nv. split; [exact (proj1 (Other d0 v Q Sv Nv))|eauto].
    + intros H. inversion H. subst. split; [exact P1|]. split; [discriminate|]. split; [discriminate|]. split.
      { intros e Q. inversion Q. subst. exists f', fs', e. split; [reflexivity|auto]. }
      split; [intros F; exact (proj1 (Fz F))|]. intros d0 v Q Sv Nv. split; [exact (proj1 (Other d0 v Q Sv Nv))|eauto].
Qed.
(* Nothing failing: a refusing backend gives a read-only store over what is there, and one that
   takes writes gives a writable one. *)
Lemma store_on_frozen landed f fs f' fs' x : quiet fs -> proper_file f -> open_store landed true f fs = (f', fs', x) ->
  forall d, x = inl (d, true) <-> f = Some (Database d) /\ says d one.
Proof.
  intros Q P H d. destruct (store_does _ _ _ _ _ _ _ P H) as (_ & _ & A & _ & B & _). specialize (B eq_refl). subst f'. split.
  - intros E. destruct (A d E) as (E1 & S & _). split; assumption.
  - intros [E S]. unfold open_store, store_writable, open_writable in H. rewrite (quiet_now _ Q) in H. cbn [is err_eqb orb] in H.
    destruct (store_frozen f (later fs)) as [fs2 y] eqn:Z. destruct (frozen_does _ _ _ _ P Z) as [_ K].
    destruct (K (quiet_later _ Q) d E S) as [-> _]. inversion H. reflexivity.
Qed.
Lemma store_ours landed f fs d : quiet fs -> proper_file f -> f = Some (Database d) -> ours d ->
  exists fs', quiet fs' /\ open_store landed false f fs = (f, fs', inl (d, false)).
Proof.
  intros Q P -> O. unfold open_store, store_writable, open_writable. rewrite (quiet_now _ Q).
  destruct (schema_ours landed d (later fs) (quiet_later _ Q) (P _ eq_refl) O) as (fs' & -> & Q'). exists fs'. split; [exact Q'|reflexivity].
Qed.
Lemma store_new landed fs : quiet fs ->
  exists d fs', quiet fs' /\ open_store landed false None fs = (Some (Database d), fs', inl (d, false)) /\ ours d /\ rows d = [].
Proof.
  intros Q. unfold open_store, store_writable, open_writable. rewrite (quiet_now _ Q).
  destruct (schema_fresh landed (later fs) (quiet_later _ Q)) as (d & fs' & -> & Q' & O & _ & R). exists d, fs'. auto.
Qed.

(* A layer built once is found as it was left. *)
Lemma canonical_does landed frozen r f fs r' f' fs' s : proper_root r -> proper_file f ->
  new_canonical landed frozen r f fs = (r', f', fs', inl s) ->
  grown r r' the_two /\ (forall n, In n the_two -> a_directory r' n) /\ so_root s = r' /\ so_frozen s = frozen /\ so_canonical s = true /\
  so_store_closed s = 0 /\ so_fs_closed s = 0 /\
  exists d, so_store s = Some d /\ f' = Some (Database d) /\ says d one /\
    (so_read_only s = false -> frozen = false /\ brought_up f d /\ ours d) /\ (frozen = true -> r' = r /\ f' = f).
Proof.
  intros PR PF. unfold new_canonical. destruct (ensure_canonical frozen r fs) as [[r1 fs1] [e|]] eqn:E; [discriminate|].
  destruct (layout_does _ _ _ _ _ _ PR E) as (G & Z & D & _).
  destruct (open_store landed frozen f fs1) as [[f1 fs2] [[d ro]|e]] eqn:O; [|discriminate].
  destruct (store_does _ _ _ _ _ _ _ PF O) as (_ & A & B & _ & C & _). intros H. inversion H. subst. cbn.
  split; [exact G|]. split; [exact (D eq_refl)|]. do 5 (split; [reflexivity|]). exists d. split; [reflexivity|].
  destruct ro.
  - destruct (B d eq_refl) as (B1 & B2 & _). split; [exact B1|]. split; [exact B2|]. split; [discriminate|]. auto.
  - destruct (A d eq_refl) as (A1 & A2 & A3 & A4). split; [exact A2|]. split; [exact (proj2 (proj2 A4))|]. split; [auto|]. auto.
Qed.
Lemma reopened landed landed' r f fs r' f' fs' s gs : proper_root r -> proper_file f -> quiet gs ->
  new_canonical landed false r f fs = (r', f', fs', inl s) -> so_read_only s = false ->
  (exists gs', new_canonical landed' false r' f' gs = (r', f', gs', inl s)) /\
  (exists gs', new_canonical landed' true r' f' gs =
     (r', f', gs', inl (Source r' true true (so_store s) true 0 0))).
Proof.
  intros PR PF Q H RO. destruct (canonical_does _ _ _ _ _ _ _ _ _ PR PF H) as (G & D & A1 & A2 & A3 & A4 & A5 & d & St & F' & S & W & _).
  destruct (W RO) as (_ & BU & O). clear W.
  assert (PD : proper_file f').
  { unfold new_canonical in H. destruct (ensure_canonical false r fs) as [[r1 fs1] [e|]]; [discriminate|].
    destruct (open_store landed false f fs1) as [[f1 fs2] [[d2 ro]|e]] eqn:Op; [|discriminate].
    destruct (store_does _ _ _ _ _ _ _ PF Op) as (P1 & _). inversion H. subst. exact P1. }
  split.
  - unfold new_canonical. destruct (layout_succeeds false r' gs Q (proj1 G)) as (r2 & gs1 & E & Q1); [intros n I; left; exact (D n I)|].
    destruct (layout_does _ _ _ _ _ _ (proj1 G) E) as (_ & _ & _ & Same). rewrite (Same D) in E. rewrite E.
    destruct (store_ours landed' f' gs1 d Q1 PD F' O) as (gs2 & Q2 & ->). exists gs2. destruct s. cbn in *. subst. reflexivity.
  - unfold new_canonical. destruct (layout_succeeds true r' gs Q (proj1 G)) as (r2 & gs1 & E & Q1); [intros n I; left; exact (D n I)|].
    destruct (layout_does _ _ _ _ _ _ (proj1 G) E) as (_ & _ & _ & Same). rewrite (Same D) in E. rewrite E.
    destruct (open_store landed' true f' gs1) as [[f2 gs2] x] eqn:Op.
    pose proof (proj2 (store_on_frozen _ _ _ _ _ _ Q1 PD Op d) (conj F' S)) as X. subst x.
    destruct (store_does _ _ _ _ _ _ _ PD Op) as (_ & _ & _ & _ & B & _). rewrite (B eq_refl). exists gs2. rewrite St. reflexivity.
Qed.

(* Emptying "work/". *)
Lemma put_in n y r m x : proper_root r -> In (m, x) (put n y r) <-> (m <> n /\ In (m, x) r) \/ (m = n /\ x = y /\ exists z, In (n, z) r).
Proof.
  induction r as [|[k z] r IH]; intros P; cbn [put].
  - split; [intros []|]. intros [[_ []]|(_ & _ & z & [])].
  - inversion P as [|a b N P']. subst. destruct (bytes_eqb n k) eqn:E.
    + apply bytes_eqb_eq in E. subst k. split.
      * intros [H|H]; [inversion H; subst; right; repeat split; exists z; left; reflexivity|].
        left. split; [|right; exact H]. intros ->. apply N. apply in_map_iff. exists (n, x). split; [reflexivity|exact H].
      * intros [[A [B|B]]|(-> & -> & _)]; [inversion B; subst; contradiction|right; exact B|left; reflexivity].
    + assert (n <> k) by (intros ->; rewrite eqb_refl in E; discriminate). split.
      * intros [H'|H']; [inversion H'; subst; left; split; [congruence|left; reflexivity]|].
        apply IH in H'; [|exact P']. destruct H' as [[A B]|(A & B & w & C)]; [left; split; [exact A|right; exact B]|].
        right. split; [exact A|]. split; [exact B|]. exists w. right. exact C.
      * intros [[A [B|B]]|(A & B & w & [C|C])].
        { left. exact B. }
        { right. apply IH; [exact P'|]. left. split; assumption. }
        { inversion C. subst. contradiction. }
        { right. apply IH; [exact P'|]. right. split; [exact A|]. split; [exact B|]. exists w. exact C. }
Qed.
Lemma put_proper n y r : proper_root r -> proper_root (put n y r).
Proof.
  unfold proper_root. assert (E : map fst (put n y r) = map fst r).
  { induction r as [|[k z] r IH]; cbn [put]; [reflexivity|]. destruct (bytes_eqb n k); cbn; [reflexivity|rewrite IH; reflexivity]. }
  rewrite E. auto.
Qed.
Lemma stat_dir r n es : proper_root r -> In (n, Dir es) r -> stat r n = inr (n, Dir es).
Proof. intros P I. unfold stat. destruct (length r); cbn [follow]; rewrite (in_entry _ _ _ P I); reflexivity. Qed.
Lemma sweep_each_does frozen es0 : forall es r fs r' fs' e, proper_root r -> In (work, Dir es0) r ->
  sweep_each frozen r fs es = (r', fs', e) ->
  proper_root r' /\ (forall m x, m <> work -> (In (m, x) r' <-> In (m, x) r)) /\
  exists es', In (work, Dir es') r' /\ incl es' es0 /\ (e = None -> forall y, In y es' -> ~ In (fst y) es).
Proof.
  intros es. revert es0. induction es as [|n es IH]; intros es0 r fs r' fs' e P W; cbn [sweep_each].
  - intros H. inversion H. subst. split; [exact P|]. split; [reflexivity|]. exists es0. split; [exact W|]. split; [apply incl_refl|auto].
  - destruct (now fs) as [x|].
    { intros H. inversion H. subst. split; [exact P|]. split; [reflexivity|]. exists es0. split; [exact W|]. split; [apply incl_refl|discriminate]. }
    unfold remove_all. destruct frozen.
    { intros H. inversion H. subst. split; [exact P|]. split; [reflexivity|]. exists es0. split; [exact W|]. split; [apply incl_refl|discriminate]. }
    rewrite (stat_dir _ _ _ P W). intros H.
    assert (W1 : In (work, Dir (del n es0)) (put work (Dir (del n es0)) r)).
    { apply put_in; [exact P|]. right. split; [reflexivity|]. split; [reflexivity|]. exists (Dir es0). exact W. }
    destruct (IH (del n es0) _ _ _ _ _ (put_proper work (Dir (del n es0)) r P) W1 H) as (P' & O & es' & W' & I & D).
    split; [exact P'|]. split.
    { intros m x N. rewrite (O m x N), put_in by exact P. split; [intros [[_ A]|(A & _)]; [exact A|contradiction]|auto]. }
    exists es'. split; [exact W'|]. split; [intros y J; apply I in J; unfold del in J; apply filter_In in J; exact (proj1 J)|].
    intros E y J [Q|Q].
    + apply I in J. unfold del in J. apply filter_In in J. destruct J as [_ J]. rewrite Q, eqb_refl in J. discriminate.
    + exact (D E y J Q).
Qed.
Lemma sweep_each_quiet es : forall es0 r fs, quiet fs -> proper_root r -> In (work, Dir es0) r ->
  exists r' fs', sweep_each false r fs es = (r', fs', None) /\ quiet fs'.
Proof.
  induction es as [|n es IH]; intros es0 r fs Q P W; cbn [sweep_each]; [exists r, fs; split; [reflexivity|exact Q]|].
  rewrite (quiet_now _ Q). unfold remove_all. rewrite (stat_dir _ _ _ P W).
  apply (IH (del n es0)); [apply quiet_later, Q|apply put_proper, P|].
  apply put_in; [exact P|]. right. split; [reflexivity|]. split; [reflexivity|]. exists (Dir es0). exact W.
Qed.
Lemma is_missing e : is ENotExist e = true -> says_missing e.
Proof. induction e; cbn; try discriminate; auto. intros H. apply orb_true_iff in H. tauto. Qed.
Lemma sweep_does s fs r' fs' e es : proper_root (so_root s) -> In (work, Dir es) (so_root s) -> sweep_work s fs = (r', fs', e) ->
  thinned (so_root s) r' work /\ (nothing_missing fs -> so_canonical s = true -> e = None -> In (work, Dir []) r').
Proof.
  intros P W. unfold sweep_work. destruct (so_canonical s); cbn [negb].
  2: { intros H. inversion H. subst. split; [|discriminate]. split; [reflexivity|auto]. }
  destruct (now fs) as [x|] eqn:N.
  { intros H. inversion H. subst. split; [split; [reflexivity|auto]|]. intros Q _ E. exfalso. destruct (is ENotExist x) eqn:X; [|discriminate]. apply (Q x); [|exact (is_missing x X)].
    destruct fs as [|f fs]; [discriminate|]. cbn in N. subst f. left. reflexivity. }
  rewrite (stat_dir _ _ _ P W). intros H. destruct (sweep_each_does _ es _ _ _ _ _ _ P W H) as (P' & O & es' & W' & I & D). split.
  - split; [exact O|]. intros x' J. right. exists es, es'. split; [exact W|]. split; [exact (in_once _ _ _ _ P' J W')|exact I].
  - intros _ _ E. assert (es' = []) as ->.
    { destruct es' as [|y es']; [reflexivity|]. exfalso. apply (D E y (or_introl eq_refl)). apply in_map. apply I. left. reflexivity. }
    exact W'.
Qed.

(* Stacking. *)
Lemma first_nil_none {A} (l : list (option A)) : forall i, first_nil i l = None <-> forall x, In x l -> x <> None.
Proof.
  induction l as [|[x|] l IH]; intros i; cbn [first_nil].
  - split; [intros _ x []|reflexivity].
  - rewrite IH. split; [intros H y [<-|I]; [discriminate|exact (H y I)]|intros H y I; apply H; right; exact I].
  - split; [discriminate|]. intros H. exfalso. exact (H None (or_introl eq_refl) eq_refl).
Qed.
Lemma first_nil_some {A} (l : list (option A)) : forall i k, first_nil i l = Some k <->
  exists j, k = i + j /\ nth_error l j = Some None /\ forall j', j' < j -> exists x, nth_error l j' = Some (Some x).
Proof.
  induction l as [|[x|] l IH]; intros i k; cbn [first_nil].
  - split; [discriminate|]. intros ([|j] & _ & H & _); discriminate.
  - rewrite IH. split.
    + intros (j & -> & H & B). exists (S j). split; [lia|]. split; [exact H|]. intros [|j'] L; [exists x; reflexivity|apply B; lia].
    + intros ([|j] & -> & H & B); [discriminate|]. exists j. split; [lia|]. split; [exact H|]. intros j' L. apply (B (S j')). lia.
  - split.
    + intros H. inversion H. subst. exists 0. split; [lia|]. split; [reflexivity|]. intros j' L. lia.
    + intros ([|j] & -> & H & B); [f_equal; lia|]. destruct (B 0); [lia|]. discriminate.
Qed.
Lemma somes_map {A} (l : list (option A)) : (forall x, In x l -> x <> None) -> map Some (somes l) = l.
Proof.
  induction l as [|[x|] l IH]; intros H; cbn; [reflexivity| |].
  - rewrite IH; [reflexivity|]. intros y I. apply H. right. exact I.
  - exfalso. exact (H None (or_introl eq_refl) eq_refl).
Qed.
Lemma seed_each_does ls : forall fs fs' ms, seed_each ls fs = (fs', inl ms) ->
  Forall readable ls /\ (Forall (fun s => forall d, so_store s = Some d -> rows_clean d) ls -> Forall2 marks_of ls ms) /\ (nothing_missing fs -> nothing_missing fs').
Proof.
  induction ls as [|s ls IH]; intros fs fs' ms; cbn [seed_each].
  - intros H. inversion H. subst. split; [constructor|]. split; [constructor|auto].
  - destruct (so_store s) as [d|] eqn:St.
    + unfold load. destruct (now fs) as [e|]; [discriminate|]. destruct (db_node d) as [[b t]|] eqn:N; [|discriminate].
      unfold Masks_Model.load. destruct (seed_each ls (later fs)) as [fs2 [ms2|e]] eqn:E; [|discriminate].
      destruct (IH _ _ _ E) as (A & B & C). intros H. inversion H. subst. split.
      { constructor; [unfold readable; rewrite St, N; discriminate|exact A]. }
      split; [|intros Q; apply C; intros x Hx; apply Q; destruct fs; [destruct Hx|right; exact Hx]]. intros F. inversion F as [|s' ls' Hc F']. subst. constructor; [|exact (B F')].
      unfold marks_of. rewrite St. assert (R : rows d = t) by (unfold rows; rewrite N; reflexivity). rewrite R.
      assert (K : forall (f : Masks_Model.row -> bool) n,
        In n (Masks_Model.seed (map Masks_Model.r_path (filter f t))) <-> exists x, In x t /\ Masks_Model.r_path x = n /\ f x = true).
      { intros f n. rewrite Masks_Proofs.seed_in. split.
        - intros (m & I & ->). apply in_map_iff in I. destruct I as (x & <- & I). apply filter_In in I. exists x.
          split; [exact (proj1 I)|]. split; [|exact (proj2 I)]. symmetry. apply (Hc d St). rewrite R. exact (proj1 I).
        - intros (x & I & <- & W). exists (Masks_Model.r_path x). split.
          + apply in_map, filter_In. split; assumption.
          + symmetry. apply (Hc d St). rewrite R. exact I. }
      intros n. cbn [Masks_Model.m_wh Masks_Model.m_op]. split; apply K.
    + destruct (seed_each ls fs) as [fs2 [ms2|e]] eqn:E; [|discriminate]. destruct (IH _ _ _ E) as (A & B & C).
      intros H. inversion H. subst. split; [constructor; [unfold readable; rewrite St; exact I|exact A]|]. split; [|exact C].
      intros F. inversion F. subst. constructor; [|auto]. unfold marks_of. rewrite St. split; reflexivity.
Qed.
Lemma seed_each_quiet ls : forall fs, quiet fs -> Forall readable ls -> exists fs' ms, seed_each ls fs = (fs', inl ms) /\ quiet fs'.
Proof.
  induction ls as [|s ls IH]; intros fs Q F; cbn [seed_each]; [exists fs, []; split; [reflexivity|exact Q]|].
  inversion F as [|a b R F']. subst. unfold readable in R. destruct (so_store s) as [d|].
  - unfold load. rewrite (quiet_now _ Q). destruct (db_node d) as [[b t]|]; [|congruence]. unfold Masks_Model.load.
    destruct (IH (later fs) (quiet_later _ Q) F') as (fs' & ms & -> & Q'). eexists _, _. split; [reflexivity|exact Q'].
  - destruct (IH fs Q F') as (fs' & ms & -> & Q'). eexists _, _. split; [reflexivity|exact Q'].
Qed.

Lemma state_does top lowers fs fs' ls ms : new_state top lowers fs = (fs', inl (ls, ms)) ->
  exists t, top = Some t /\ a_top t /\ (forall x, In x lowers -> x <> None) /\ ls = t :: somes lowers /\ seed_each ls fs = (fs', inl ms).
Proof.
  unfold new_state. destruct top as [t|]; [|discriminate]. destruct (so_canonical t) eqn:C; cbn [negb orb]; [|discriminate].
  destruct (so_store t) as [d|] eqn:St; [|discriminate]. destruct (first_nil 0 lowers) as [i|] eqn:N; [discriminate|].
  destruct (seed_each (t :: somes lowers) fs) as [fs1 [ms1|e]] eqn:E; [|discriminate]. intros H. inversion H. subst.
  exists t. split; [reflexivity|]. split; [split; [exact C|rewrite St; discriminate]|]. split; [apply (first_nil_none lowers 0), N|].
  split; [reflexivity|exact E].
Qed.
Lemma same_root s : same_but_root s s. Proof. repeat split. Qed.
Lemma with_root_same s r : same_but_root s (with_root s r). Proof. repeat split. Qed.

(* What New does when it succeeds. *)
Lemma new_does top lowers fs ls o : new_overlay top lowers fs = (ls, inl o) ->
  exists t t', top = Some t /\ a_top t /\ so_read_only t = false /\ (forall x, In x lowers -> x <> None) /\
    ls = Some t' :: lowers /\ same_but_root t t' /\ map Some (ov_layers o) = ls /\ ov_owner o = true /\
    Forall readable (t :: somes lowers) /\
    (Forall (fun s => forall d, so_store s = Some d -> rows_clean d) (t :: somes lowers) -> Forall2 marks_of (ov_layers o) (ov_masks o)) /\
    (forall es, proper_root (so_root t) -> In (work, Dir es) (so_root t) -> thinned (so_root t) (so_root t') work /\
       (nothing_missing fs -> In (work, Dir []) (so_root t'))).
Proof.
  unfold new_overlay. destruct (new_state top lowers fs) as [fs1 [[ls1 ms]|e]] eqn:S; [|discriminate].
  destruct (state_does _ _ _ _ _ _ S) as (t & -> & T & N & -> & E). destruct (so_read_only t) eqn:RO; [discriminate|].
  destruct (sweep_work t fs1) as [[r fs2] [e|]] eqn:W; [discriminate|]. intros H. inversion H. subst. clear H.
  destruct (seed_each_does _ _ _ _ E) as (R & M & Q). exists t, (with_root t r). split; [reflexivity|]. split; [exact T|]. split; [exact RO|].
  split; [exact N|]. split; [reflexivity|]. split; [apply with_root_same|]. split; [cbn; rewrite somes_map by exact N; reflexivity|].
  split; [reflexivity|]. split; [exact R|]. split.
  - intros F. specialize (M F). cbn. inversion M as [|a b c d X Y]. subst. constructor; [exact X|exact Y].
  - intros es P I. destruct (sweep_does _ _ _ _ _ _ P I W) as [A B]. split; [exact A|]. intros Q0. apply B; [exact (Q Q0)|exact (proj1 T)|reflexivity].
Qed.
(* When it succeeds. *)
Lemma new_succeeds t lowers fs es : quiet fs -> a_top t -> so_read_only t = false -> (forall x, In x lowers -> x <> None) ->
  Forall readable (t :: somes lowers) -> proper_root (so_root t) -> In (work, Dir es) (so_root t) -> so_frozen t = false ->
  exists ls o, new_overlay (Some t) lowers fs = (ls, inl o).
Proof.
  intros Q [C St] RO N R P W Fz. unfold new_overlay, new_state. rewrite C. cbn [negb orb].
  destruct (so_store t) as [d|] eqn:E; [|congruence]. apply (first_nil_none lowers 0) in N. rewrite N.
  destruct (seed_each_quiet (t :: somes lowers) fs Q R) as (fs1 & ms & -> & Q1). rewrite RO. unfold sweep_work. rewrite C. cbn [negb].
  rewrite (quiet_now _ Q1), (stat_dir _ _ _ P W), Fz.
  destruct (sweep_each_quiet (map fst es) es (so_root t) (later fs1) (quiet_later _ Q1) P W) as (r' & fs' & -> & _). eexists _, _. reflexivity.
Qed.
(* What it says and leaves when it refuses. *)
Lemma new_refuses top lowers fs ls e : new_overlay top lowers fs = (ls, inr e) ->
  ((forall t, top = Some t -> ~ a_top t) -> e = ENotCanonical /\ ls = top :: lowers) /\
  (forall t i, top = Some t -> a_top t -> nth_error lowers i = Some None -> (forall j, j < i -> exists s, nth_error lowers j = Some (Some s)) ->
     e = EInvalidLower i /\ ls = top :: lowers) /\
  (forall t, top = Some t -> so_read_only t = true -> ls = top :: lowers) /\
  (forall t, quiet fs -> top = Some t -> a_top t -> (forall x, In x lowers -> x <> None) -> Forall readable (t :: somes lowers) ->
     so_read_only t = true -> e = ETopReadOnly) /\
  exists t', ls = t' :: lowers /\ (t' = top \/ exists t s, top = Some t /\ t' = Some s /\ a_top t /\ so_read_only t = false /\ same_but_root t s /\
     forall es, proper_root (so_root t) -> In (work, Dir es) (so_root t) -> thinned (so_root t) (so_root s) work).
Proof.
  unfold new_overlay. intros H.
  destruct (new_state top lowers fs) as [fs1 [[ls1 ms]|e1]] eqn:S.
  - destruct (state_does _ _ _ _ _ _ S) as (t & -> & T & N & -> & E). split; [intros F; exfalso; exact (F t eq_refl T)|]. split.
    { intros t0 i _ _ I _. exfalso. apply (N None); [exact (nth_error_In _ _ I)|reflexivity]. }
    destruct (so_read_only t) eqn:RO.
    + inversion H. subst. split; [reflexivity|]. split; [reflexivity|]. exists (Some t). split; [reflexivity|left; reflexivity].
    + split; [intros t0 Q R; inversion Q; subst; congruence|]. split; [intros t0 _ Q _ _ _ R; inversion Q; subst; congruence|].
      destruct (sweep_work t fs1) as [[r fs2] [x|]] eqn:W; [|discriminate]. inversion H. subst.
      exists (Some (with_root t r)). split; [reflexivity|]. right. exists t, (with_root t r). split; [reflexivity|]. split; [reflexivity|].
      split; [exact T|]. split; [exact RO|]. split; [apply with_root_same|]. intros es P I. exact (proj1 (sweep_does _ _ _ _ _ _ P I W)).
  - inversion H. subst. unfold new_state in S. split.
    { intros F. split; [|reflexivity]. destruct top as [t|]; [|inversion S; reflexivity].
      destruct (so_canonical t) eqn:C; cbn [negb orb] in S; [|inversion S; reflexivity].
      destruct (so_store t) as [d|] eqn:St; [|inversion S; reflexivity].
      exfalso. apply (F t eq_refl). split; [exact C|rewrite St; discriminate]. }
    split.
    { intros t i -> [C St] I B. split; [|reflexivity]. rewrite C in S. cbn [negb orb] in S. destruct (so_store t); [|congruence].
      assert (Z : first_nil 0 lowers = Some i) by (apply first_nil_some; exists i; auto). rewrite Z in S. inversion S. reflexivity. }
    split; [reflexivity|]. split.
    { intros t Q -> [C St] N R RO. exfalso. rewrite C in S. cbn [negb orb] in S. destruct (so_store t); [|congruence].
      apply (first_nil_none lowers 0) in N. rewrite N in S. destruct (seed_each_quiet (t :: somes lowers) fs Q R) as (fs' & ms & E & _).
      rewrite E in S. discriminate. }
    exists top. split; [reflexivity|left; reflexivity].
Qed.

(* Close. *)
Lemma join_none a b : join a b = None <-> a = None /\ b = None.
Proof. destruct a, b; cbn; split; intros H; try discriminate; auto; destruct H; discriminate. Qed.
Lemma join_is a b t : (exists e, join a b = Some e /\ is t e = true) <-> (exists e, a = Some e /\ is t e = true) \/ (exists e, b = Some e /\ is t e = true).
Proof.
  destruct a as [x|], b as [y|]; cbn.
  - split.
    + intros (e & E & I). inversion E. subst. cbn in I. apply orb_true_iff in I. destruct I; [left|right]; eauto.
    + intros [(e & E & I)|(e & E & I)]; inversion E; subst; eexists; (split; [reflexivity|]); cbn; rewrite I; auto using orb_true_r.
  - split; [intros H; left; exact H|]. intros [H|(e & E & _)]; [exact H|discriminate].
  - split; [intros H; right; exact H|]. intros [(e & E & _)|H]; [discriminate|exact H].
  - split; [intros (e & E & _); discriminate|]. intros [(e & E & _)|(e & E & _)]; discriminate.
Qed.
Lemma now_in fs t : (exists e, now fs = Some e /\ is t e = true) <-> (exists e, In (Some e) (firstn 1 fs) /\ is t e = true).
Proof.
  destruct fs as [|[x|] fs]; cbn.
  - split; intros (e & E & _); [discriminate|destruct E].
  - split; [intros (e & E & I); inversion E; subst; exists e; auto|]. intros (e & [E|[]] & I). inversion E. subst. exists e. auto.
  - split; intros (e & E & _); [discriminate|]. destruct E as [E|[]]. discriminate.
Qed.
Lemma later_skip fs : later fs = skipn 1 fs. Proof. destruct fs; reflexivity. Qed.
Lemma firstn_in {A} (x : A) a b l : In x (firstn (a + b) l) <-> In x (firstn a l) \/ In x (firstn b (skipn a l)).
Proof.
  revert l. induction a as [|a IH]; intros l; cbn [Nat.add]; [cbn; split; [auto|intros [[]|H]; exact H]|].
  destruct l as [|y l]; [cbn; rewrite firstn_nil; split; [auto|intros [[]|[]]]|]. cbn. rewrite IH. tauto.
Qed.
Lemma close_each_does ls : forall fs ls' fs' e, close_each ls fs = (ls', fs', e) ->
  Forall2 closed_once ls ls' /\ fs' = skipn (close_calls ls) fs /\
  (e = None <-> forall x, In x (firstn (close_calls ls) fs) -> x = None) /\
  (forall t, (exists x, e = Some x /\ is t x = true) <-> exists x, In (Some x) (firstn (close_calls ls) fs) /\ is t x = true).
Proof.
  induction ls as [|s ls IH]; intros fs ls' fs' e; cbn [close_each].
  - intros H. inversion H. subst. split; [constructor|]. split; [reflexivity|]. split; [split; [intros _ x []|reflexivity]|].
    intros t. split; intros (x & A & _); [discriminate|destruct A].
  - destruct (close_source s fs) as [[s1 fs1] e1] eqn:E1. destruct (close_each ls fs1) as [[r fs2] e2] eqn:E2.
    destruct (IH _ _ _ _ E2) as (A & B & C & D). intros H. inversion H. subst. clear H.
    assert (K : closed_once s s1 /\ fs1 = skipn (match so_store s with None => 1 | Some _ => 2 end) fs /\
      (e1 = None <-> forall x, In x (firstn (match so_store s with None => 1 | Some _ => 2 end) fs) -> x = None) /\
      (forall t, (exists x, e1 = Some x /\ is t x = true) <-> exists x, In (Some x) (firstn (match so_store s with None => 1 | Some _ => 2 end) fs) /\ is t x = true)).
    { unfold close_source in E1. unfold closed_once. destruct (so_store s) as [d|] eqn:St; inversion E1; subst; cbn [so_root so_store so_fs_closed so_store_closed].
      - split; [auto|]. split; [destruct fs as [|? [|? ?]]; reflexivity|].
        assert (T : forall t, (exists x, join (now fs) (now (later fs)) = Some x /\ is t x = true) <-> exists x, In (Some x) (firstn 2 fs) /\ is t x = true).
        { intros t. rewrite join_is, !now_in, later_skip. change 2 with (1 + 1). split.
          - intros [(x & X & Y)|(x & X & Y)]; exists x; (split; [apply firstn_in|exact Y]); auto.
          - intros (x & X & Y). apply firstn_in in X. destruct X as [X|X]; [left|right]; exists x; auto. }
        split; [|exact T]. rewrite join_none. destruct fs as [|[x|] [|[y|] fs]]; cbn; split; intros Z; try (destruct Z; discriminate).
        + intros x [].
        + auto.
        + discriminate (Z (Some x) (or_introl eq_refl)).
        + discriminate (Z (Some x) (or_introl eq_refl)).
        + discriminate (Z (Some x) (or_introl eq_refl)).
        + intros x [<-|[]]. reflexivity.
        + auto.
        + discriminate (Z (Some y) (or_intror (or_introl eq_refl))).
        + intros x [<-|[<-|[]]]; reflexivity.
        + auto.
      - split; [auto|]. split; [rewrite later_skip; reflexivity|]. split.
        + destruct fs as [|[x|] fs]; cbn.
          * split; [intros _ x []|reflexivity].
          * split; [discriminate|]. intros Z. discriminate (Z (Some x) (or_introl eq_refl)).
          * split; [intros _ x [<-|[]]; reflexivity|reflexivity].
        + intros t. apply now_in. }
    destruct K as (K1 & K2 & K3 & K4). cbn [close_calls fold_right]. fold (close_calls ls). split; [constructor; assumption|].
    split; [rewrite K2, skipn_skipn'; f_equal; lia|]. rewrite K2 in C, D. split.
    + rewrite join_none, K3, C. split.
      * intros [X Y] x I. apply firstn_in in I. destruct I as [I|I]; auto.
      * intros X. split; intros x I; apply X; apply firstn_in; auto.
    + intros t. rewrite join_is, K4, D. split.
      * intros [(x & X & Y)|(x & X & Y)]; exists x; (split; [apply firstn_in|exact Y]); auto.
      * intros (x & X & Y). apply firstn_in in X. destruct X as [X|X]; [left|right]; exists x; auto.
Qed.
Lemma close_does o fs ls e : close_overlay o fs = (ls, e) ->
  (ov_owner o = true -> Forall2 closed_once (ov_layers o) ls /\
     (e = None <-> forall x, In x (firstn (close_calls (ov_layers o)) fs) -> x = None) /\
     (forall t, (exists x, e = Some x /\ is t x = true) <-> exists x, In (Some x) (firstn (close_calls (ov_layers o)) fs) /\ is t x = true)) /\
  (ov_owner o = false -> ls = ov_layers o /\ e = None).
Proof.
  unfold close_overlay. destruct (ov_owner o).
  - destruct (close_each (ov_layers o) fs) as [[ls1 fs1] e1] eqn:E. destruct (close_each_does _ _ _ _ _ E) as (A & _ & B & C).
    intros H. inversion H. subst. split; [auto|discriminate].
  - intros H. inversion H. subst. split; [discriminate|auto].
Qed.

(* A layer on a backend that refuses writes. *)
Lemma frozen_layer landed r f fs r' f' fs' x : quiet fs -> proper_root r -> proper_file f ->
  new_canonical landed true r f fs = (r', f', fs', x) ->
  r' = r /\ f' = f /\
  forall s, x = inl s <-> (forall n, In n the_two -> a_directory r n) /\
    exists d, f = Some (Database d) /\ says d one /\ s = Source r true true (Some d) true 0 0.
Proof.
  intros Q PR PF H. unfold new_canonical in H. destruct (ensure_canonical true r fs) as [[r1 fs1] [e|]] eqn:E.
  - destruct (layout_does _ _ _ _ _ _ PR E) as (_ & Z & _). inversion H. subst. split; [exact (Z eq_refl)|]. split; [reflexivity|].
    intros s. split; [discriminate|]. intros (D & _). exfalso.
    destruct (layout_succeeds true r fs Q PR) as (r2 & fs2 & E2 & _); [intros n I; left; exact (D n I)|]. rewrite E2 in E. discriminate.
  - destruct (layout_does _ _ _ _ _ _ PR E) as (_ & Z & D & _). rewrite (Z eq_refl) in *. specialize (D eq_refl).
    assert (Q1 : quiet fs1).
    { destruct (layout_succeeds true r fs Q PR) as (r2 & fs2 & E2 & Q2); [intros n I; left; exact (D n I)|].
      rewrite E2 in E. inversion E. subst. exact Q2. }
    destruct (open_store landed true f fs1) as [[f1 fs2] y] eqn:O.
    pose proof (store_on_frozen _ _ _ _ _ _ Q1 PF O) as K. destruct (store_does _ _ _ _ _ _ _ PF O) as (_ & A & _ & _ & B & _).
    assert (f1 = f) by exact (B eq_refl). subst f1. destruct y as [[d ro]|e]; inversion H; subst; (split; [reflexivity|]); (split; [reflexivity|]).
    + assert (ro = true) as -> by (destruct ro; [reflexivity|destruct (A d eq_refl) as [A1 _]; discriminate]).
      destruct (proj1 (K d) eq_refl) as [E1 S1]. intros s. split.
      * intros X. inversion X. split; [exact D|]. exists d. auto.
      * intros (_ & d' & E' & S' & ->). assert (d' = d) by congruence. subst. reflexivity.
    + intros s. split; [discriminate|]. intros (_ & d' & E' & S' & _). pose proof (proj2 (K d') (conj E' S')) as X. discriminate.
Qed.

Lemma layout_answers frozen r fs r' fs' e : quiet fs -> proper_root r -> ensure_canonical frozen r fs = (r', fs', e) ->
  ((forall n, In n the_two -> a_directory r n \/ (absent r n /\ frozen = false)) -> e = None) /\
  (e = Some ENotCanonical -> exists n, In n the_two /\ a_file r' n) /\
  (forall n, In n the_two -> a_file r n -> e <> None).
Proof.
  intros Q P H. split.
  - intros D. destruct (layout_succeeds frozen r fs Q P D) as (r2 & fs2 & E & _). rewrite E in H. inversion H. reflexivity.
  - split; [intros ->; exact (layout_not_canonical frozen r fs r' fs' Q P H)|].
    intros n I F. exact (layout_file frozen r fs r' fs' e n Q P H I F).
Qed.

(* The two findings. *)
Definition ex_x : name := [120]%N.
Definition ex_foreign : db := Db None false None [[117; 115; 101; 114; 115]%N].
Lemma foreign_taken : exists d d', proper_db d /\ d <> no_tables /\ (forall v, ~ says d v) /\
  init_schema false d [] = (d', [], None) /\ d' <> d.
Proof.
  exists ex_foreign. eexists. split; [intros b kvs H; discriminate|]. split; [discriminate|]. split; [intros v (kvs & E & _); discriminate|].
  split; [reflexivity|discriminate].
Qed.
Definition ex_linked : root := [(merged, Dir [(ex_x, File [7]%N)]); (work, Link merged)].
Lemma swept_through : exists r f r' s t o, proper_root r /\ In (merged, Dir [(ex_x, File [7]%N)]) r /\
  new_canonical false false r None [] = (r, f, [], inl s) /\ so_root s = r /\
  new_overlay (Some s) [] [] = ([Some t], inl o) /\ so_root t = r' /\ In (merged, Dir []) r' /\ ~ thinned r r' the_work.
Proof.
  exists ex_linked. do 5 eexists. split.
  { constructor; [intros [E|[]]; discriminate|]. constructor; [intros []|constructor]. }
  split; [left; reflexivity|]. split; [reflexivity|]. split; [reflexivity|]. split; [reflexivity|]. split; [reflexivity|].
  split; [left; reflexivity|]. intros [H _].
  assert (N : merged <> the_work) by discriminate.
  pose proof (proj2 (H merged (Dir [(ex_x, File [7]%N)]) N) (or_introl eq_refl)) as [E|[E|[]]]; discriminate.
Qed.
Lemma plain_layer frozen r s : new_plain frozen r = s ->
  so_root s = r /\ so_frozen s = frozen /\ so_canonical s = false /\ so_store s = None /\ so_read_only s = false /\ so_store_closed s = 0 /\ so_fs_closed s = 0.
Proof. intros <-. repeat split. Qed.
