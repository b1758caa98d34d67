(* Reallocate, and the views over histories of aferofs/synth. *)
From Coq Require Import Permutation.
From Verif Require Import Common CommonLemmas ContentRange_Model PathLex_Model PathLex_Proofs Afero_Model Afero_Spec Afero_Proofs AferoOps_Proofs AferoCalls_Proofs AferoMore_Proofs AferoMove_Proofs.
Open Scope nat_scope.

Lemma find_valid s n x : find s n = inr x -> exists p, ordinary p /\ n = spell p.
Proof.
  unfold find, find_parent. destruct (validate n) eqn:E; [discriminate|]. intros _. now apply validate_spell.
Qed.
Lemma parent_valid s n x : find_parent s n = inr x -> exists p, ordinary p /\ n = spell p.
Proof. unfold find_parent. destruct (validate n) eqn:E; [discriminate|]. intros _. now apply validate_spell. Qed.

(* ---- Reallocate ---- *)

Theorem realloc_spec s p c s' : sound s -> ordinary (p ++ [c]) -> reallocate s (spell (p ++ [c])) = (s', None) ->
  exists m m' i v v', shows s (p ++ [c]) = Some (FileEnt m i) /\ nth_error (a_views s) i = Some v /\
    shows s' (p ++ [c]) = Some (FileEnt m' (length (a_views s))) /\ typed m m' /\
    a_views s' = a_views s ++ [v'] /\ v_data v' = v_data v /\ v_ro v' = false /\
    (forall q, q <> p ++ [c] -> shows s' q = shows s q) /\
    a_closed s' = a_closed s ++ [i; i].
Proof.
  intros Hs Ho. unfold reallocate. destruct (find s (spell (p ++ [c]))) as [e0|x] eqn:Ef; [discriminate|].
  apply find_spec in Ef; [|assumption]. destruct Ef as (A & W & Hx). destruct x as [m i|m es]; [|discriminate].
  destruct (nth_error (a_views s) i) as [v|] eqn:Ev; [|discriminate].
  match goal with |- context [add_file s _ ?nv] => set (v' := nv) end.
  destruct (add_file s (spell (p ++ [c])) v') as [s1 [e1|]] eqn:Ea; [discriminate|]. destruct (add_file_spec _ _ _ _ _ _ Hs Ho Ea) as (F1 & F2 & F3 & F4 & _).
  pose proof (add_file_sound s (spell (p ++ [c])) v' Hs) as Hs1. rewrite Ea in Hs1. cbn [fst] in Hs1. destruct (F4 eq_refl) as ((m1 & G1 & _) & G2 & _ & G4 & _).
  intros H. apply pair_inj in H. destruct H as [<- _]. rewrite comps_spell by assumption.
  apply shows_file in G1.
  exists m, (N.land m (N.lor m_type m_perm)), i, v, v'. split; [now apply shows_file|]. split; [assumption|]. split; [|split; [|split; [|split; [|split; [|split]]]]].
  - unfold shows. cbn [a_root log_close set_root]. rewrite entry_is. pose proof (node_update_in (a_root s1) (p ++ [c]) (set_mode m) _ [] G1) as E. rewrite app_nil_r in E. rewrite E. reflexivity.
  - intros j. rewrite N.land_spec, N.lor_spec, m_perm_bit. reflexivity.
  - cbn [a_views log_close set_root]. auto.
  - reflexivity.
  - reflexivity.
  - intros q Hq. unfold shows. cbn [a_root log_close set_root].
    destruct (below_dec (p ++ [c]) q) as [[r ->]|Hb].
    + destruct r as [|b r]; [rewrite app_nil_r in Hq; contradiction|]. rewrite !entry_is, (node_update_in _ _ _ _ _ G1), node_app, Hx. reflexivity.
    + rewrite entry_update_out by assumption. destruct (below_dec q p) as [Hqp|Hqp]; [|now apply F1].
      destruct (F2 q Hqp) as [E|[E _]]; [exact E|]. exfalso. destruct Hqp as [t ->]. apply shows_none in E. rewrite <- app_assoc, node_app, E in Hx. discriminate.
  - cbn [a_closed log_close set_root]. rewrite G4. unfold over. rewrite Hx. cbn [views_in]. now rewrite <- app_assoc.
Qed.

(* ---- what a step does to the views ---- *)

Definition grows (s s' : afs) : Prop :=
  exists fresh, Permutation (account s') (fresh ++ account s) /\ (fresh = [] \/ fresh = [length (a_views s)]) /\ length (a_views s) + length fresh <= length (a_views s').
Lemma grows_same s s' : Permutation (account s') (account s) -> length (a_views s) <= length (a_views s') -> grows s s'.
Proof. intros H L. exists []. split; [assumption|]. split; [auto|cbn; lia]. Qed.
Lemma grows_refl s : grows s s.
Proof. now apply grows_same. Qed.

Lemma mkdir_grows s n m : sound s -> grows s (fst (mkdir s n m)).
Proof.
  intros [Hu Hr]. unfold mkdir. destruct (find_writable_dir s (dir n)) as [e|d] eqn:Ef; [apply grows_refl|]. destruct (is_dot (base n)); [apply grows_refl|].
  destruct (child d (base n)) eqn:Ec; [apply grows_refl|]. destruct (negb (has_perm d 1)); [apply grows_refl|]. destruct (negb (has_perm d 2)); [apply grows_refl|].
  assert (exists p, ordinary p /\ dir n = spell p) as (p & Hp & En).
  { unfold find_writable_dir in Ef. destruct (find s (dir n)) eqn:E; [discriminate|]. eapply find_valid; eauto. }
  rewrite En in *. rewrite comps_spell by assumption. apply find_writable_spec in Ef; [|assumption]. destruct Ef as (_ & _ & Hn & Hd & _).
  apply grows_same; [|cbn; lia]. unfold account. cbn [fst a_root set_root a_closed]. apply Permutation_app_tail.
  destruct (views_update _ _ _ Hn) as (rest & A1 & A2). rewrite (A2 _), A1. apply Permutation_app_tail. exact (views_add_new (base n) (Dir (dir_mode s m) []) d Hd Ec).
Qed.
Lemma chmod_grows s n m : sound s -> grows s (fst (chmod s n m)).
Proof.
  intros Hs. destruct (chmod s n m) as [s' e] eqn:E. destruct (find s n) as [e0|x] eqn:Ef.
  - unfold chmod in E. rewrite Ef in E. injection E as <- <-. apply grows_refl.
  - destruct (find_valid _ _ _ Ef) as (p & Hp & ->). destruct (chmod_spec _ _ _ Hs Hp _ _ E) as (_ & F & G). destruct e as [e|]; [rewrite F by discriminate; apply grows_refl|].
    destruct (G eq_refl) as (_ & _ & V & C & P). apply grows_same; [|cbn [fst]; rewrite V; lia]. unfold account. cbn [fst]. now rewrite C, P.
Qed.
Lemma mkdir_all_grows s n m : sound s -> grows s (fst (mkdir_all s n m)).
Proof.
  intros Hs. destruct (mkdir_all s n m) as [s' e] eqn:E. destruct (validate n) as [e0|] eqn:Ev.
  - unfold mkdir_all in E. rewrite Ev in E. injection E as <- <-. apply grows_refl.
  - destruct (validate_spell _ Ev) as (p & Hp & ->). destruct (mkdir_all_spec _ _ _ Hs Hp _ _ E) as (_ & _ & _ & V & C & P & _).
    apply grows_same; [|cbn [fst]; rewrite V; lia]. unfold account. cbn [fst]. now rewrite C, P.
Qed.
Lemma open_grows s n q m : sound s -> grows s (fst (open_file s n q m)).
Proof.
  intros Hs. destruct (open_file s n q m) as [s' [e|h]] eqn:E; [apply open_fail in E; subst; apply grows_refl|].
  assert (exists p, ordinary p /\ n = spell p) as (l & Hl & ->).
  { unfold open_file in E. destruct (find_parent s n) eqn:Ef; [discriminate|]. eapply parent_valid; eauto. }
  destruct (snoc_cases l) as [->|(p & c & ->)].
  - unfold open_file in E. destruct (find_parent s (spell [])) as [|[pp d]]; [discriminate|]. change (is_dot (base (spell []))) with true in E. cbn iota in E. injection E as <- _. apply grows_refl.
  - destruct (open_spec _ _ _ _ _ _ _ Hs Hl E) as (_ & _ & [(e & k & _ & _ & _ & _ & R & C & _ & _ & T1 & T2)|(_ & _ & _ & _ & _ & _ & _ & (v & V & _) & C & P)]).
    + apply grows_same; cbn [fst]; [unfold account; rewrite R, C; reflexivity|]. destruct (o_trunc q); [destruct (T2 eq_refl) as [-> _]|rewrite (T1 eq_refl)]; lia.
    + exists [length (a_views s)]. cbn [fst]. split; [unfold account; rewrite P, C; reflexivity|]. split; [auto|]. rewrite V, app_length. cbn. lia.
Qed.
Lemma thinned_grows s s' p : thinned s s' p -> grows s s'.
Proof. intros (_ & _ & V & P). apply grows_same; [assumption|rewrite V; lia]. Qed.
Lemma remove_grows s n : sound s -> grows s (fst (remove s n)).
Proof.
  intros Hs. destruct (remove s n) as [s' e] eqn:E. destruct (find_parent s n) as [e0|[pp d]] eqn:Ef.
  { unfold remove in E. rewrite Ef in E. injection E as <- <-. apply grows_refl. }
  destruct (parent_valid _ _ _ Ef) as (l & Hl & ->). destruct (snoc_cases l) as [->|(p & c & ->)].
  - unfold remove in E. rewrite Ef in E. unfold remove_from in E. change (is_dot (base (spell []))) with true in E. cbn iota in E. injection E as <- _. apply grows_refl.
  - destruct (remove_spec _ _ _ _ _ Hs Hl E) as (R1 & R2 & R3 & _). assert ((e = None \/ e = Some EClosedWith) \/ (e <> None /\ e <> Some EClosedWith)) as [H|[H1 H2]].
    { destruct e as [[]|]; auto; right; split; discriminate. }
    + destruct (R2 H) as (R & _ & P). apply grows_same; cbn [fst]; [now symmetry|]. destruct R as (_ & _ & _ & ->). lia.
    + rewrite (R3 H1 H2). apply grows_refl.
Qed.
Lemma remove_all_grows s n : sound s -> grows s (fst (remove_all s n)).
Proof.
  intros Hs. destruct (remove_all s n) as [s' e] eqn:E. destruct (validate n) as [e0|] eqn:Ev.
  { rewrite remove_all_is, Ev in E. injection E as <- <-. apply grows_refl. }
  destruct (validate_spell _ Ev) as (l & Hl & ->). destruct (snoc_cases l) as [->|(p & c & ->)].
  - rewrite remove_all_is, Ev in E. change (is_dot (spell [])) with true in E. cbn iota in E. injection E as <- _. apply grows_refl.
  - destruct (remove_all_spec _ _ _ _ _ Hs Hl E) as [T _]. eapply thinned_grows; eauto.
Qed.
Lemma rename_shrinks s o n : sound s -> exists lost, Permutation (account s) (account (fst (rename s o n)) ++ lost) /\ a_views (fst (rename s o n)) = a_views s.
Proof.
  intros Hs. destruct (rename s o n) as [s' [e|]] eqn:E; cbn [fst].
  { apply rename_fail in E. subst. exists []. rewrite app_nil_r. auto. }
  assert (validate o = None /\ validate n = None) as [Vo Vn].
  { unfold rename in E. destruct (validate o); [discriminate|]. destruct (validate n); [discriminate|]. auto. }
  assert (s' = s -> exists lost, Permutation (account s) (account s' ++ lost) /\ a_views s' = a_views s) as Hsame by (intros ->; exists []; rewrite app_nil_r; auto).
  destruct (validate_spell _ Vo) as (lo & Ho & ->). destruct (validate_spell _ Vn) as (ln & Hn & ->).
  destruct (list_eq_dec (list_eq_dec N.eq_dec) lo ln) as [->|Hne].
  { apply Hsame. unfold rename in E. rewrite Vo, eqb_refl' in E. congruence. }
  destruct (snoc_cases lo) as [->|(p & c & ->)]; [|destruct (snoc_cases ln) as [->|(q & b & ->)]].
  - unfold rename in E. rewrite Vo, Vn, eqb_false in E by (intros H; apply Hne; now apply spell_inj). change (is_dot (spell [])) with true in E. cbn in E. discriminate.
  - unfold rename in E. rewrite Vo, Vn, eqb_false in E by (intros H; apply Hne; now apply spell_inj). change (is_dot (spell [])) with true in E. rewrite orb_true_r in E. discriminate.
  - destruct (rename_spec _ _ _ _ _ _ Hs Ho Hn Hne E) as (_ & _ & _ & _ & _ & _ & _ & _ & _ & _ & V & _ & lost & P). exists lost. auto.
Qed.
Lemma add_file_grows s n v : sound s -> grows s (fst (add_file s n v)) /\
  (forall s', add_file s n v = (s', None) -> exists old, a_closed s' = a_closed s ++ old).
Proof.
  intros Hs. destruct (add_file s n v) as [s' e] eqn:E. cbn [fst]. destruct (validate n) as [e0|] eqn:Ev.
  { unfold add_file in E. rewrite Ev in E. injection E as <- <-. split; [apply grows_refl|discriminate]. }
  destruct (validate_spell _ Ev) as (l & Hl & ->). destruct (snoc_cases l) as [->|(p & c & ->)].
  - unfold add_file in E. rewrite Ev in E.
    assert (grows s (add_view s v)) as G0 by (apply grows_same; [reflexivity|cbn [a_views add_view]; rewrite app_length; cbn; lia]).
    destruct (match v_mode v with Some m => negb (N.eqb (N.land m m_dir) 0) | None => false end); [injection E as <- <-; split; [exact G0|discriminate]|].
    change (last (split_sep (spell [])) []) with [dot] in E. cbn iota in E. change (dir (spell [])) with (spell []) in E. change (base (spell [])) with [dot] in E.
    assert (mkdir_all (add_view s v) (spell []) m_perm = (add_view s v, None)) as Em by (unfold mkdir_all; rewrite Ev; reflexivity). unfold dot in E. rewrite Em in E.
    destruct (find (add_view s v) (spell [])) as [e1|d] eqn:Ef; [injection E as <- <-; split; [exact G0|discriminate]|].
    apply (find_spec _ [] _ Hl) in Ef. destruct Ef as (_ & _ & Ef). cbn in Ef. injection Ef as <-.
    destruct (searchable (Some (a_root s))) as [e1|] eqn:Es; [injection E as <- <-; split; [exact G0|discriminate]|].
    destruct (negb (has_perm (a_root s) 2)); [injection E as <- <-; split; [exact G0|discriminate]|].
    destruct Hs as [Hu Hd]. apply pair_inj in E. destruct E as [<- <-]. change (comps (spell [])) with (@nil name). cbn [update].
    destruct (child (a_root s) [46%N]) as [z|] eqn:Ez.
    + destruct (views_add_over [46%N] (file_node v (length (a_views s))) z _ Ez) as (rest & B1 & B2). split.
      * exists [length (a_views s)]. unfold account. cbn [a_root set_root log_close add_view a_closed a_views]. split; [|split; [auto|rewrite app_length; cbn; lia]].
        rewrite B2, B1. change (closes z) with (views_in z). cbn [views_in file_node app]. apply perm_skip. rewrite <- !app_assoc. rewrite (app_assoc rest), (Permutation_app_comm (rest ++ a_closed s)). reflexivity.
      * intros s' H. injection H as <-. exists (views_in z). reflexivity.
    + split.
      * exists [length (a_views s)]. unfold account. cbn [a_root set_root log_close add_view a_closed a_views]. split; [|split; [auto|rewrite app_length; cbn; lia]].
        rewrite (views_add_new [46%N] _ _ Hd Ez). reflexivity.
      * intros s' H. injection H as <-. exists []. now rewrite app_nil_r.
  - destruct (add_file_spec _ _ _ _ _ _ Hs Hl E) as (_ & _ & V & S & F). apply validate_ok in Ev; [|assumption]. specialize (V Ev). destruct e as [e|].
    + split; [|discriminate]. destruct (F ltac:(discriminate)) as (_ & _ & P). apply grows_same; [assumption|]. rewrite V, app_length. cbn. lia.
    + destruct (S eq_refl) as (_ & _ & _ & C & P). split; [|intros s'' H; injection H as <-; eauto]. exists [length (a_views s)]. split; [exact P|]. split; [auto|]. rewrite V, app_length. cbn. lia.
Qed.

Definition settled (s : afs) : Prop := sound s /\ NoDup (account s) /\ Forall (fun i => i < length (a_views s)) (account s).
Lemma grows_settled s s' : sound s' -> settled s -> grows s s' -> settled s'.
Proof.
  intros Hs' (_ & Nd & Fa) (fresh & P & Hf & L). split; [assumption|].
  assert (NoDup (fresh ++ account s)) as N2.
  { destruct Hf as [-> | ->]; [assumption|]. cbn. constructor; [|assumption]. intros Hi. rewrite Forall_forall in Fa. apply Fa in Hi. lia. }
  split; [eapply Permutation_NoDup; [symmetry; exact P|assumption]|]. apply Forall_forall. intros i Hi. apply (Permutation_in _ P) in Hi. apply in_app_or in Hi.
  rewrite Forall_forall in Fa. destruct Hi as [Hi|Hi]; [|apply Fa in Hi; lia]. destruct Hf as [-> | ->]; [destruct Hi|]. destruct Hi as [<-|[]]. cbn in L. lia.
Qed.
Lemma calm_settled s o : calm o -> settled s -> settled (astep s o).
Proof.
  intros Hc H. pose proof (step_sound s o (proj1 H)) as Hs. pose proof (proj1 H) as S0.
  pose proof (fun s' S' => grows_settled s s' S' H) as K. destruct o; cbn [astep] in *.
  - apply K; [assumption|now apply chmod_grows].
  - apply K; [assumption|now apply mkdir_grows].
  - apply K; [assumption|now apply mkdir_all_grows].
  - apply K; [assumption|now apply open_grows].
  - apply K; [assumption|now apply remove_grows].
  - apply K; [assumption|now apply remove_all_grows].
  - destruct (rename_shrinks s o n S0) as (lost & P & V). destruct H as (_ & Nd & Fa). split; [assumption|]. split.
    + apply (Permutation_NoDup P) in Nd. revert Nd. clear. generalize (account (fst (rename s o n))). induction lost as [|x l IH]; intros a Nd; [now rewrite app_nil_r in Nd|].
      apply IH. exact (NoDup_remove_1 _ _ _ Nd).
    + rewrite V. apply Forall_forall. intros i Hi. rewrite Forall_forall in Fa. apply Fa. eapply Permutation_in; [symmetry; exact P|]. apply in_or_app. now left.
  - apply K; [assumption|now apply add_file_grows].
  - contradiction.
Qed.
Lemma calm_run l : Forall calm l -> forall s, settled s -> settled (arun s l).
Proof. induction 1 as [|o l Ho Hl IH]; intros s H; [exact H|]. apply (IH (astep s o)). now apply calm_settled. Qed.
Lemma new_settled u a : settled (new_fs u a).
Proof. split; [apply new_sound|]. split; constructor. Qed.

Lemma grows_keeps s s' : grows s s' -> incl (account s) (account s').
Proof. intros (fresh & P & _) i Hi. eapply Permutation_in; [symmetry; exact P|]. apply in_or_app. now right. Qed.
Lemma keeps_step s o : keeps o -> sound s -> incl (account s) (account (astep s o)).
Proof.
  intros Hk S0. destruct o; cbn [astep].
  - apply grows_keeps. now apply chmod_grows.
  - apply grows_keeps. now apply mkdir_grows.
  - apply grows_keeps. now apply mkdir_all_grows.
  - apply grows_keeps. now apply open_grows.
  - apply grows_keeps. now apply remove_grows.
  - apply grows_keeps. now apply remove_all_grows.
  - contradiction.
  - apply grows_keeps. now apply add_file_grows.
  - unfold reallocate. destruct (find s p) as [e0|x] eqn:Ef; [apply incl_refl|]. destruct x as [m i|m es]; [|apply incl_refl]. destruct (nth_error (a_views s) i) as [v|]; [|apply incl_refl].
    match goal with |- context [add_file s p ?nv] => destruct (add_file_grows s p nv S0) as [G _]; apply grows_keeps in G; destruct (add_file s p nv) as [s1 [e1|]] end; [exact G|].
    cbn [fst] in *. intros j Hj. apply G in Hj. unfold account in *. cbn [a_root a_closed log_close set_root]. apply in_app_or in Hj. apply in_or_app. destruct Hj as [Hj|Hj]; [left|right; apply in_or_app; now left].
    destruct (node_at (a_root s1) (comps p)) as [x|] eqn:Ex; [|now rewrite update_none].
    destruct (views_update _ _ _ Ex) as (rest & A1 & A2). eapply Permutation_in; [symmetry; apply A2|]. rewrite views_mode. eapply Permutation_in; [exact A1|assumption].
Qed.
