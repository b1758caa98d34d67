(* Opening, removing, renaming, adding files in aferofs/synth. *)
From Coq Require Import Permutation.
From Verif Require Import Common CommonLemmas ContentRange_Model PathLex_Model PathLex_Proofs Afero_Model Afero_Spec Afero_Proofs AferoOps_Proofs AferoCalls_Proofs.
Open Scope nat_scope.

Lemma way_up s p c : way_open s (p ++ [c]) -> way_open s p.
Proof. intros H q b r ->. apply (H q b (r ++ [c])). now rewrite <- app_assoc. Qed.
Lemma parent_of_way s p c : way_open s (p ++ [c]) -> exists m es, node_at (a_root s) p = Some (Dir m es) /\ may_search m.
Proof. intros H. destruct (H p c [] eq_refl) as (m & A & B). apply shows_dir in A. destruct A as (es & A). eauto. Qed.
Lemma node_snoc d p c x : node_at d p = Some x -> node_at d (p ++ [c]) = child x c.
Proof. intros H. rewrite node_app, H. cbn. now destruct (child x c). Qed.

(* ---- OpenFile ---- *)

Lemma flag_perm_use d a : has_perm d (flag_perm a) = true <-> may_use a (mode_of d).
Proof.
  assert (forall w, N.eqb (N.land w 4) 4 = true <-> N.testbit w 2 = true) as H4.
  { intros w. rewrite N.eqb_eq. split.
    - intros H. assert (N.testbit (N.land w 4) 2 = true) as E by now rewrite H. rewrite N.land_spec in E. apply andb_true_iff in E. apply E.
    - intros H. apply N.bits_inj. intros i. rewrite N.land_spec. destruct (N.eq_dec i 2) as [->|Hi]; [now rewrite H|].
      change 4%N with (2 ^ 2)%N. rewrite N.pow2_bits_eqb. rewrite (proj2 (N.eqb_neq 2 i)) by congruence. apply andb_false_r. }
  assert (has_perm d 4 = true <-> N.testbit (mode_of d) 8 = true) as H8.
  { unfold has_perm. rewrite H4, N.shiftr_spec'. change (2 + 6)%N with 8%N. rewrite perm_bit by reflexivity. tauto. }
  destruct a; cbn [flag_perm may_use]; [assumption|apply has_2|].
  rewrite <- H8. change (N.testbit (mode_of d) 7 = true) with (may_write (mode_of d)). rewrite <- has_2.
  unfold has_perm. set (w := N.shiftr (perm_of (mode_of d)) 6). rewrite !N.eqb_eq. split.
  - intros H. split.
    + change 4%N with (N.land 6 4). rewrite N.land_assoc, H. reflexivity.
    + change 2%N with (N.land 6 2). rewrite N.land_assoc, H. reflexivity.
  - intros [A B]. change 6%N with (N.lor 4 2). rewrite N.land_lor_distr_r, A, B. reflexivity.
Qed.
Lemma put_nth_length {A} (l : list A) i x : length (put_nth l i x) = length l.
Proof. revert i; induction l as [|y l IH]; intros [|i]; cbn; auto. Qed.
Lemma put_nth_same {A} (l : list A) i x y : nth_error l i = Some y -> nth_error (put_nth l i x) i = Some x.
Proof. revert i; induction l as [|z l IH]; intros [|i]; cbn; try discriminate; auto. Qed.
Lemma put_nth_other {A} (l : list A) i j x : i <> j -> nth_error (put_nth l i x) j = nth_error l j.
Proof. revert i j; induction l as [|z l IH]; intros [|i] [|j] H; cbn; try reflexivity; try contradiction; auto. Qed.


Lemma open_handle_as s q d h : open_handle s q d = inr h -> opens_as (kind d) h.
Proof.
  unfold open_handle. destruct d as [m i|m es]; [|intros H; injection H as <-; exact I]. destruct (nth_error (a_views s) i) as [v|]; [|discriminate].
  destruct (view_opens v q); [discriminate|]. intros H; injection H as <-. reflexivity.
Qed.
Lemma open_fail s n q perm s' e : open_file s n q perm = (s', inl e) -> s' = s.
Proof.
  unfold open_file. destruct (find_parent s n) as [e0|[pp d]]; [intros H; now injection H|]. destruct (is_dot (base n)); [intros H; now injection H|].
  destruct (child d (base n)) as [x|].
  - destruct (o_excl q); [intros H; now injection H|]. destruct (negb (has_perm x (flag_perm (o_acc q)))); [intros H; now injection H|].
    destruct (is_dir x && (flag_writable (o_acc q) || o_trunc q)); [intros H; now injection H|]. destruct (o_trunc q); [|intros H; now injection H].
    destruct x as [m i|m es]; [|intros H; now injection H]. destruct (nth_error (a_views s) i) as [v|] eqn:Ev; [|intros H; now injection H].
    destruct (v_ro v) eqn:Er; [intros H; now injection H|]. unfold open_handle. cbn [a_views set_views]. rewrite (put_nth_same _ _ _ _ Ev).
    unfold view_opens, cut_view. cbn [v_ro]. rewrite Er. cbn [andb]. discriminate.
  - destruct (negb (o_create q)); [intros H; now injection H|]. destruct (negb (has_perm d 3)); [intros H; now injection H|]. destruct (negb (a_alloc s)); [intros H; now injection H|]. discriminate.
Qed.
Theorem open_spec s p c q perm s' h : sound s -> ordinary (p ++ [c]) -> open_file s (spell (p ++ [c])) q perm = (s', inr h) ->
  acceptable (p ++ [c]) /\ way_open s (p ++ [c]) /\
  ((exists e m, shows s (p ++ [c]) = Some e /\ opens_as e h /\ (e = DirEnt m \/ exists v, e = FileEnt m v) /\ may_use (o_acc q) m /\
      a_root s' = a_root s /\ a_closed s' = a_closed s /\ o_excl q = false /\
      (e = DirEnt m -> o_acc q = RdOnly /\ o_trunc q = false) /\
      (o_trunc q = false -> a_views s' = a_views s) /\
      (o_trunc q = true -> length (a_views s') = length (a_views s) /\
         exists w v v', h = OFile w /\ nth_error (a_views s) w = Some v /\ nth_error (a_views s') w = Some v' /\ emptied v v' /\
           forall j, j <> w -> nth_error (a_views s') j = nth_error (a_views s) j)) \/
   (shows s (p ++ [c]) = None /\ o_create q = true /\ a_alloc s = true /\ writable_parent s p /\
      h = OFile (length (a_views s)) /\
      shows s' (p ++ [c]) = Some (FileEnt (N.land perm 511) (length (a_views s))) /\
      (forall t, t <> p ++ [c] -> shows s' t = shows s t) /\
      (exists v, a_views s' = a_views s ++ [v] /\ v_data v = [] /\ v_ro v = false) /\ a_closed s' = a_closed s /\
      Permutation (views_in (a_root s')) (length (a_views s) :: views_in (a_root s)))).
Proof.
  intros [Hu Hr] Ho. unfold open_file. destruct (find_parent s (spell (p ++ [c]))) as [e0|[pp d]] eqn:Ef; [discriminate|].
  apply find_parent_spec in Ef; [|assumption]. cbn [fst snd] in Ef. destruct Ef as (A & W & -> & Hn).
  destruct (parent_of_way _ _ _ W) as (m & es & Hn' & Hm). assert (d = Dir m es) as -> by congruence. clear Hn'.
  rewrite base_spell by assumption. destruct (ordinary_snoc _ _ Ho) as [_ Hc]. rewrite proper_not_dot by assumption.
  pose proof (node_snoc _ _ c _ Hn) as Hx. destruct (child (Dir m es) c) as [x|] eqn:Ec.
  - intros H. split; [assumption|]. split; [assumption|]. left. destruct (o_excl q) eqn:Ex; [discriminate|].
    destruct (has_perm x (flag_perm (o_acc q))) eqn:Ep; cbn [negb] in H; [|discriminate]. apply flag_perm_use in Ep.
    destruct (is_dir x && (flag_writable (o_acc q) || o_trunc q)) eqn:Ed; [discriminate|].
    exists (kind x), (mode_of x). split; [unfold shows; now rewrite entry_is, Hx|].
    assert (forall m0, kind x = DirEnt m0 -> o_acc q = RdOnly /\ o_trunc q = false) as HD.
    { intros m0 K. destruct x as [a b|a b]; [discriminate|]. cbn [is_dir andb] in Ed. apply orb_false_iff in Ed. destruct Ed as [E1 E2]. split; [destruct (o_acc q); (reflexivity||discriminate)|assumption]. }
    assert (kind x = DirEnt (mode_of x) \/ exists v, kind x = FileEnt (mode_of x) v) as HK by (destruct x; cbn; eauto).
    destruct (o_trunc q) eqn:Et.
    + destruct x as [a i|a b]; [|discriminate]. destruct (nth_error (a_views s) i) as [v|] eqn:Ev; [|discriminate]. destruct (v_ro v) eqn:Er; [discriminate|].
      apply pair_inj in H. destruct H as [<- H]. split; [eapply open_handle_as; eauto|]. split; [assumption|]. split; [assumption|].
      split; [reflexivity|]. split; [reflexivity|]. split; [reflexivity|]. split; [apply HD|]. split; [discriminate|]. intros _. split; [apply put_nth_length|].
      apply open_handle_as in H. destruct h as [|w]; [contradiction|]. cbn in H. subst w. exists i, v, (cut_view v). cbn [a_views set_views].
      split; [reflexivity|]. split; [assumption|]. split; [eapply put_nth_same; eauto|]. split; [repeat split|]. intros j Hj. apply put_nth_other. congruence.
    + apply pair_inj in H. destruct H as [<- H]. split; [eapply open_handle_as; eauto|]. split; [assumption|]. split; [assumption|].
      split; [reflexivity|]. split; [reflexivity|]. split; [reflexivity|]. split; [apply HD|]. split; [reflexivity|discriminate].
  - destruct (o_create q) eqn:Eq; [|discriminate]. cbn [negb]. destruct (has_perm (Dir m es) 3) eqn:E3; [|discriminate]. cbn [negb].
    destruct (a_alloc s) eqn:Ea; [|discriminate]. cbn [negb]. intros H. apply pair_inj in H. destruct H as [<- H]. injection H as <-.
    apply has_3 in E3. destruct E3 as [_ E3]. cbn [mode_of] in E3.
    split; [assumption|]. split; [assumption|]. right. assert (dirish (Dir m es)) as Hd by (unfold dirish; eauto).
    split; [apply shows_none; assumption|]. split; [reflexivity|]. split; [reflexivity|]. split; [exists m; split; [apply shows_dir; eauto|auto]|]. split; [reflexivity|].
    unfold shows. cbn [a_root set_root a_views a_closed add_view]. split; [|split; [|split; [|split; [reflexivity|]]]].
    + pose proof (add_in (a_root s) p c (file_node (mem_view perm) (length (a_views s))) _ [] Hu Hn Hd) as E. rewrite app_nil_r in E. exact E.
    + intros t Ht. destruct (below_dec (p ++ [c]) t) as [[r ->]|Hb]; [|now apply add_out]. rewrite (add_in _ _ _ _ _ _ Hu Hn Hd).
      destruct r as [|b r]; [rewrite app_nil_r in Ht; contradiction|]. cbn [entry_at file_node]. symmetry. apply shows_none, none_below, Hx.
    + eexists. split; [reflexivity|]. split; reflexivity.
    + destruct (views_update _ _ _ Hn) as (rest & P1 & P2). rewrite (P2 _), P1. rewrite (views_add_new c (file_node (mem_view perm) (length (a_views s))) _ Hd Ec). reflexivity.
Qed.

(* ---- Remove ---- *)

Lemma count_zero x : is_dir x && (0 <? count x) = false -> views_in x = match x with File _ v => [v] | Dir _ _ => [] end /\ forall c, child x c = None.
Proof.
  destruct x as [m v|m es]; [split; reflexivity|]. cbn. destruct es; [split; reflexivity|discriminate].
Qed.
Theorem remove_spec s p c s' e : sound s -> ordinary (p ++ [c]) -> remove s (spell (p ++ [c])) = (s', e) ->
  ((e = None \/ e = Some EClosedWith) <-> acceptable (p ++ [c]) /\ way_open s (p ++ [c]) /\ writable_parent s p /\ shows s (p ++ [c]) <> None /\ emptyish s (p ++ [c])) /\
  (e = None \/ e = Some EClosedWith -> removed s s' (p ++ [c]) /\ (e = Some EClosedWith <-> closes_badly s (p ++ [c])) /\
     Permutation (views_in (a_root s) ++ a_closed s) (views_in (a_root s') ++ a_closed s')) /\
  (e <> None -> e <> Some EClosedWith -> s' = s) /\
  (e = Some ENoEnt -> acceptable (p ++ [c]) -> shows s (p ++ [c]) = None).
Proof.
  intros [Hu Hr] Ho. unfold remove. destruct (find_parent s (spell (p ++ [c]))) as [e0|[pp d]] eqn:Ef.
  { assert (~ (acceptable (p ++ [c]) /\ way_open s (p ++ [c]))) as Hno.
    { intros (A & B). destruct (parent_of_way _ _ _ B) as (m & es & Hn & _).
      assert (find_parent s (spell (p ++ [c])) = inr (p, Dir m es)) by (apply find_parent_spec; auto). congruence. }
    assert (e0 <> EClosedWith) as He.
    { unfold find_parent in Ef. destruct (validate (spell (p ++ [c]))) as [e1|] eqn:Ev.
      - injection Ef as <-. unfold validate in Ev. destruct (negb _); [injection Ev as <-; discriminate|]. destruct (255 <? _); [injection Ev as <-|]; discriminate.
      - destruct (is_dot _); [discriminate|]. assert (forall o e1, searchable o = Some e1 -> e1 <> EClosedWith) as Hs.
        { intros o e1. unfold searchable. destruct o as [y|]; [|intros H; injection H as <-; discriminate]. destruct (negb (is_dir y)); [intros H; injection H as <-; discriminate|].
          destruct (negb (has_perm y 1)); [intros H; injection H as <-|]; discriminate. }
        destruct (searchable (Some (a_root s))) as [e1|] eqn:Es; [injection Ef as <-; eauto|].
        destruct (descend (a_root s) (removelast (comps (spell (p ++ [c]))))) as [e1|] eqn:Ed; [|discriminate]. injection Ef as <-.
        clear - Ed Hs. revert Ed. generalize (removelast (comps (spell (p ++ [c])))) as l. generalize (a_root s). intros d l. revert d.
        induction l as [|b l IH]; intros d; cbn [descend]; [discriminate|]. destruct (searchable (child d b)) as [e2|] eqn:E; [intros H; injection H as <-; eauto|].
        destruct (child d b); [apply IH|]. intros H; injection H as <-; discriminate. }
    assert (e0 = ENoEnt -> acceptable (p ++ [c]) -> shows s (p ++ [c]) = None) as Hnone.
    { intros -> Ha. unfold shows. apply shows_none. unfold find_parent in Ef. rewrite (proj2 (validate_ok _ Ho) Ha) in Ef.
      destruct (is_dot (spell (p ++ [c]))); [discriminate|]. unfold searchable at 1 in Ef. destruct (negb (is_dir (a_root s))); [discriminate|]. destruct (negb (has_perm (a_root s) 1)); [discriminate|].
      rewrite comps_spell, removelast_last in Ef by assumption. rewrite node_app.
      destruct (descend (a_root s) p) as [e1|] eqn:Ed; [|discriminate]. injection Ef as ->.
      assert (node_at (a_root s) p = None) as ->; [|reflexivity]. clear - Ed. revert Ed. generalize (a_root s) as d.
      induction p as [|b l IH]; intros d; cbn [descend node_at]; [discriminate|]. destruct (child d b) as [y|] eqn:Ey; [|reflexivity].
      unfold searchable. destruct (negb (is_dir y)); [discriminate|]. destruct (negb (has_perm y 1)); [discriminate|]. apply IH. }
    intros H. injection H as <- <-. split; [|split; [|split; [auto|]]].
    - split; [|intros (A & B & _); tauto]. intros [H|H]; [discriminate|]. congruence.
    - intros [H|H]; [discriminate|]. congruence.
    - intros H. apply Hnone. congruence. }
  apply find_parent_spec in Ef; [|assumption]. cbn [fst snd] in Ef. destruct Ef as (A & W & -> & Hn).
  destruct (parent_of_way _ _ _ W) as (m & es & Hn' & Hm). assert (d = Dir m es) as -> by congruence. clear Hn'.
  rewrite base_spell by assumption. destruct (ordinary_snoc _ _ Ho) as [_ Hc]. unfold remove_from. rewrite proper_not_dot by assumption.
  pose proof (node_snoc _ _ c _ Hn) as Hx.
  destruct (has_perm (Dir m es) 3) eqn:E3; cbn [negb].
  2: { intros H. injection H as <- <-. split; [|split; [|split; [auto|discriminate]]].
       - split; [intros [H|H]; discriminate|]. intros (_ & _ & (m' & M1 & M2 & M3) & _). exfalso. apply shows_dir in M1. destruct M1 as (es' & M1). assert (m' = m) as -> by congruence.
         assert (has_perm (Dir m es) 3 = true) by (apply has_3; auto). congruence.
       - intros [H|H]; discriminate. }
  apply has_3 in E3. destruct E3 as [_ E3]. cbn [mode_of] in E3.
  destruct (child (Dir m es) c) as [x|] eqn:Ec.
  2: { intros H. injection H as <- <-. split; [|split; [|split; [auto|intros _ _; now apply shows_none]]].
       - split; [intros [H|H]; discriminate|]. intros (_ & _ & _ & D & _). exfalso. apply D. now apply shows_none.
       - intros [H|H]; discriminate. }
  destruct (is_dir x && (0 <? count x)) eqn:Ed.
  { intros H. injection H as <- <-. split; [|split; [|split; [auto|discriminate]]].
    - split; [intros [H|H]; discriminate|]. intros (_ & _ & _ & _ & D). exfalso. destruct x as [a v|a [|[b y] r]]; [discriminate|discriminate|].
      specialize (D b). apply shows_none in D. rewrite (node_snoc _ _ b _ Hx) in D. cbn in D. rewrite eqb_refl' in D. discriminate.
    - intros [H|H]; discriminate. }
  destruct (count_zero x Ed) as [Vx Cx].
  intros H. apply pair_inj in H. destruct H as [<- <-].
  assert (writable_parent s p) as Hwp by (exists m; split; [apply shows_dir; eauto|auto]).
  assert (close_fails s x = true <-> closes_badly s (p ++ [c])) as Hcb.
  { unfold closes_badly, close_fails, shows. rewrite entry_is, Hx. destruct x as [a v|a l]; cbn [kind option_map].
    - destruct (nth_error (a_views s) v) as [w|] eqn:Ew.
      + split; [intros H; exists a, v, w; auto|]. intros (m' & v' & w' & H1 & H2 & H3). assert (v' = v) as -> by congruence. assert (w' = w) as -> by congruence. assumption.
      + split; [discriminate|]. intros (m' & v' & w' & H1 & H2 & H3). assert (v' = v) as -> by congruence. congruence.
    - split; [discriminate|]. intros (m' & v' & w' & H1 & H2 & H3). discriminate. }
  split; [|split; [|split]].
  - split.
    + intros _. split; [assumption|]. split; [assumption|]. split; [assumption|]. split.
      * intros H. apply shows_none in H. congruence.
      * intros b. apply shows_none. rewrite (node_snoc _ _ b _ Hx). apply Cx.
    + intros _. destruct (close_fails s x); auto.
  - intros _. split; [|split].
    + split; [|split; [|split; [|reflexivity]]].
      * exists (kind x). split; [unfold shows; now rewrite entry_is, Hx|]. cbn [a_closed log_close set_root]. rewrite closes_is, Vx. destruct x; reflexivity.
      * pose proof (remove_in (a_root s) p c _ [] Hu Hn) as E. rewrite app_nil_r in E. exact E.
      * intros q Hq. unfold shows. cbn [a_root log_close set_root]. destruct (below_dec (p ++ [c]) q) as [[r ->]|Hb]; [|now apply remove_out].
        rewrite (remove_in _ _ _ _ _ Hu Hn). destruct r as [|b r]; [rewrite app_nil_r in Hq; contradiction|]. symmetry. apply shows_none. rewrite node_app, Hx. cbn. now rewrite Cx.
    + rewrite <- Hcb. destruct (close_fails s x); split; congruence.
    + cbn [a_root a_closed log_close set_root]. change (closes x) with (views_in x). destruct (views_update _ _ _ Hn) as (rest & P1 & P2). rewrite (P2 _), P1, (views_remove c x _ Ec).
      rewrite <- !app_assoc. rewrite Permutation_app_comm, <- !app_assoc. apply Permutation_app_head. rewrite (Permutation_app_comm (a_closed s)). reflexivity.
  - intros H1 H2. destruct (close_fails s x); congruence.
  - destruct (close_fails s x); discriminate.
Qed.
