From Verif Require Import Common CommonLemmas ContentRange_Model ContentRange_Proofs PathLex_Model PathLex_Proofs Views_Model Views_Spec.
Open Scope Z_scope.

Lemma clean_app_proper d l : d <> [] -> l <> [] -> Forall proper l ->
  clean (d ++ sep :: join_sep l) = render (rooted d) (elems d ++ l).
Proof.
  intros Hd Hne Hl. unfold clean, elems. assert (rooted (d ++ sep :: join_sep l) = rooted d) as -> by (destruct d; [contradiction|reflexivity]).
  f_equal. rewrite split_app_gen, split_join by (try apply proper_sepfree; assumption). unfold clean_comps. rewrite fold_left_app, fold_proper by exact Hl.
  rewrite rev_app_distr, rev_involutive. reflexivity.
Qed.

Lemma render_false_dot l : normal false l -> is_dot (render false l) = true -> l = [].
Proof.
  intros Hn H. apply is_dot_true in H. destruct l as [|x l]; [reflexivity|]. exfalso.
  pose proof (split_render false (x :: l) Hn) as Hs. rewrite H in Hs. cbn in Hs. destruct Hn as (k & l' & E & Hp & _).
  destruct k as [|k]; cbn in E.
  - subst l'. inversion Hp as [|? ? (_ & Hx & _) _]; subst. congruence.
  - congruence.
Qed.

Lemma pp_resolve_spec prefix name : clean prefix = prefix ->
  (forall q, pp_resolve prefix name = Some q <-> inside name /\ q = render (rooted prefix) (elems prefix ++ elems name)).
Proof.
  intros Hp q. unfold pp_resolve.
  assert (render (rooted prefix) (elems prefix) = prefix) as Hpre by exact Hp.
  assert (prefix <> []) as Hne by (rewrite <- Hp; apply clean_nonempty).
  pose proof (clean_normal name) as Hn. unfold inside, elems at 2. destruct (rooted name) eqn:Er.
  - assert (is_dot (clean name) = false) as ->.
    { destruct (is_dot (clean name)) eqn:E; [|reflexivity]. apply is_dot_true in E. pose proof (rooted_clean name) as Hr. rewrite E, Er in Hr. discriminate. }
    assert (is_local (clean name) = false) as ->.
    { destruct (is_local (clean name)) eqn:E; [|reflexivity]. apply is_local_comps in E. destruct E as (_ & E & _). rewrite rooted_clean in E. congruence. }
    cbn. split; [discriminate|]. intros [[E _] _]. discriminate.
  - unfold clean. rewrite Er. set (l := clean_comps false (split_sep name)) in *. destruct (is_dot (render false l)) eqn:Ed.
    + apply (render_false_dot l Hn) in Ed. rewrite Ed, app_nil_r, Hpre. split; [intros E; apply some_inj in E; subst; repeat split; constructor|]. intros [_ ->]. reflexivity.
    + assert (l <> []) as Hl by (intros E; rewrite E in Ed; discriminate).
      destruct (is_local (render false l)) eqn:El.
      * apply is_local_comps in El. destruct El as (_ & _ & Hpr). rewrite comps_render in Hpr by exact Hn. cbn [negb].
        assert (join2 prefix (render false l) = render (rooted prefix) (elems prefix ++ l)) as ->.
        { destruct prefix as [|b prefix]; [contradiction|]. unfold join2. destruct l as [|x l]; [contradiction|]. change (render false (x :: l)) with (join_sep (x :: l)).
          rewrite clean_app_proper by (try discriminate; exact Hpr). reflexivity. }
        split; [intros E; apply some_inj in E; subst; auto|]. intros [_ ->]. reflexivity.
      * cbn [negb]. split; [discriminate|]. intros [[_ Hpr] _]. exfalso. assert (is_local (render false l) = true); [|congruence]. apply is_local_comps.
        split; [destruct l; [contradiction|]; intros E; pose proof (split_render false _ Hn) as Hs; rewrite E in Hs; cbn in Hs; inversion Hpr as [|? ? (Hx & _) _]; subst; congruence|].
        split; [apply rooted_render; exact Hn|]. rewrite comps_render by exact Hn. exact Hpr.
Qed.

Lemma inside_proper name : inside name -> Forall proper (elems name).
Proof. intros [Hr H]. unfold elems. rewrite Hr. exact H. Qed.

Lemma pp_below prefix name q : clean prefix = prefix -> pp_resolve prefix name = Some q -> below prefix q.
Proof. intros Hp H. apply (pp_resolve_spec prefix name Hp) in H. destruct H as [Hi ->]. exists (elems name). split; [apply inside_proper; exact Hi|reflexivity]. Qed.

Lemma pp_confined is_dir pre prefix c c' : pp_new is_dir pre = Some prefix -> pp_call prefix c = Some c' ->
  same_call c c' /\ Forall (below prefix) (paths_of c') /\ Forall inside (paths_of c) /\
  paths_of c' = map (fun n => render (rooted prefix) (elems prefix ++ elems n)) (paths_of c) /\ ~ removes_root c.
Proof.
  intros Hnew H. assert (clean prefix = prefix) as Hp.
  { unfold pp_new in Hnew. destruct pre as [|b pre]; [discriminate|]. destruct (is_dir (clean (b :: pre))); [|discriminate]. apply some_inj in Hnew. subst. apply clean_idem. }
  assert (forall name q, pp_resolve prefix name = Some q -> below prefix q /\ inside name /\ q = render (rooted prefix) (elems prefix ++ elems name)) as Hr.
  { intros name q E. split; [eapply pp_below; eauto|]. apply (pp_resolve_spec prefix name Hp) in E. exact E. }
  destruct c; cbn [pp_call] in H.
  - destruct (pp_resolve prefix name) as [p|] eqn:E; [|discriminate]. apply some_inj in H. subst c'. destruct (Hr _ _ E) as (H1 & H2 & ->). cbn. auto 10.
  - destruct (pp_resolve prefix old) as [p|] eqn:E; [|discriminate]. destruct (pp_resolve prefix new) as [p2|] eqn:E2; [|discriminate]. apply some_inj in H. subst c'.
    destruct (Hr _ _ E) as (H1 & H2 & ->). destruct (Hr _ _ E2) as (H3 & H4 & ->). cbn. auto 10.
  - destruct (pp_resolve prefix old) as [p|] eqn:E; [|discriminate]. destruct (pp_resolve prefix new) as [p2|] eqn:E2; [|discriminate]. apply some_inj in H. subst c'.
    destruct (Hr _ _ E) as (H1 & H2 & ->). destruct (Hr _ _ E2) as (H3 & H4 & ->). cbn. auto 10.
  - destruct (pp_resolve prefix new) as [p|] eqn:E; [|discriminate]. apply some_inj in H. subst c'. destruct (Hr _ _ E) as (H1 & H2 & ->). cbn. auto 10.
  - destruct (is_dot (clean name)) eqn:Ed; [discriminate|]. destruct (pp_resolve prefix name) as [p|] eqn:E; [|discriminate]. apply some_inj in H. subst c'. destruct (Hr _ _ E) as (H1 & H2 & ->).
    cbn. split; [auto|]. split; [auto|]. split; [auto|]. split; [auto|]. intros [He Hro]. unfold elems in He. unfold clean in Ed. rewrite Hro in *. rewrite He in Ed. discriminate.
Qed.

Lemma pp_complete is_dir pre prefix c : pp_new is_dir pre = Some prefix -> Forall inside (paths_of c) -> ~ removes_root c -> exists c', pp_call prefix c = Some c'.
Proof.
  intros Hnew Hi Hnr. assert (clean prefix = prefix) as Hp.
  { unfold pp_new in Hnew. destruct pre as [|b pre]; [discriminate|]. destruct (is_dir (clean (b :: pre))); [|discriminate]. apply some_inj in Hnew. subst. apply clean_idem. }
  assert (forall name, inside name -> exists q, pp_resolve prefix name = Some q) as Hr by (intros name H; eexists; apply (pp_resolve_spec prefix name Hp); split; [exact H|reflexivity]).
  destruct c; cbn [pp_call paths_of] in *.
  - inversion Hi as [|? ? H1 _]; subst. destruct (Hr _ H1) as (q & ->). eauto.
  - inversion Hi as [|? ? H1 Hi2]; subst. inversion Hi2 as [|? ? H2 _]; subst. destruct (Hr _ H1) as (q & ->). destruct (Hr _ H2) as (q2 & ->). eauto.
  - inversion Hi as [|? ? H1 Hi2]; subst. inversion Hi2 as [|? ? H2 _]; subst. destruct (Hr _ H1) as (q & ->). destruct (Hr _ H2) as (q2 & ->). eauto.
  - inversion Hi as [|? ? H1 _]; subst. destruct (Hr _ H1) as (q & ->). eauto.
  - inversion Hi as [|? ? H1 _]; subst. destruct (Hr _ H1) as (q & ->). destruct (is_dot (clean name)) eqn:Ed; [|eauto]. exfalso. apply Hnr. destruct H1 as [Hro _]. cbn. split; [|exact Hro].
    unfold elems. rewrite Hro. apply render_false_dot; [|unfold clean in Ed; rewrite Hro in Ed; exact Ed]. rewrite <- Hro. apply clean_normal.
Qed.

(* ---- read-only ---- *)

Lemma land_lor_zero flag a b : Z.land flag (Z.lor a b) = 0 -> Z.land flag a = 0 /\ Z.land flag b = 0.
Proof. intros H. rewrite Z.land_lor_distr_r in H. apply Z.lor_eq_0_iff in H. exact H. Qed.

Lemma ro_root_reads fl h o ic : ro_root fl h o = Some ic -> reads_only fl ic.
Proof.
  destruct o; cbn [ro_root]; intros H; try discriminate; try (apply some_inj in H; subst; exact I).
  destruct (write_op fl flag) eqn:E; [discriminate|]. apply some_inj in H. subst. cbn. unfold write_op in E. apply negb_false_iff, Z.eqb_eq in E.
  apply land_lor_zero in E. destruct E as [E H5]. apply land_lor_zero in E. destruct E as [E H4]. apply land_lor_zero in E. destruct E as [E H3]. apply land_lor_zero in E. destruct E as [H1 H2]. auto.
Qed.
Lemma ro_file_reads fl h o : reads_only fl (ro_file h o).
Proof. destruct o; exact I. Qed.

Lemma ro_run_reads {W C} (exec : W -> icall -> W * option nat) (content : W -> C) fl :
  (forall w ic, reads_only fl ic -> content (fst (exec w ic)) = content w) ->
  forall cs w s l w', ro_run exec fl w s cs = (l, w') -> Forall (reads_only fl) l /\ content w' = content w.
Proof.
  intros Hx. induction cs as [|[i o|i o] cs IH]; intros w s l w' H; cbn [ro_run] in H.
  - assert (l = [] /\ w' = w) as [-> ->] by (split; congruence). split; [constructor|reflexivity].
  - destruct (nth_error (roots s) i) as [h|]; [|apply (IH _ _ _ _ H)]. destruct (ro_root fl h o) as [ic|] eqn:E; [|apply (IH _ _ _ _ H)].
    pose proof (ro_root_reads _ _ _ _ E) as Hr. pose proof (Hx w ic Hr) as Hc. destruct (exec w ic) as [w1 r]. cbn [fst] in Hc.
    match type of H with (let '(_, _) := ro_run exec fl w1 ?s1 cs in _) = _ => destruct (ro_run exec fl w1 s1 cs) as [l2 w2] eqn:E2 end.
    destruct (IH _ _ _ _ E2) as [Hf Hc2]. assert (l = ic :: l2 /\ w' = w2) as [-> ->] by (split; congruence). split; [constructor; assumption|congruence].
  - destruct (nth_error (files s) i) as [h|]; [|apply (IH _ _ _ _ H)]. pose proof (Hx w _ (ro_file_reads fl h o)) as Hc. destruct (exec w (ro_file h o)) as [w1 r]. cbn [fst] in Hc.
    destruct (ro_run exec fl w1 s cs) as [l2 w2] eqn:E2. destruct (IH _ _ _ _ E2) as [Hf Hc2]. assert (l = ro_file h o :: l2 /\ w' = w2) as [-> ->] by (split; congruence).
    split; [constructor; [apply ro_file_reads|assumption]|congruence].
Qed.

(* Reads still work: a call that only reads is passed on as it is. *)
Lemma ro_root_passes fl h o : reads_only fl (IRoot h o) -> ro_root fl h o = Some (IRoot h o).
Proof.
  destruct o; cbn [reads_only ro_root]; intros H; try contradiction; try reflexivity.
  destruct H as (H1 & H2 & H3 & H4 & H5). unfold write_op. rewrite !Z.land_lor_distr_r, H1, H2, H3, H4, H5. reflexivity.
Qed.
Lemma ro_file_passes fl h o : reads_only fl (IFile h o) -> ro_file h o = IFile h o.
Proof. destruct o; cbn; intros H; try contradiction; reflexivity. Qed.
