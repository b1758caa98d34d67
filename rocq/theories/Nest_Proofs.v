From Verif Require Import Common CommonLemmas ContentRange_Model ContentRange_Proofs PathLex_Model PathLex_Proofs Views_Model Views_Spec Views_Proofs IoBridge_Model IoBridge_Spec IoBridge_Proofs Nest_Model Nest_Spec.
Open Scope Z_scope.

(* ---- calls and their paths ---- *)

Lemma same_refl c : same_call c c.
Proof. destruct c; cbn; auto. Qed.
Lemma same_sym a b : same_call a b -> same_call b a.
Proof. destruct a, b; cbn; auto. Qed.
Lemma same_trans a b c : same_call a b -> same_call b c -> same_call a c.
Proof. destruct a, b, c; cbn; try contradiction; auto; congruence. Qed.
Lemma same_eq a b : same_call a b -> paths_of a = paths_of b -> a = b.
Proof. destruct a, b; cbn; try contradiction; intros H E; inversion E; subst; auto; congruence. Qed.
Lemma same_looks fl flag a b : same_call a b -> (looks fl flag a <-> looks fl flag b).
Proof. destruct a, b; cbn; try contradiction; intros H; try tauto. subst. tauto. Qed.

Lemma elems_normal n : normal (rooted n) (elems n).
Proof. apply clean_normal. Qed.
Lemma render_elems n : render (rooted n) (elems n) = clean n.
Proof. reflexivity. Qed.
Lemma elems_render r l : normal r l -> rooted (render r l) = r /\ elems (render r l) = l.
Proof. intros H. assert (rooted (render r l) = r) as E by (apply rooted_render; exact H). split; [exact E|]. unfold elems. rewrite E. apply comps_render. exact H. Qed.
Lemma elems_clean n : rooted (clean n) = rooted n /\ elems (clean n) = elems n.
Proof. rewrite <- render_elems. apply elems_render, elems_normal. Qed.
Lemma inside_clean n : inside (clean n) <-> inside n.
Proof.
  destruct (elems_clean n) as [Hr He]. unfold inside. rewrite Hr. split; intros [H1 H2]; (split; [exact H1|]).
  - unfold elems in He. rewrite Hr, H1 in He. rewrite <- He. exact H2.
  - unfold elems in He. rewrite Hr, H1 in He. rewrite He. exact H2.
Qed.
Lemma inside_elems n : inside n <-> rooted n = false /\ Forall proper (elems n).
Proof. unfold inside, elems. split; intros [H1 H2]; (split; [exact H1|]); rewrite H1 in *; exact H2. Qed.

Lemma pp_exact p c c1 : clean p = p ->
  (pp_call p c = Some c1 <->
   same_call c c1 /\ Forall inside (paths_of c) /\ ~ removes_root c /\ paths_of c1 = map (joined p) (paths_of c)).
Proof.
  intros Hp. assert (pp_new (fun _ => true) p = Some p) as Hnew.
  { unfold pp_new. destruct p as [|b p]; [discriminate (f_equal (@length _) Hp)|]. rewrite Hp. reflexivity. }
  split.
  - intros H. destruct (pp_confined _ _ _ _ _ Hnew H) as (H1 & _ & H3 & H4 & H5). auto.
  - intros (H1 & H2 & H3 & H4). destruct (pp_complete _ _ _ _ Hnew H2 H3) as (c2 & E). destruct (pp_confined _ _ _ _ _ Hnew E) as (H5 & _ & _ & H6 & _).
    rewrite E. f_equal. apply same_eq; [eapply same_trans; [apply same_sym; exact H5|exact H1]|]. rewrite H4. exact H6.
Qed.

Lemma inside_dec n : {inside n} + {~ inside n}.
Proof. destruct (is_local (clean n)) eqn:E; [left; apply local_clean; exact E|right]. intros H. apply local_clean in H. congruence. Qed.
Lemma insides_dec l : {Forall inside l} + {~ Forall inside l}.
Proof. apply Forall_dec, inside_dec. Qed.
Lemma removes_dec c : {removes_root c} + {~ removes_root c}.
Proof.
  destruct c; cbn; try (right; tauto). destruct (rooted name); [right; intros [_ H]; discriminate|]. destruct (elems name); [left; auto|right; intros [H _]; discriminate].
Qed.
Lemma removes_inside c : removes_root c -> Forall inside (paths_of c).
Proof. destruct c; cbn; try contradiction. intros [He Hr]. constructor; [|constructor]. apply inside_elems. rewrite He. auto. Qed.
Lemma removes_dot c : pp_refusal c = RItself <-> removes_root c.
Proof.
  destruct c; cbn; try (split; [discriminate|tauto]). destruct (is_dot (clean name)) eqn:E.
  - split; [intros _|reflexivity]. apply is_dot_true in E. destruct (elems_clean name) as [Hr He]. rewrite E in Hr, He. split; [rewrite <- He; reflexivity|rewrite <- Hr; reflexivity].
  - split; [discriminate|]. intros [He Hr]. rewrite <- render_elems, He, Hr in E. discriminate.
Qed.

(* ---- looking ---- *)

Lemma ro_looks fl flag c : (exists ic, ro_root fl 0 (fsop_of flag c) = Some ic) <-> looks fl flag c.
Proof.
  split.
  - intros (ic & H). pose proof (ro_root_reads _ _ _ _ H) as Hr.
    assert (ic = IRoot 0 (fsop_of flag c)) as ->.
    { destruct c; cbn in H; try discriminate. destruct o; cbn in H; try discriminate; try (apply some_inj in H; subst; reflexivity).
      destruct (write_op fl flag); [discriminate|]. apply some_inj in H. subst. reflexivity. }
    destruct c; cbn in *; try contradiction. destruct o; cbn in *; auto.
  - intros H. exists (IRoot 0 (fsop_of flag c)). apply ro_root_passes. destruct c; cbn in *; try contradiction. destruct o; cbn in *; auto.
Qed.
Lemma looks_dec fl flag c : {looks fl flag c} + {~ looks fl flag c}.
Proof.
  destruct (ro_root fl 0 (fsop_of flag c)) as [ic|] eqn:E; [left|right].
  - apply ro_looks. eauto.
  - intros H. apply ro_looks in H. destruct H as (ic & H). congruence.
Qed.
Lemma ro_none fl flag c : ro_root fl 0 (fsop_of flag c) = None <-> ~ looks fl flag c.
Proof.
  split; intros H.
  - intros Hl. apply ro_looks in Hl. destruct Hl as (ic & Hl). congruence.
  - destruct (ro_root fl 0 (fsop_of flag c)) as [ic|] eqn:E; [|reflexivity]. exfalso. apply H, ro_looks. eauto.
Qed.

Lemma tidy_dec v : {tidy v} + {~ tidy v}.
Proof. induction v; cbn; auto. Qed.
Lemma frozen_dec v : {frozen v} + {~ frozen v}.
Proof. induction v; cbn; auto. Qed.

(* ---- sound stacks ---- *)

Fixpoint sound (v : view) : Prop :=
  match v with
  | Base => True
  | Widened v | Frozen v | Normalized v | Localized v => sound v
  | Prefixed p v => clean p = p /\ (base_of v <> None -> inside p) /\ sound v
  end.

Lemma norm_paths c : same_call c (normalizer_call c) /\ paths_of (normalizer_call c) = map clean (paths_of c).
Proof. destruct (normalizer_spec c) as (H1 & H2 & _). auto. Qed.
Lemma local_same c : localizer_call c = normalizer_call c.
Proof. exact (localizer_spec c). Qed.
Lemma norm_removes c : removes_root (normalizer_call c) <-> removes_root c.
Proof.
  destruct c; cbn; try tauto. rewrite clean_to_slash_eq. destruct (elems_clean name) as [-> ->]. tauto.
Qed.
Lemma norm_inside c : Forall inside (paths_of (normalizer_call c)) <-> Forall inside (paths_of c).
Proof.
  destruct (norm_paths c) as [_ ->]. rewrite Forall_map. split; intros H; (eapply Forall_impl; [|exact H]); intros n; apply inside_clean.
Qed.

Lemma joined_normal p n : clean p = p -> inside n -> normal (rooted p) (elems p ++ elems n).
Proof.
  intros Hp Hn. apply inside_elems in Hn. destruct Hn as [_ Hn]. destruct (elems_normal p) as (k & l & E & Hl & Hk). exists k, (l ++ elems n). rewrite E, <- app_assoc.
  split; [reflexivity|]. split; [apply Forall_app; auto|exact Hk].
Qed.
Lemma joined_elems p n : clean p = p -> inside n -> rooted (joined p n) = rooted p /\ elems (joined p n) = elems p ++ elems n.
Proof. intros Hp Hn. apply elems_render, joined_normal; assumption. Qed.
Lemma joined_inside p n : clean p = p -> inside p -> inside n -> inside (joined p n).
Proof.
  intros Hp Hi Hn. destruct (joined_elems p n Hp Hn) as [Hr He]. apply inside_elems. rewrite Hr, He. apply inside_elems in Hi. apply inside_elems in Hn. destruct Hi, Hn. split; [assumption|apply Forall_app; auto].
Qed.

Lemma pp_next p v c c1 : sound (Prefixed p v) -> pp_call p c = Some c1 -> base_of v <> None -> Forall inside (paths_of c1) /\ ~ removes_root c1.
Proof.
  intros (Hp & Hi & _) H Hb. apply (pp_exact p c c1 Hp) in H. destruct H as (Hs & Hin & Hnr & Hps). specialize (Hi Hb). split.
  - rewrite Hps, Forall_map. eapply Forall_impl; [|exact Hin]. intros n Hn. apply joined_inside; assumption.
  - intros Hr. apply Hnr. destruct c, c1; cbn in *; try contradiction. inversion Hps; subst. inversion Hin as [|? ? Hn _]; subst.
    destruct (joined_elems p name Hp Hn) as [_ He]. destruct Hr as [Hr _]. rewrite He in Hr. apply app_eq_nil in Hr. split; [apply Hr|apply Hn].
Qed.

Lemma lands_prefixed p v n q : sound (Prefixed p v) -> inside n -> (lands v (joined p n) q <-> lands (Prefixed p v) n q).
Proof.
  intros (Hp & Hi & _) Hn. destruct (joined_elems p n Hp Hn) as [Hr He]. unfold lands. cbn [base_of tidy].
  destruct (base_of v) as [[r l]|] eqn:Eb.
  - rewrite He, app_assoc. tauto.
  - rewrite Hr, He. change (render (rooted p) (elems p ++ elems n)) with (joined p n). destruct (tidy_dec v); split; intros H; try destruct H; try (split; intros); subst; auto; tauto.
Qed.
Lemma lands_clean v n q : base_of v = None -> (lands v (clean n) q <-> q = clean n).
Proof.
  intros Eb. unfold lands. rewrite Eb, render_elems, clean_idem. destruct (tidy_dec v); split; intros H; try destruct H; try (split; intros); auto; tauto.
Qed.
Lemma lands_norm v n q : lands v (clean n) q <-> match base_of v with Some (r, l) => q = render r (l ++ elems n) | None => q = clean n end.
Proof.
  destruct (base_of v) as [[r l]|] eqn:Eb; [|apply lands_clean; exact Eb]. unfold lands. rewrite Eb. destruct (elems_clean n) as [_ ->]. tauto.
Qed.

Lemma Forall2_map_l {A B C} (R : B -> C -> Prop) (f : A -> B) l m : Forall2 R (map f l) m <-> Forall2 (fun a c => R (f a) c) l m.
Proof.
  revert m. induction l as [|x l IH]; intros m; cbn; split; intros H; inversion H; subst; constructor; auto; apply IH; assumption.
Qed.
Lemma Forall2_iff {A B} (R S : A -> B -> Prop) l m : (forall a b, In a l -> (R a b <-> S a b)) -> (Forall2 R l m <-> Forall2 S l m).
Proof.
  revert m. induction l as [|x l IH]; intros m H; split; intros H1; inversion H1; subst; constructor; try (apply H; [left; reflexivity|assumption]); apply (IH _ (fun a b Ha => H a b (or_intror Ha))); assumption.
Qed.

Lemma down_spec fl flag v : sound v -> forall c c',
  down fl flag v c = inl c' <-> lets fl flag v c /\ same_call c c' /\ Forall2 (lands v) (paths_of c) (paths_of c').
Proof.
  induction v as [|v IH|p v IH|v IH|v IH|v IH]; intros Hs c c'; cbn [down].
  - split.
    + intros H. injection H as <-. split; [split; cbn; [contradiction|congruence]|]. split; [apply same_refl|]. assert (forall l, Forall2 (lands Base) l l) as HH; [|apply HH].
      induction l; constructor; [split; cbn; tauto|assumption].
    + intros (_ & Hc & Hl). f_equal. apply same_eq; [exact Hc|]. revert Hl. generalize (paths_of c) (paths_of c'). intros l m Hl. induction Hl as [|a b l m Hab _ IHl]; [reflexivity|]. destruct Hab as [_ Hab]. rewrite Hab by (cbn; tauto). f_equal. exact IHl.
  - exact (IH Hs c c').
  - pose proof Hs as (Hp & Hi & Hs'). destruct (pp_call p c) as [c1|] eqn:E.
    + pose proof E as E0. apply (pp_exact p c c1 Hp) in E. destruct E as (Hsc & Hin & Hnr & Hps). rewrite (IH Hs').
      pose proof (pp_next p v c c1 Hs E0) as Hnx. unfold lets. cbn [frozen]. rewrite (same_looks fl flag c c1 Hsc).
      assert (Forall2 (lands v) (paths_of c1) (paths_of c') <-> Forall2 (lands (Prefixed p v)) (paths_of c) (paths_of c')) as HF.
      { rewrite Hps, Forall2_map_l. apply Forall2_iff. intros a b Ha. apply lands_prefixed; [exact Hs|]. rewrite Forall_forall in Hin. auto. }
      rewrite HF. split.
      * intros ((H1 & _) & H2 & H3). split; [split; auto|]. split; [eapply same_trans; eauto|exact H3].
      * intros ((H1 & _) & H2 & H3). split; [split; auto|]. split; [eapply same_trans; [apply same_sym; exact Hsc|exact H2]|exact H3].
    + split; [discriminate|]. intros ((_ & H1) & _). exfalso. destruct H1 as [H1 H2].
      { cbn. destruct (base_of v) as [[r l]|]; discriminate. }
      assert (exists c1, pp_call p c = Some c1) as (c1 & E1); [|congruence].
      assert (pp_new (fun _ => true) p = Some p) as Hnew.
      { unfold pp_new. destruct p as [|b p]; [discriminate (f_equal (@length _) Hp)|]. rewrite Hp. reflexivity. }
      exact (pp_complete _ _ _ _ Hnew H1 H2).
  - destruct (ro_root fl 0 (fsop_of flag c)) as [ic|] eqn:E.
    + assert (looks fl flag c) as Hl by (apply ro_looks; eauto). rewrite (IH Hs). unfold lets. cbn [frozen base_of]. split.
      * intros ((H1 & H2) & H3). split; [split; auto|exact H3].
      * intros ((H1 & H2) & H3). split; [split; auto|exact H3].
    + apply ro_none in E. split; [discriminate|]. intros ((H1 & _) & _). exfalso. apply E, H1. exact I.
  - rewrite (IH Hs). destruct (norm_paths c) as [Hsc Hps]. unfold lets. cbn [frozen base_of]. rewrite (same_looks fl flag c _ Hsc), norm_inside, norm_removes, Hps, Forall2_map_l.
    assert (Forall2 (fun a q => lands v (clean a) q) (paths_of c) (paths_of c') <-> Forall2 (lands (Normalized v)) (paths_of c) (paths_of c')) as HF.
    { apply Forall2_iff. intros a b _. rewrite lands_norm. unfold lands. cbn [base_of tidy]. destruct (base_of v) as [[r l]|]; [tauto|]. rewrite render_elems. tauto. }
    rewrite HF. split; intros (H1 & H2 & H3); (split; [exact H1|]); (split; [|exact H3]); [eapply same_trans; eauto|eapply same_trans; [apply same_sym; exact Hsc|exact H2]].
  - rewrite local_same, (IH Hs). destruct (norm_paths c) as [Hsc Hps]. unfold lets. cbn [frozen base_of]. rewrite (same_looks fl flag c _ Hsc), norm_inside, norm_removes, Hps, Forall2_map_l.
    assert (Forall2 (fun a q => lands v (clean a) q) (paths_of c) (paths_of c') <-> Forall2 (lands (Localized v)) (paths_of c) (paths_of c')) as HF.
    { apply Forall2_iff. intros a b _. rewrite lands_norm. unfold lands. cbn [base_of tidy]. destruct (base_of v) as [[r l]|]; [tauto|]. rewrite render_elems. tauto. }
    rewrite HF. split; intros (H1 & H2 & H3); (split; [exact H1|]); (split; [|exact H3]); [eapply same_trans; eauto|eapply same_trans; [apply same_sym; exact Hsc|exact H2]].
Qed.

(* ---- refusals ---- *)

Lemma pp_none p c : clean p = p -> (pp_call p c = None <-> ~ Forall inside (paths_of c) \/ removes_root c).
Proof.
  intros Hp. assert (pp_new (fun _ => true) p = Some p) as Hnew.
  { unfold pp_new. destruct p as [|b p]; [discriminate (f_equal (@length _) Hp)|]. rewrite Hp. reflexivity. }
  destruct (pp_call p c) as [c1|] eqn:E.
  - split; [discriminate|]. apply (pp_exact p c c1 Hp) in E. tauto.
  - split; [intros _|reflexivity]. destruct (insides_dec (paths_of c)) as [H|H]; [|auto]. destruct (removes_dec c) as [H1|H1]; [auto|].
    destruct (pp_complete _ _ _ _ Hnew H H1) as (c1 & E1). congruence.
Qed.

Lemma refusal_two c : pp_refusal c = REscapes \/ pp_refusal c = RItself.
Proof. destruct c; cbn; auto. destruct (is_dot (clean name)); auto. Qed.

Lemma down_refusal fl flag v : sound v -> forall c c0 (seen : bool) r,
  (looks fl flag c <-> looks fl flag c0) ->
  (if seen then base_of v <> None -> Forall inside (paths_of c) /\ ~ removes_root c
   else (Forall inside (paths_of c) <-> Forall inside (paths_of c0)) /\ (removes_root c <-> removes_root c0)) ->
  (down fl flag v c = inr r <-> objects fl flag c0 seen v r).
Proof.
  induction v as [|v IH|p v IH|v IH|v IH|v IH]; intros Hs c c0 seen r Hl Hc; cbn [down].
  - split; [discriminate|]. intros H. inversion H.
  - rewrite (IH Hs c c0 seen r Hl Hc). split; [intros H; constructor; exact H|intros H; inversion H; subst; assumption].
  - pose proof Hs as (Hp & Hi & Hs'). destruct (pp_call p c) as [c1|] eqn:E.
    + pose proof (pp_next p v c c1 Hs E) as Hnx. apply (pp_exact p c c1 Hp) in E. destruct E as (Hsc & Hin & Hnr & Hps).
      rewrite (IH Hs' c1 c0 true r); [|rewrite <- Hl; symmetry; apply same_looks; exact Hsc|exact Hnx].
      destruct seen; split; intros H.
      * apply ob_again. exact H.
      * inversion H; subst; assumption.
      * apply ob_inside; tauto.
      * inversion H; subst; tauto.
    + apply (pp_none p c Hp) in E. destruct seen.
      * exfalso. assert (base_of (Prefixed p v) <> None) as Hb by (cbn; destruct (base_of v) as [[? ?]|]; discriminate). destruct (Hc Hb). tauto.
      * destruct Hc as [Hc1 Hc2]. destruct (removes_dec c) as [Hr|Hr].
        -- pose proof (proj2 (removes_dot c) Hr) as ->. pose proof (removes_inside c Hr). split.
           ++ intros H1. injection H1 as <-. apply ob_itself. tauto.
           ++ intros H1. inversion H1; subst; try tauto. 
        -- assert (pp_refusal c = REscapes) as ->. { destruct (refusal_two c) as [H|H]; [exact H|]. apply removes_dot in H. tauto. }
           split.
           ++ intros H1. injection H1 as <-. apply ob_escapes. tauto.
           ++ intros H1. inversion H1; subst; tauto.
  - destruct (ro_root fl 0 (fsop_of flag c)) as [ic|] eqn:E.
    + assert (looks fl flag c) as Hlk by (apply ro_looks; eauto). rewrite (IH Hs c c0 seen r Hl Hc). split; [intros H; apply ob_looks; tauto|]. intros H. inversion H; subst; tauto.
    + apply ro_none in E. split; [intros H; injection H as <-; apply ob_readonly; tauto|]. intros H. inversion H; subst; tauto.
  - rewrite (IH Hs (normalizer_call c) c0 seen r).
    + split; [intros H; constructor; exact H|intros H; inversion H; subst; assumption].
    + rewrite <- Hl. symmetry. apply same_looks, norm_paths.
    + destruct seen; rewrite norm_inside, norm_removes; exact Hc.
  - rewrite local_same, (IH Hs (normalizer_call c) c0 seen r).
    + split; [intros H; constructor; exact H|intros H; inversion H; subst; assumption].
    + rewrite <- Hl. symmetry. apply same_looks, norm_paths.
    + destruct seen; rewrite norm_inside, norm_removes; exact Hc.
Qed.

Lemma refusal_spec fl flag v c r : sound v -> (down fl flag v c = inr r <-> objects fl flag c false v r).
Proof. intros Hs. apply (down_refusal fl flag v Hs c c false r); [tauto|]. split; tauto. Qed.

(* ---- building ---- *)

Lemma alike_refl v : alike v v.
Proof. split; reflexivity. Qed.
Lemma widen_alike nt v : alike (widen nt v) v.
Proof. unfold widen. destruct (wide nt v); split; reflexivity. Qed.
Lemma widen_sound nt v : sound v -> sound (widen nt v).
Proof. unfold widen. destruct (wide nt v); auto. Qed.
Lemma widen_base nt v : base_of (widen nt v) = base_of v.
Proof. unfold widen. destruct (wide nt v); reflexivity. Qed.
Lemma widen_frozen nt v : frozen (widen nt v) <-> frozen v.
Proof. unfold widen. destruct (wide nt v); cbn; tauto. Qed.
Lemma widen_tidy nt v : tidy (widen nt v) <-> tidy v.
Proof. unfold widen. destruct (wide nt v); cbn; tauto. Qed.
Lemma widen_lands nt v n q : lands (widen nt v) n q <-> lands v n q.
Proof. unfold widen. destruct (wide nt v); [tauto|]. unfold lands. cbn. tauto. Qed.

Lemma new_prefix_spec is_dir fl v d v' : sound v ->
  (new_prefix is_dir fl v d = Some v' <->
   d <> [] /\ v' = Prefixed (clean d) v /\ (base_of v <> None -> inside d) /\ exists q, lands v (clean d) q /\ is_dir q = true).
Proof.
  intros Hs. unfold new_prefix, pp_new. destruct d as [|b d].
  { split; [discriminate|]. intros (H & _). contradiction. }
  set (dd := b :: d). destruct (down fl 0 v (V1 Stat (clean dd))) as [c'|r] eqn:E.
  - apply (down_spec fl 0 v Hs) in E. destruct E as ((_ & Hb) & Hsc & HF). destruct c'; cbn in Hsc, HF; try contradiction. subst o. inversion HF as [|? ? ? ? Hq _]; subst. clear HF.
    assert (base_of v <> None -> inside dd) as Hin. { intros H. destruct (Hb H) as [H1 _]. inversion H1; subst. apply inside_clean. assumption. }
    destruct (is_dir name) eqn:Ed; split.
    + intros H. apply some_inj in H. subst v'. split; [discriminate|]. split; [reflexivity|]. split; [exact Hin|]. eauto.
    + intros (_ & -> & _). reflexivity.
    + discriminate.
    + intros (_ & _ & _ & q & Hq2 & Hd). exfalso. assert (q = name); [|congruence]. apply lands_norm in Hq. apply lands_norm in Hq2. destruct (base_of v) as [[? ?]|]; congruence.
  - split; [discriminate|]. intros (_ & _ & Hin & q & Hq & Hd). exfalso.
    assert (down fl 0 v (V1 Stat (clean dd)) = inl (V1 Stat q)) as H; [|congruence]. apply (down_spec fl 0 v Hs). split.
    + split; cbn; [intros _; exact I|]. intros H. split; [constructor; [apply inside_clean; auto|constructor]|tauto].
    + split; [reflexivity|]. constructor; [exact Hq|constructor].
Qed.
Lemma new_prefix_sound is_dir fl v d v' : sound v -> new_prefix is_dir fl v d = Some v' -> sound v'.
Proof.
  intros Hs H. apply (new_prefix_spec is_dir fl v d v' Hs) in H. destruct H as (_ & -> & H & _). cbn. split; [apply clean_idem|]. split; [|exact Hs]. intros Hb. apply inside_clean. auto.
Qed.

Lemma alike_prefixed p v w : alike v w -> alike (Prefixed p v) (Prefixed p w).
Proof. intros [H1 H2]. split; cbn; [|exact H2]. intros fl flag c. destruct (pp_call p c); [apply H1|reflexivity]. Qed.
Lemma alike_trans u v w : alike u v -> alike v w -> alike u w.
Proof. intros [H1 H2] [H3 H4]. split; intros; etransitivity; eauto. Qed.
Lemma alike_sym u v : alike u v -> alike v u.
Proof. intros [H1 H2]. split; intros; symmetry; auto. Qed.

(* Sub is the prefix view of the clean name, widened or not. *)
Lemma sub_spec is_dir nt fl v d : sound v ->
  match sub is_dir nt fl v d with
  | Some v' => new_prefix is_dir fl v d = Some (Prefixed (clean d) v) /\ alike v' (Prefixed (clean d) v) /\ sound v' /\
               base_of v' = base_of (Prefixed (clean d) v) /\ (frozen v' <-> frozen v) /\ (tidy v' <-> tidy v)
  | None => new_prefix is_dir fl v d = None
  end.
Proof.
  intros Hs. assert (forall v, sound v -> match new_prefix is_dir fl v d with
    | Some v' => new_prefix is_dir fl v d = Some (Prefixed (clean d) v) /\ alike v' (Prefixed (clean d) v) /\ sound v' /\
               base_of v' = base_of (Prefixed (clean d) v) /\ (frozen v' <-> frozen v) /\ (tidy v' <-> tidy v)
    | None => new_prefix is_dir fl v d = None end) as Hdir.
  { clear v Hs. intros v Hs. destruct (new_prefix is_dir fl v d) as [v'|] eqn:E; [|reflexivity]. pose proof (new_prefix_sound _ _ _ _ _ Hs E) as Hs'.
    apply (new_prefix_spec is_dir fl v d v' Hs) in E. destruct E as (_ & -> & _). split; [reflexivity|]. split; [apply alike_refl|]. split; [exact Hs'|]. cbn [frozen tidy]. tauto. }
  induction v as [|v IH|p v IH|v IH|v IH|v IH]; try exact (Hdir _ Hs).
  cbn [sub]. specialize (IH Hs). cbn [base_of frozen tidy] in *.
  assert (new_prefix is_dir fl (Widened v) d = match new_prefix is_dir fl v d with Some _ => Some (Prefixed (clean d) (Widened v)) | None => None end) as Hw.
  { unfold new_prefix, pp_new. cbn [down]. destruct d; [reflexivity|]. destruct (match down fl 0 v (V1 Stat (clean _)) with inl (V1 _ q) => is_dir q | _ => false end); reflexivity. }
  rewrite Hw. destruct (sub is_dir nt fl v d) as [v1|].
  - destruct IH as (H1 & H2 & H3 & H4 & H5 & H6). rewrite H1. split; [reflexivity|]. split.
    { eapply alike_trans; [apply widen_alike|]. eapply alike_trans; [exact H2|]. split; reflexivity. }
    split; [apply widen_sound; exact H3|]. rewrite widen_base, widen_frozen, widen_tidy. auto.
  - rewrite IH. reflexivity.
Qed.
Lemma sub_sound is_dir nt fl v d v' : sound v -> sub is_dir nt fl v d = Some v' -> sound v'.
Proof. intros Hs H. pose proof (sub_spec is_dir nt fl v d Hs) as Hx. rewrite H in Hx. apply Hx. Qed.

Lemma put_sound is_dir nt fl w v v' : sound v -> put is_dir nt fl w v = Some v' -> sound v'.
Proof.
  intros Hs H. destruct w; cbn in H; try (apply some_inj in H; subst; exact Hs).
  - apply some_inj in H. subst. apply widen_sound. exact Hs.
  - eapply sub_sound; eauto.
  - eapply new_prefix_sound; eauto.
Qed.
Lemma build_sound is_dir nt fl ws : forall v v', sound v -> build is_dir nt fl ws v = Some v' -> sound v'.
Proof.
  induction ws as [|w ws IH]; cbn; intros v v' Hs H; [apply some_inj in H; subst; exact Hs|].
  destruct (put is_dir nt fl w v) as [v1|] eqn:E; [|discriminate]. eapply IH; [|exact H]. eapply put_sound; eauto.
Qed.

(* ---- nested subs ---- *)

Lemma joined_clean a b : joined (clean a) (clean b) = joined a b.
Proof. unfold joined. destruct (elems_clean a) as [-> ->], (elems_clean b) as [_ ->]. reflexivity. Qed.

Lemma pp_stays b c c1 : clean b = b -> inside b -> pp_call b c = Some c1 -> Forall inside (paths_of c1) /\ ~ removes_root c1.
Proof.
  intros Hb Hi E. apply (pp_next b (Prefixed [dot] Base) c c1); [|exact E|discriminate]. split; [exact Hb|]. split; [auto|]. split; [reflexivity|]. split; [|exact I]. intros H. contradiction.
Qed.
Lemma pp_twice a b c : clean a = a -> clean b = b -> inside b ->
  pp_call (joined a b) c = match pp_call b c with Some c1 => pp_call a c1 | None => None end.
Proof.
  intros Ha Hb Hi. assert (clean (joined a b) = joined a b) as Hj by (apply clean_render, joined_normal; assumption).
  destruct (pp_call b c) as [c1|] eqn:E.
  - destruct (pp_stays b c c1 Hb Hi E) as [Hin1 Hnr1]. apply (pp_exact b c c1 Hb) in E. destruct E as (Hsc & Hin & Hnr & Hps).
    destruct (pp_call a c1) as [c2|] eqn:E2.
    + apply (pp_exact a c1 c2 Ha) in E2. destruct E2 as (Hsc2 & _ & _ & Hps2). apply (pp_exact _ c c2 Hj). split; [eapply same_trans; eauto|]. split; [exact Hin|]. split; [exact Hnr|].
      rewrite Hps2, Hps, map_map. apply map_ext_in. intros n Hn. rewrite Forall_forall in Hin. specialize (Hin n Hn).
      destruct (joined_elems a b Ha Hi) as [Hr He]. destruct (joined_elems b n Hb Hin) as [_ He2]. unfold joined at 1. unfold joined at 2. rewrite Hr, He, He2, app_assoc. reflexivity.
    + apply (pp_none a c1 Ha) in E2. tauto.
  - apply (pp_none _ _ Hj). apply (pp_none _ _ Hb) in E. exact E.
Qed.

Lemma prefix_twice a b v : clean a = a -> clean b = b -> inside b -> alike (Prefixed b (Prefixed a v)) (Prefixed (joined a b) v).
Proof.
  intros Ha Hb Hi. split; [|reflexivity]. intros fl flag c. cbn [down]. rewrite (pp_twice a b c Ha Hb Hi). destruct (pp_call b c) as [c1|] eqn:E; [|reflexivity].
  destruct (pp_call a c1) as [c2|] eqn:E2; [reflexivity|]. exfalso. destruct (pp_stays b c c1 Hb Hi E) as [H1 H2]. apply (pp_none a c1 Ha) in E2. tauto.
Qed.

Lemma lands_alike v w n q : base_of v = base_of w -> (tidy v <-> tidy w) -> (lands v n q <-> lands w n q).
Proof. intros Hb Ht. unfold lands. rewrite Hb. destruct (base_of w) as [[? ?]|]; tauto. Qed.

Lemma sub_twice is_dir nt fl v a b va : sound v -> sub is_dir nt fl v a = Some va -> b <> [] ->
  (forall vb, sub is_dir nt fl va b = Some vb -> inside b /\ exists vab, sub is_dir nt fl v (joined a b) = Some vab /\ alike vb vab) /\
  (forall vab, inside b -> sub is_dir nt fl v (joined a b) = Some vab -> exists vb, sub is_dir nt fl va b = Some vb /\ alike vb vab).
Proof.
  intros Hs Ha Hbn. pose proof (sub_sound _ _ _ _ _ _ Hs Ha) as Hsa. pose proof (sub_spec is_dir nt fl v a Hs) as Sa. rewrite Ha in Sa.
  destruct Sa as (Na & La & _ & Ba & _ & Ta). apply (new_prefix_spec is_dir fl v a _ Hs) in Na. destruct Na as (Hane & _ & Hia & qa & Hqa & Hda).
  assert (base_of va <> None) as Hbva by (rewrite Ba; cbn; destruct (base_of v) as [[? ?]|]; discriminate).
  assert (joined a b <> []) as Hjn. { intros E. pose proof (f_equal clean E) as H. rewrite <- (joined_clean a b) in E. unfold joined in E. pose proof (clean_nonempty a). unfold render in E. destruct (rooted (clean a)); [discriminate|]. destruct (elems (clean a) ++ elems (clean b)) as [|x l] eqn:El; [discriminate|]. 
    assert (normal (rooted a) (elems a)) as Hn by apply elems_normal. revert El. destruct (elems_clean a) as [_ ->], (elems_clean b) as [_ ->]. intros El. 
    assert (exists y m, elems a ++ elems b = y :: m /\ y <> []) as (y & m & Ey & Hy).
    { exists x, l. split; [exact El|]. destruct (elems a) as [|e ea] eqn:Eea.
      - cbn in El. pose proof (elems_normal b) as (k & l' & E1 & Hp & _). rewrite El in E1. destruct k; cbn in E1; [subst l'; inversion Hp as [|? ? (Hx & _) _]; subst; exact Hx|injection E1 as -> _; discriminate].
      - injection El as -> _. pose proof (elems_normal a) as (k & l' & E1 & Hp & _). rewrite Eea in E1. destruct k; cbn in E1; [subst l'; inversion Hp as [|? ? (Hx & _) _]; subst; exact Hx|injection E1 as -> _; discriminate]. }
    rewrite El in Ey. injection Ey as <- <-. destruct x; [contradiction|]. destruct l; discriminate. }
  assert (inside b -> clean (joined a b) = joined (clean a) (clean b)) as Hcj.
  { intros Hi. rewrite <- joined_clean. apply clean_render, joined_normal; [apply clean_idem|apply inside_clean; exact Hi]. }
  assert (inside b -> rooted (joined a b) = rooted a /\ elems (joined a b) = elems a ++ elems b) as Hje.
  { intros Hi. destruct (elems_clean a) as [<- <-], (elems_clean b) as [_ <-]. rewrite <- joined_clean. apply joined_elems; [apply clean_idem|apply inside_clean; exact Hi]. }
  assert (inside b -> (base_of v <> None -> inside (joined a b)) ) as Hij.
  { intros Hi Hb. rewrite <- joined_clean. apply joined_inside; [apply clean_idem| |]; apply inside_clean; auto. }
  assert (inside b -> forall q, lands va (clean b) q <-> lands v (clean (joined a b)) q) as Hlq.
  { intros Hi q. rewrite (lands_alike va (Prefixed (clean a) v) (clean b) q Ba Ta), !lands_norm. cbn [base_of]. destruct (Hje Hi) as [_ ->]. destruct (elems_clean a) as [-> ->].
    destruct (base_of v) as [[r l]|]; [rewrite app_assoc; tauto|]. rewrite (Hcj Hi), joined_clean. unfold joined. tauto. }
  assert (inside b -> forall vb vab, alike vb (Prefixed (clean b) va) -> alike vab (Prefixed (clean (joined a b)) v) -> alike vb vab) as Hal.
  { intros Hi vb vab H1 H2. eapply alike_trans; [exact H1|]. eapply alike_trans; [apply alike_prefixed; exact La|]. apply alike_sym. eapply alike_trans; [exact H2|]. apply alike_sym. rewrite (Hcj Hi).
    apply prefix_twice; [apply clean_idem|apply clean_idem|apply inside_clean; exact Hi]. }
  pose proof (sub_spec is_dir nt fl va b Hsa) as Sb. pose proof (sub_spec is_dir nt fl v (joined a b) Hs) as Sj. split.
  - intros vb Hb. rewrite Hb in Sb. destruct Sb as (Nb & Lb & _). apply (new_prefix_spec is_dir fl va b _ Hsa) in Nb. destruct Nb as (_ & _ & Hi & q & Hq & Hd). specialize (Hi Hbva). split; [exact Hi|].
    assert (new_prefix is_dir fl v (joined a b) = Some (Prefixed (clean (joined a b)) v)) as Nj.
    { apply (new_prefix_spec is_dir fl v (joined a b) _ Hs). split; [exact Hjn|]. split; [reflexivity|]. split; [exact (Hij Hi)|]. exists q. split; [apply (Hlq Hi); exact Hq|exact Hd]. }
    destruct (sub is_dir nt fl v (joined a b)) as [vab|]; [|congruence]. exists vab. split; [reflexivity|]. apply (Hal Hi); tauto.
  - intros vab Hi Hj. rewrite Hj in Sj. destruct Sj as (Nj & Lj & _). apply (new_prefix_spec is_dir fl v (joined a b) _ Hs) in Nj. destruct Nj as (_ & _ & _ & q & Hq & Hd).
    assert (new_prefix is_dir fl va b = Some (Prefixed (clean b) va)) as Nb.
    { apply (new_prefix_spec is_dir fl va b _ Hsa). split; [exact Hbn|]. split; [reflexivity|]. split; [auto|]. exists q. split; [apply (Hlq Hi); exact Hq|exact Hd]. }
    destruct (sub is_dir nt fl va b) as [vb|]; [|congruence]. exists vb. split; [reflexivity|]. apply (Hal Hi); tauto.
Qed.

(* ---- handles ---- *)

Lemma file_down_spec v o : (frozen v -> looks_file (file_down v o)) /\ (looks_file o \/ ~ frozen v -> file_down v o = o).
Proof.
  assert (forall v o, looks_file o -> file_down v o = o) as Hlook.
  { clear. induction v; intros o Ho; cbn [file_down]; auto. destruct o; cbn in *; try contradiction; auto. }
  revert o. induction v as [|v IH|p v IH|v IH|v IH|v IH]; intros o; cbn [file_down frozen]; try exact (IH o).
  - tauto.
  - split.
    + intros _. destruct o; cbn; rewrite Hlook; cbn; auto.
    + intros [H|H]; [|tauto]. destruct o; cbn in *; try contradiction; auto.
Qed.

(* ---- helpers ---- *)

Lemma open_lands fl v name : sound v -> forall c', down fl 0 v (V1 Open name) = inl c' -> exists p, c' = V1 Open p /\ lands v name p.
Proof.
  intros Hs c' H. apply (down_spec fl 0 v Hs) in H. destruct H as (_ & Hsc & HF). destruct c'; cbn in Hsc, HF; try contradiction. subst. inversion HF; subst. eauto.
Qed.

Lemma read_all_spec {A} (f : list A -> list A) opened fl v name : sound v ->
  (exists r, objects fl 0 (V1 Open name) false v r /\ read_all f opened fl v name = ([], ([], Some (ERefused r)))) \/
  (lets fl 0 v (V1 Open name) /\ exists p, lands v name p /\
   match opened p with
   | inr e => read_all f opened fl v name = ([BOpen p], ([], Some (EBase e)))
   | inl (l, e) => read_all f opened fl v name = ([BOpen p; BRead; BClose], (f l, as_err e))
   end).
Proof.
  intros Hs. unfold read_all. destruct (down fl 0 v (V1 Open name)) as [c'|r] eqn:E.
  - right. pose proof (open_lands fl v name Hs c' E) as (p & -> & Hp). apply (down_spec fl 0 v Hs) in E. split; [apply E|]. exists p. split; [exact Hp|]. destruct (opened p) as [[l e]|e]; reflexivity.
  - left. exists r. split; [apply refusal_spec; assumption|reflexivity].
Qed.

Lemma lets_widened fl flag v c : lets fl flag (Widened v) c <-> lets fl flag v c.
Proof. reflexivity. Qed.

Lemma reads_all {A} (f : list A -> list A) opened fl ol v name : sound v -> reads_as f opened fl ol v name (read_all f opened fl v name).
Proof.
  intros Hs. destruct (read_all_spec f opened fl v name Hs) as [H|(H1 & p & H2 & H3)]; [left; exact H|right]. split; [exact H1|]. exists p. split; [exact H2|].
  destruct (opened p) as [[l e]|e]; rewrite H3; cbn; auto.
Qed.
Lemma reads_widened {A} (f : list A -> list A) opened fl ol v name res : reads_as f opened fl ol v name res -> reads_as f opened fl ol (Widened v) name res.
Proof.
  intros [(r & H & E)|H]; [left; exists r; split; [constructor; exact H|exact E]|right; exact H].
Qed.
Lemma reads_own {A} (f : list A -> list A) opened own fl ol name : own_agrees f opened own ->
  reads_as f opened fl ol Base name ([ol name], (fst (own name), as_err (snd (own name)))).
Proof.
  intros Ho. right. split; [split; cbn; [contradiction|congruence]|]. exists name. split; [split; cbn; tauto|]. cbn. rewrite Ho. split; [|auto]. destruct (opened name) as [[l e]|e]; reflexivity.
Qed.

Lemma read_file_spec opened own nt fl v name : sound v -> own_agrees (fun l => l) opened own ->
  reads_as (fun l => l) opened fl BReadFile v name (read_file opened own nt fl v name).
Proof.
  intros Hs Ho. induction v as [|v IH|p v IH|v IH|v IH|v IH]; try exact (reads_all _ _ _ _ _ _ Hs).
  - cbn [read_file]. destruct (n_readfile nt); [apply reads_own; exact Ho|exact (reads_all _ _ _ _ _ _ Hs)].
  - apply reads_widened. exact (IH Hs).
Qed.
Lemma list_dir_spec {A} sort (opened : list byte -> (list (dirent A) * option nat) + nat) own nt fl v name : sound v ->
  own_agrees (fun l => if (2 <=? length l)%nat then sort l else l) opened own ->
  reads_as (fun l => if (2 <=? length l)%nat then sort l else l) opened fl BReadDir v name (list_dir sort opened own nt fl v name).
Proof.
  intros Hs Ho. induction v as [|v IH|p v IH|v IH|v IH|v IH]; try exact (reads_all _ _ _ _ _ _ Hs).
  - cbn [list_dir]. destruct (n_readdir nt); [apply (reads_own _ _ _ _ BReadDir); exact Ho|exact (reads_all _ _ _ _ _ _ Hs)].
  - apply reads_widened. exact (IH Hs).
Qed.

Lemma write_file_spec opened wrote closed fl v name data : sound v ->
  let '(log, err) := write_file opened wrote closed fl v name data in
  (exists r, objects fl (write_flag fl) (V1 OpenFile name) false v r /\ log = [] /\ err = Some (ERefused r)) \/
  (lets fl (write_flag fl) v (V1 OpenFile name) /\ exists p, lands v name p /\
   (err = None <-> opened = None /\ wrote = None /\ closed = None) /\
   (opened <> None -> log = [BOpenFile p (write_flag fl)]) /\
   (opened = None -> log = [BOpenFile p (write_flag fl); BWrite data; BClose])).
Proof.
  intros Hs. unfold write_file. destruct (down fl (write_flag fl) v (V1 OpenFile name)) as [c'|r] eqn:E.
  - apply (down_spec fl _ v Hs) in E. destruct E as (Hl & Hsc & HF). destruct c'; cbn in Hsc, HF; try contradiction. inversion HF as [|? ? ? ? Hp _]; subst.
    destruct opened as [e|]; right; (split; [exact Hl|]); exists name0; (split; [exact Hp|]).
    + split; [split; [discriminate|intros (? & _); discriminate]|]. split; [reflexivity|discriminate].
    + split; [|split; [congruence|reflexivity]]. destruct wrote, closed; cbn; split; try discriminate; try tauto; intros (H1 & H2 & H3); congruence.
  - left. exists r. split; [apply refusal_spec; assumption|auto].
Qed.
Lemma write_frozen fl v name : frozen v -> f_wronly fl <> 0 -> ~ lets fl (write_flag fl) v (V1 OpenFile name).
Proof.
  intros Hf Hw [H _]. destruct (H Hf) as [H1 _]. apply Hw. unfold write_flag in H1. rewrite Z.land_lor_distr_l, Z.land_lor_distr_l in H1.
  apply Z.lor_eq_0_iff in H1. destruct H1 as [H1 _]. apply Z.lor_eq_0_iff in H1. destruct H1 as [H1 _]. rewrite Z.land_diag in H1. exact H1.
Qed.

Lemma built is_dir nt fl ws v : build is_dir nt fl ws Base = Some v -> sound v.
Proof. intros H. exact (build_sound is_dir nt fl ws Base v I H). Qed.

Lemma readonly_over_prefix is_dir nt fl ws v p vp vf : build is_dir nt fl ws Base = Some v ->
  put is_dir nt fl (AddPrefix p) v = Some vp -> put is_dir nt fl (AddPrefix p) (Frozen v) = Some vf ->
  forall flag c c', down fl flag (Frozen vp) c = inl c' <-> down fl flag vf c = inl c'.
Proof.
  intros Hb Hp Hf flag c c'. pose proof (built _ _ _ _ _ Hb) as Hs. pose proof (put_sound _ _ _ _ _ _ Hs Hp) as Hsp. assert (sound (Frozen v)) as Hsz by exact Hs. pose proof (put_sound _ _ _ _ _ _ Hsz Hf) as Hsf.
  cbn in Hp, Hf. apply (new_prefix_spec is_dir fl v p vp Hs) in Hp. destruct Hp as (_ & -> & _). apply (new_prefix_spec is_dir fl (Frozen v) p vf Hsz) in Hf. destruct Hf as (_ & -> & _).
  rewrite (down_spec fl flag (Frozen (Prefixed (clean p) v)) Hsp), (down_spec fl flag _ Hsf). reflexivity.
Qed.

Lemma sub_shows is_dir nt fl v d v' : sound v -> sub is_dir nt fl v d = Some v' ->
  (forall name q, lands v' name q <-> match base_of v with Some (r, l) => q = render r (l ++ elems d ++ elems name) | None => q = render (rooted d) (elems d ++ elems name) end) /\
  (frozen v' <-> frozen v) /\ base_of v' <> None.
Proof.
  intros Hs H. pose proof (sub_spec is_dir nt fl v d Hs) as Hx. rewrite H in Hx. destruct Hx as (_ & _ & _ & Hb & Hf & _). split; [|split; [exact Hf|rewrite Hb; cbn; destruct (base_of v) as [[? ?]|]; discriminate]].
  intros name q. unfold lands. rewrite Hb. cbn [base_of]. destruct (elems_clean d) as [-> ->]. destruct (base_of v) as [[r l]|]; [rewrite app_assoc|]; tauto.
Qed.

Lemma widen_reads opened own nt fl v name : read_file opened own nt fl (widen nt v) name = read_file opened own nt fl v name.
Proof. unfold widen. destruct (wide nt v); reflexivity. Qed.
Lemma widen_lists {A} sort (opened : list byte -> (list (dirent A) * option nat) + nat) own nt fl v name : list_dir sort opened own nt fl (widen nt v) name = list_dir sort opened own nt fl v name.
Proof. unfold widen. destruct (wide nt v); reflexivity. Qed.
Lemma widen_subs is_dir nt fl v d :
  match sub is_dir nt fl (widen nt v) d, sub is_dir nt fl v d with Some a, Some b => alike a b | None, None => True | _, _ => False end.
Proof.
  unfold widen. destruct (wide nt v).
  - destruct (sub is_dir nt fl v d); [apply alike_refl|exact I].
  - cbn [sub]. destruct (sub is_dir nt fl v d); [apply widen_alike|exact I].
Qed.
Lemma widen_wide nt v : wide nt (widen nt v) = true.
Proof. unfold widen. destruct (wide nt v) eqn:E; [exact E|reflexivity]. Qed.

Lemma wide_spec nt v : wide nt v = true <-> hands_files nt v.
Proof. induction v; cbn; try tauto. split; [discriminate|contradiction]. Qed.

Lemma sub_type is_dir nt fl v d v' : sub is_dir nt fl v d = Some v' -> (hands_files nt v' <-> hands_files nt v).
Proof.
  assert (forall v, new_prefix is_dir fl v d = Some v' -> (hands_files nt v' <-> hands_files nt v)) as Hn.
  { intros w. unfold new_prefix. destruct (pp_new _ d); [|discriminate]. intros H. apply some_inj in H. subst. reflexivity. }
  destruct v; cbn [sub]; try apply Hn. destruct (sub is_dir nt fl v d) as [v1|]; [|discriminate]. intros H. apply some_inj in H. subst v'. cbn [hands_files]. rewrite <- wide_spec, widen_wide. tauto.
Qed.

Lemma put_adds is_dir nt fl w v v' : sound v -> put is_dir nt fl w v = Some v' -> added nt w v v'.
Proof.
  intros Hs H. destruct w; cbn [put added] in *; try (apply some_inj in H; subst v'; cbn; tauto).
  - apply some_inj in H. subst v'. split; [apply widen_base|]. split; [apply widen_frozen|]. split; [apply widen_tidy|]. split; [apply wide_spec, widen_wide|]. intros Hh. unfold widen. apply wide_spec in Hh. rewrite Hh. reflexivity.
  - pose proof (sub_spec is_dir nt fl v dir Hs) as Hx. rewrite H in Hx. destruct Hx as (_ & _ & _ & Hb & Hf & Ht). split; [|split; [exact Hf|split; [exact Ht|eapply sub_type; eauto]]].
    unfold shows_below. rewrite Hb. cbn [base_of]. destruct (elems_clean dir) as [-> ->]. reflexivity.
  - apply (new_prefix_spec is_dir fl v prefix v' Hs) in H. destruct H as (_ & -> & _). split; [|cbn; tauto]. unfold shows_below. cbn [base_of]. destruct (elems_clean prefix) as [-> ->]. reflexivity.
Qed.

Lemma write_flag_bits fl n : Z.testbit (write_flag fl) n = Z.testbit (f_wronly fl) n || Z.testbit (f_create fl) n || Z.testbit (f_trunc fl) n.
Proof. unfold write_flag. rewrite !Z.lor_spec. reflexivity. Qed.
