(* Proofs that ResolvePath agrees with a kernel-style walk. *)
From Verif Require Import Common CommonLemmas ContentRange_Model ContentRange_Proofs PathLex_Model PathLex_Proofs
  Resolve_Model Resolve_Spec Resolve_Proofs.
Open Scope nat_scope.

Lemma proper_not_dot c : proper c -> c <> [dot]. Proof. intros H. apply H. Qed.
Lemma proper_not_up c : proper c -> c <> [dot; dot]. Proof. intros H. apply H. Qed.

Lemma kw_dot_iff t fl d rest n r : kw t fl d ([dot] :: rest) n r <-> kw t fl d rest n r.
Proof.
  split; [|apply kw_dot]. intros H. inversion H; subst; try assumption;
    match goal with Hp : proper [dot] |- _ => destruct (proper_not_dot _ Hp eq_refl) end.
Qed.

Lemma kw_up_iff t fl d c rest n r : kw t fl (d ++ [c]) ([dot; dot] :: rest) n r <-> kw t fl d rest n r.
Proof.
  split; [|apply kw_up]. intros H. inversion H as [|? ? ? ? H0|? ? ? ? ? H0|? ? ? ? ? Hp|? ? Hp|? ? ? Hp|? ? ? ? ? ? Hp]; subst;
    try (destruct (proper_not_up _ Hp eq_refl)).
  match goal with He : _ ++ [_] = _ ++ [_] |- _ => apply app_inj_tail in He; destruct He; subst end. assumption.
Qed.

Lemma kw_dir_iff t fl d c rest n r : proper c -> t (d ++ [c]) = Some KDir ->
  (kw t fl d (c :: rest) n r <-> kw t fl (d ++ [c]) rest n r).
Proof.
  intros Hc Ht. split; [|apply kw_dir; assumption]. intros H.
  inversion H; subst; try congruence.
  - destruct (proper_not_dot _ Hc eq_refl).
  - destruct (proper_not_up _ Hc eq_refl).
Qed.

Lemma kw_link_iff t fl d c l rest n r : proper c -> t (d ++ [c]) = Some (KLink l) -> rooted l = false -> (rest <> [] \/ fl = true) ->
  (kw t fl d (c :: rest) n r <-> exists m, n = S m /\ kw t fl d (split_sep l ++ rest) m r).
Proof.
  intros Hc Ht Hl Hr. split.
  - intros H. inversion H; subst; try congruence.
    + destruct (proper_not_dot _ Hc eq_refl).
    + destruct (proper_not_up _ Hc eq_refl).
    + destruct Hr as [Hr|Hr]; [contradiction|congruence].
    + match goal with He : t (d ++ [c]) = Some (KLink ?l0), Hk : kw _ _ _ (split_sep ?l0 ++ _) ?m _ |- _ =>
        rewrite Ht in He; injection He as <-; exists m; auto end.
  - intros (m & -> & H). eapply kw_link; eauto.
Qed.

(* Composition: first part fully followed, ending in a directory. *)
Lemma kw_compose t d pd j D : kw t true d pd j D -> t D = Some KDir ->
  forall fl rest, (rest <> [] \/ fl = true) ->
  forall M r, kw t fl d (pd ++ rest) M r <-> exists N, M = j + N /\ kw t fl D rest N r.
Proof.
  induction 1 as [d|d pd j D H IH|d c pd j D H IH|d c pd j D Hc Ht H IH|d c Hc Ht|d c l Hc Ht Hf|d c l pd j D Hc Ht Hl Hr H IH];
    intros HD fl rest Hrest M r.
  - cbn [app]. split; [intros H; exists M; auto|]. intros (N & -> & H). exact H.
  - cbn [app]. rewrite kw_dot_iff. apply IH; assumption.
  - cbn [app]. rewrite kw_up_iff. apply IH; assumption.
  - cbn [app]. rewrite (kw_dir_iff t fl d c _ _ _ Hc Ht). apply IH; assumption.
  - congruence.
  - congruence.
  - cbn [app]. assert (pd ++ rest <> [] \/ fl = true) as Hr2.
    { destruct Hrest as [Hx|Hx]; [left; destruct pd; [exact Hx|discriminate]|right; exact Hx]. }
    rewrite (kw_link_iff t fl d c l _ _ _ Hc Ht Hl Hr2). rewrite app_assoc. split.
    + intros (m & -> & Hk). apply (IH HD fl rest Hrest) in Hk. destruct Hk as (N & -> & Hk). exists N. split; [lia|exact Hk].
    + intros (N & -> & Hk). exists (j + N). split; [lia|]. apply (IH HD fl rest Hrest). exists N. auto.
Qed.

(* Decomposition of a walk that ends in a symlink. *)
Lemma kw_keep_dir t d rest n r : tree_ok t -> t d = Some KDir -> kw t false d rest n r -> t r <> None.
Proof.
  intros [_ Hok] Hd H. revert Hd. induction H; intros Hd; try congruence.
  - apply IHkw. exact Hd.
  - apply IHkw. apply (Hok d c). congruence.
  - apply IHkw. assumption.
  - apply IHkw. exact Hd.
Qed.

Lemma kw_split_last t d l n r x pd : tree_ok t -> t d = Some KDir -> kw t false d l n r -> l = pd ++ [x] -> proper x ->
  exists D j m, kw t true d pd j D /\ t D = Some KDir /\ kw t false D [x] m r /\ n = j + m.
Proof.
  intros [Hroot Hok] Hd H. revert pd Hd. induction H as [d|d rest n r H IH|d c rest n r H IH|d c rest n r Hc Ht H IH|d c Hc Ht|d c k Hc Ht Hf|d c k rest n r Hc Ht Hl Hr H IH];
    intros pd Hd El Hx.
  - destruct pd; discriminate.
  - destruct pd as [|y pd]; cbn [app] in El; injection El as E1 E2.
    + subst x. destruct (proper_not_dot _ Hx eq_refl).
    + subst y. destruct (IH pd Hd E2 Hx) as (D & j & m & H1 & H2 & H3 & H4). exists D, j, m. split; [apply kw_dot; exact H1|]. auto.
  - destruct pd as [|y pd]; cbn [app] in El; injection El as E1 E2.
    + subst x. destruct (proper_not_up _ Hx eq_refl).
    + subst y. assert (t d = Some KDir) as Hd' by (apply (Hok d c); congruence).
      destruct (IH pd Hd' E2 Hx) as (D & j & m & H1 & H2 & H3 & H4). exists D, j, m. split; [apply kw_up; exact H1|]. auto.
  - destruct pd as [|y pd]; cbn [app] in El; injection El as E1 E2.
    + subst x rest. exists d, 0, n. split; [apply kw_nil|]. split; [exact Hd|]. split; [apply kw_dir; assumption|reflexivity].
    + subst y. destruct (IH pd Ht E2 Hx) as (D & j & m & H1 & H2 & H3 & H4). exists D, j, m. split; [apply kw_dir; assumption|]. auto.
  - destruct pd as [|y pd]; cbn [app] in El; [|destruct pd; discriminate El].
    assert (c = x) by congruence. subst x. exists d, 0, 0. split; [apply kw_nil|]. split; [exact Hd|]. split; [apply kw_file; assumption|reflexivity].
  - destruct pd as [|y pd]; cbn [app] in El; [|destruct pd; discriminate El].
    assert (c = x) by congruence. subst x. exists d, 0, 0. split; [apply kw_nil|]. split; [exact Hd|]. split; [eapply kw_keep; eauto|reflexivity].
  - destruct pd as [|y pd]; cbn [app] in El; injection El as E1 E2.
    + subst x rest. destruct Hr as [Hr|Hr]; [contradiction|discriminate].
    + subst y rest. destruct (IH (split_sep k ++ pd) Hd) as (D & j & m & H1 & H2 & H3 & H4); [rewrite <- app_assoc; reflexivity|exact Hx|].
      exists D, (S j), m. split; [eapply kw_link; eauto|]. split; [exact H2|]. split; [exact H3|]. lia.
Qed.

Lemma kw_last_link t D x n r l : proper x -> kw t false D [x] n r -> t r = Some (KLink l) -> tree_ok t -> r = D ++ [x] /\ n = 0.
Proof.
  intros Hx H Hl [_ Hok]. inversion H; subst; auto.
  - destruct (proper_not_dot _ Hx eq_refl).
  - destruct (proper_not_up _ Hx eq_refl).
  - match goal with Hk : kw t false (D ++ [x]) [] _ _ |- _ => inversion Hk; subst end. auto.
  - match goal with Hr : [] <> [] \/ _ |- _ => destruct Hr; [contradiction|discriminate] end.
Qed.

(* ---- joining a link target ---- *)

Lemma clean_comps_pd pd l : Forall proper pd ->
  clean_comps false (split_sep (render false pd) ++ split_sep l) = clean_comps false (pd ++ split_sep l).
Proof.
  intros Hp. rewrite split_render by (exists 0, pd; auto).
  destruct pd as [|x pd]; [|reflexivity]. unfold clean_comps. reflexivity.
Qed.

Lemma proper_normal l : Forall proper l -> normal false l.
Proof. intros H. exists 0, l. split; [reflexivity|]. split; [exact H|discriminate]. Qed.

Lemma join2_render pd l : Forall proper pd -> l <> [] ->
  join2 (render false pd) l = render false (clean_comps false (pd ++ split_sep l)).
Proof.
  intros Hp Hl. pose proof (rooted_render false pd (proper_normal pd Hp)) as Hr.
  pose proof (clean_render false pd (proper_normal pd Hp)) as Hc.
  pose proof (clean_comps_pd pd l Hp) as Hcc.
  destruct (render false pd) as [|b a] eqn:E; [destruct (clean_nonempty [] Hc)|].
  unfold join2. unfold clean. rewrite split_app_gen.
  assert (rooted ((b :: a) ++ sep :: l) = false) as -> by exact Hr. rewrite Hcc. reflexivity.
Qed.

(* A clean relative target: some "..", then names; or ".". *)
Lemma clean_target l : clean l = l -> rooted l = false ->
  exists k u, Forall proper u /\ (split_sep l = repeat [dot; dot] k ++ u \/ (split_sep l = [[dot]] /\ k = 0 /\ u = [])).
Proof.
  intros Hc Hr. pose proof (clean_normal l) as Hn. rewrite Hr in Hn. destruct Hn as (k & u & E & Hu & _).
  exists k, u. split; [exact Hu|]. unfold clean in Hc. rewrite Hr in Hc.
  assert (normal false (clean_comps false (split_sep l))) as Hn by (apply clean_comps_normal, split_sepfree).
  rewrite <- Hc. rewrite split_render by exact Hn. rewrite E.
  destruct (repeat [dot; dot] k ++ u) as [|x y] eqn:E2; [|left; reflexivity].
  apply app_eq_nil in E2. destruct E2 as [E2 ->]. right. destruct k; [auto|discriminate].
Qed.

Lemma fold_ups root k : forall st, k <= length st -> Forall proper st ->
  fold_left (clean_step root) (repeat [dot; dot] k) st = skipn k st.
Proof.
  induction k as [|k IH]; intros st Hk Hp; [reflexivity|]. destruct st as [|x st]; [cbn in Hk; lia|].
  inversion Hp as [|? ? Hx Hp']; subst. cbn [repeat fold_left skipn].
  replace (clean_step root (x :: st) [dot; dot]) with st; [apply IH; [cbn in Hk; lia|exact Hp']|].
  unfold clean_step. cbn [is_empty is_dot is_dotdot]. destruct (proper_tests x Hx) as (_ & _ & ->). reflexivity.
Qed.

Lemma fold_ups_over k : forall st, length st < k -> Forall proper st ->
  In [dot; dot] (fold_left (clean_step false) (repeat [dot; dot] k) st).
Proof.
  intros st Hk Hp. replace k with (length st + (k - length st)) by lia. rewrite repeat_app, fold_left_app.
  rewrite (fold_ups false (length st) st (le_n _) Hp). rewrite skipn_all.
  destruct (k - length st) as [|m] eqn:E; [lia|]. pose proof (fold_dotdot (S m) 0) as Hf. cbn [repeat] in Hf |- *. rewrite Hf.
  rewrite Nat.add_0_r. cbn [repeat]. left. reflexivity.
Qed.

Lemma fold_proper_in root l x : Forall proper l -> forall st, In x st -> In x (fold_left (clean_step root) l st).
Proof. intros Hl st Hx. rewrite fold_proper by exact Hl. apply in_or_app. right. exact Hx. Qed.

Lemma rev_skipn_firstn {A} (l : list A) k : k <= length l -> rev (skipn k (rev l)) = firstn (length l - k) l.
Proof. intros H. rewrite skipn_rev, rev_involutive. reflexivity. Qed.

Lemma comps_climb pd k u : Forall proper pd -> Forall proper u ->
  Forall proper (clean_comps false (pd ++ repeat [dot; dot] k ++ u)) ->
  k <= length pd /\ clean_comps false (pd ++ repeat [dot; dot] k ++ u) = firstn (length pd - k) pd ++ u.
Proof.
  intros Hp Hu Hl. unfold clean_comps in *. rewrite !fold_left_app in *. rewrite (fold_proper false pd Hp) in *.
  rewrite app_nil_r in *.
  assert (Forall proper (rev pd)) as Hrp by (apply Forall_rev; exact Hp).
  destruct (Nat.le_gt_cases k (length pd)) as [Hk|Hk].
  - split; [exact Hk|]. rewrite fold_ups in * by (auto; rewrite rev_length; exact Hk).
    rewrite fold_proper by exact Hu. rewrite rev_app_distr, rev_involutive. rewrite rev_skipn_firstn by exact Hk. reflexivity.
  - exfalso. assert (In [dot; dot] (fold_left (clean_step false) (repeat [dot; dot] k) (rev pd))) as Hi.
    { apply fold_ups_over; [rewrite rev_length; exact Hk|exact Hrp]. }
    apply (fold_proper_in false u) in Hi; [|exact Hu]. apply in_rev in Hi. rewrite Forall_forall in Hl. apply Hl in Hi.
    destruct (proper_not_up _ Hi eq_refl).
Qed.

Lemma real_prefix t l k : tree_ok t -> real_dir t l -> real_dir t (firstn k l).
Proof.
  intros [Hr Hok] [Hp Hd]. split; [apply Forall_firstn; exact Hp|].
  revert k Hd. induction l as [|x l IH] using rev_ind; intros k Hd; [rewrite firstn_nil; exact Hd|].
  destruct (Nat.le_gt_cases k (length l)) as [Hk|Hk].
  - rewrite firstn_app. replace (k - length l) with 0 by lia. cbn [firstn]. rewrite app_nil_r.
    apply IH; [apply Forall_app in Hp; apply Hp|]. apply (Hok l x). congruence.
  - rewrite firstn_all2; [exact Hd|]. rewrite app_length. cbn. lia.
Qed.

(* Walking down a real directory path. *)
Lemma kw_real t l : tree_ok t -> real_dir t l -> kw t true [] l 0 l.
Proof.
  intros Hok. induction l as [|x l IH] using rev_ind; intros Hr; [apply kw_nil|].
  assert (real_dir t l) as Hl.
  { pose proof (real_prefix t (l ++ [x]) (length l) Hok Hr) as H. rewrite firstn_app, Nat.sub_diag, firstn_all in H.
    cbn [firstn] in H. rewrite app_nil_r in H. exact H. }
  specialize (IH Hl). apply (kw_compose t [] l 0 l IH (proj2 Hl) true [x] ltac:(right; reflexivity)).
  exists 0. split; [reflexivity|]. destruct Hr as [Hp Hd]. apply Forall_app in Hp. destruct Hp as [_ Hp]. inversion Hp; subst.
  apply kw_dir; [assumption|exact Hd|apply kw_nil].
Qed.

Lemma kw_ups t fl pd k rest n r : k <= length pd ->
  (kw t fl pd (repeat [dot; dot] k ++ rest) n r <-> kw t fl (firstn (length pd - k) pd) rest n r).
Proof.
  revert pd. induction k as [|k IH]; intros pd Hk.
  - cbn [repeat app]. rewrite Nat.sub_0_r, firstn_all. reflexivity.
  - destruct (rev pd) as [|x q] eqn:E.
    + apply (f_equal (@rev _)) in E. rewrite rev_involutive in E. subst pd. cbn in Hk. lia.
    + apply (f_equal (@rev _)) in E. rewrite rev_involutive in E. cbn [rev] in E. rewrite E in *. clear E pd.
      rewrite app_length in *. cbn [length] in *. cbn [repeat app]. rewrite kw_up_iff. rewrite IH by lia.
      replace (length (rev q) + 1 - S k) with (length (rev q) - k) by lia.
      rewrite firstn_app. replace (length (rev q) - k - length (rev q)) with 0 by lia. cbn [firstn]. rewrite app_nil_r. reflexivity.
Qed.

(* The text produced for the next link of a chain stands for the same walk. *)
Lemma join_faithful t pd j D l fl rest :
  tree_ok t -> Forall proper pd -> kw t true [] pd j D -> t D = Some KDir -> clean l = l -> rooted l = false ->
  (rest <> [] \/ fl = true) ->
  ~ In [dot; dot] (split_sep l) \/ real_dir t pd ->
  Forall proper (clean_comps false (pd ++ split_sep l)) ->
  forall M r, kw t fl [] (split_sep (join2 (render false pd) l) ++ rest) M r <->
    exists N, M = j + N /\ kw t fl D (split_sep l ++ rest) N r.
Proof.
  intros Hok Hp Hk HD Hc Hl Hrest Hcase Hprop M r.
  assert (l <> []) as Hne by (rewrite <- Hc; apply clean_nonempty).
  rewrite join2_render by assumption.
  destruct (clean_target l Hc Hl) as (k & u & Hu & Hs).
  assert (pd ++ split_sep l = pd ++ [[dot]] /\ split_sep l = [[dot]] \/ split_sep l = repeat [dot; dot] k ++ u) as Hs2
    by (destruct Hs as [Hs|(Hs & _)]; [right; exact Hs|left; rewrite Hs; auto]).
  assert (forall q, Forall proper q -> (kw t fl [] (split_sep (render false q) ++ rest) M r <-> kw t fl [] (q ++ rest) M r)) as Hren.
  { intros q Hq. rewrite split_render by (apply proper_normal; exact Hq). destruct q; [|reflexivity].
    cbn [app]. apply kw_dot_iff. }
  rewrite Hren by exact Hprop. destruct Hs2 as [[_ Hs2]|Hs2]; rewrite Hs2 in *.
  - assert (clean_comps false (pd ++ [[dot]]) = pd) as ->.
    { unfold clean_comps. rewrite fold_left_app, (fold_proper false pd Hp). cbn [fold_left].
      assert (forall st, clean_step false st [dot] = st) as -> by reflexivity. rewrite app_nil_r, rev_involutive. reflexivity. }
    cbn [app]. rewrite (kw_compose t [] pd j D Hk HD fl rest Hrest). split; intros (N & -> & Hx); exists N; (split; [reflexivity|]); apply kw_dot_iff; exact Hx.
  - destruct (comps_climb pd k u Hp Hu Hprop) as [Hkp ->]. destruct Hcase as [Hno|Hreal].
    + destruct k as [|k]; [|exfalso; apply Hno; left; reflexivity]. cbn [repeat app]. rewrite Nat.sub_0_r, firstn_all.
      rewrite <- app_assoc. apply kw_compose; [exact Hk|exact HD|].
      destruct Hrest as [Hx|Hx]; [left; destruct u; [exact Hx|discriminate]|right; exact Hx].
    + assert (j = 0 /\ D = pd) as [-> ->].
      { pose proof (kw_real t pd Hok Hreal) as Hk0.
        pose proof (proj1 (kw_compose t [] pd 0 pd Hk0 (proj2 Hreal) true [] ltac:(right; reflexivity) j D)) as Hx.
        rewrite app_nil_r in Hx. destruct (Hx Hk) as (N & -> & Hn). inversion Hn; subst. auto. }
      pose proof (real_prefix t pd (length pd - k) Hok Hreal) as Hrp.
      rewrite <- !app_assoc.
      assert (u ++ rest <> [] \/ fl = true) as Hr2 by (destruct Hrest as [Hx|Hx]; [left; destruct u; [exact Hx|discriminate]|right; exact Hx]).
      rewrite (kw_compose t [] _ 0 _ (kw_real t _ Hok Hrp) (proj2 Hrp) fl (u ++ rest) Hr2 M r).
      split; intros (N & -> & Hx); exists N; (split; [reflexivity|]); apply (kw_ups t fl pd k _ _ _ Hkp); exact Hx.
Qed.

(* ---- chains of links ---- *)

Definition tame (t : tree) (pd : list (list byte)) : Prop := no_climb t \/ (direct_links t /\ real_dir t pd).

Lemma split_render_snoc pd x : Forall proper (pd ++ [x]) -> split_sep (render false (pd ++ [x])) = pd ++ [x].
Proof.
  intros H. rewrite split_render by (apply proper_normal; exact H). destruct (pd ++ [x]) eqn:E; [destruct pd; discriminate|reflexivity].
Qed.

Lemma is_local_render q : normal false q -> is_local (render false q) = true -> Forall proper q.
Proof. intros Hn H. apply is_local_comps in H. destruct H as (_ & _ & H). rewrite (comps_render false q Hn) in H. exact H. Qed.

Lemma rs_loop_kernel t fs : tree_ok t -> answers t fs -> clean_links t -> forall n i pd x q num,
  Forall proper (pd ++ [x]) -> tame t pd ->
  rs_loop fs n i (render false (pd ++ [x])) = (q, num, None) -> q <> [] ->
  forall fl rest, (rest <> [] \/ fl = true) -> forall M r,
  kw t fl [] (pd ++ x :: rest) M r <-> exists N, M = (num - i) + N /\ kw t fl [] (split_sep q ++ rest) N r.
Proof.
  intros Hok (Ha1 & Ha2 & Ha3) Hcl. induction n as [|n IH]; intros i pd x q num Hp Htame H Hq fl rest Hrest M r; cbn [rs_loop] in H; [discriminate|].
  destruct (readlink fs (render false (pd ++ [x]))) as [c|l] eqn:Er; [discriminate|].
  destruct (Ha3 _ _ Er) as (m0 & r0 & Hk0 & Hl0). rewrite split_render_snoc in Hk0 by exact Hp.
  rewrite (Hcl _ _ Hl0) in H. cbv zeta in H.
  destruct (rooted l) eqn:Erl; [injection H as <- _; contradiction|].
  pose proof Hp as Hp'. apply Forall_app in Hp'. destruct Hp' as [Hpd Hpx]. inversion Hpx as [|? ? Hx _]; subst.
  assert (dir (render false (pd ++ [x])) = render false pd) as Hdir by (apply dir_child; [apply proper_normal; exact Hpd|exact Hx]).
  rewrite Hdir in H.
  destruct (is_local (join2 (render false pd) l)) eqn:Eloc; cbn [negb] in H; [|injection H as <- _; contradiction].
  destruct (kw_split_last t [] _ _ _ x pd Hok (proj1 Hok) Hk0 eq_refl Hx) as (D & j & m & Hpk & HD & Hlast & _).
  destruct (kw_last_link t D x m r0 l Hx Hlast Hl0 Hok) as [-> ->].
  assert (l <> []) as Hne by (rewrite <- (Hcl _ _ Hl0); apply clean_nonempty).
  pose proof (join2_render pd l Hpd Hne) as Hj.
  set (cc := clean_comps false (pd ++ split_sep l)) in *.
  assert (normal false cc) as Hncc.
  { apply clean_comps_normal. apply Forall_app. split; [apply proper_sepfree; exact Hpd|apply split_sepfree]. }
  assert (Forall proper cc) as Hpcc by (apply is_local_render; [exact Hncc|rewrite <- Hj; exact Eloc]).
  assert (~ In [dot; dot] (split_sep l) \/ real_dir t pd) as Hcase.
  { destruct Htame as [Hn|[_ Hr]]; [left; exact (Hn _ _ Hl0)|right; exact Hr]. }
  assert (forall M0 r1, kw t fl [] (pd ++ x :: rest) M0 r1 <->
    exists N, M0 = S N /\ kw t fl [] (split_sep (join2 (render false pd) l) ++ rest) N r1) as Hstep.
  { intros M0 r1. rewrite (kw_compose t [] pd j D Hpk HD fl (x :: rest) ltac:(left; discriminate)).
    split.
    - intros (N & -> & Hk). apply (kw_link_iff t fl D x l rest N r1 Hx Hl0 Erl Hrest) in Hk. destruct Hk as (m1 & -> & Hk).
      exists (j + m1). split; [lia|]. apply (join_faithful t pd j D l fl rest Hok Hpd Hpk HD (Hcl _ _ Hl0) Erl Hrest Hcase Hpcc). exists m1. auto.
    - intros (N & -> & Hk). apply (join_faithful t pd j D l fl rest Hok Hpd Hpk HD (Hcl _ _ Hl0) Erl Hrest Hcase Hpcc) in Hk.
      destruct Hk as (m1 & -> & Hk). exists (S m1). split; [lia|].
      apply (kw_link_iff t fl D x l rest _ r1 Hx Hl0 Erl Hrest). exists m1. auto. }
  destruct (lstat fs (join2 (render false pd) l)) as [c| |] eqn:Els; [discriminate| |].
  - (* another link *)
    destruct (Ha1 _ Els) as (n1 & r1 & l1 & Hk1 & Hl1).
    destruct (rev cc) as [|x' pd'r] eqn:Erev.
    + exfalso. assert (cc = []) as Ecc by (apply (f_equal (@rev _)) in Erev; rewrite rev_involutive in Erev; exact Erev).
      rewrite Hj, Ecc in Hk1. change (split_sep (render false [])) with [[dot]] in Hk1. apply (proj1 (kw_dot_iff _ _ _ _ _ _)) in Hk1. assert (r1 = []) as E1 by (inversion Hk1; congruence). rewrite E1 in Hl1.
      destruct Hok as [Hroot _]. rewrite Hroot in Hl1. discriminate Hl1.
    + assert (cc = rev pd'r ++ [x']) as Ecc by (apply (f_equal (@rev _)) in Erev; rewrite rev_involutive in Erev; exact Erev).
      assert (tame t (rev pd'r)) as Htame'.
      { destruct Htame as [Hn|[Hdl Hr]]; [left; exact Hn|right]. split; [exact Hdl|].
        assert (D = pd) as ->.
        { pose proof (proj1 (kw_compose t [] pd 0 pd (kw_real t pd Hok Hr) (proj2 Hr) true [] ltac:(right; reflexivity) j D)) as Hxx.
          rewrite app_nil_r in Hxx. destruct (Hxx Hpk) as (N & _ & Hn). inversion Hn; subst. reflexivity. }
        apply (Hdl pd x l Hl0 Erl cc eq_refl Hpcc (rev pd'r) x' Ecc). }
      rewrite Hj, Ecc in H. rewrite Ecc in Hpcc.
      assert (S i <= num) as Hnum by (destruct (rs_loop_count _ _ _ _ _ _ _ H); lia).
      rewrite Hstep. rewrite Hj, Ecc. rewrite split_render_snoc by exact Hpcc. split.
      * intros (N & -> & Hk). rewrite <- app_assoc in Hk. cbn [app] in Hk.
        apply (IH _ _ _ _ _ Hpcc Htame' H Hq fl rest Hrest) in Hk. destruct Hk as (N1 & -> & Hk). exists N1. split; [lia|exact Hk].
      * intros (N & -> & Hk). exists (num - S i + N). split; [lia|]. rewrite <- app_assoc. cbn [app].
        apply (IH _ _ _ _ _ Hpcc Htame' H Hq fl rest Hrest). exists N. auto.
  - (* the end of the chain *)
    injection H as <- <-. rewrite Hstep. split.
    + intros (N & -> & Hk). exists N. split; [lia|exact Hk].
    + intros (N & -> & Hk). exists N. split; [lia|exact Hk].
Qed.

(* ---- the walk over the elements of the name ---- *)

Definition strip (l : list (list byte)) : list (list byte) :=
  match l with c :: l' => if is_dot c then l' else l | [] => [] end.

Lemma strip_proper l : Forall proper l -> strip l = l.
Proof. intros H. destruct l as [|c l]; [reflexivity|]. inversion H; subst. unfold strip. destruct (proper_tests c) as (_ & -> & _); [assumption|reflexivity]. Qed.

Lemma kw_strip t fl l rest n r : (Forall proper l \/ exists l', l = [dot] :: l' /\ Forall proper l') ->
  (kw t fl [] (l ++ rest) n r <-> kw t fl [] (strip l ++ rest) n r).
Proof.
  intros [H|(l' & -> & H)]; [rewrite strip_proper by exact H; reflexivity|]. change (strip ([dot] :: l')) with l'. cbn [app]. apply kw_dot_iff.
Qed.

Definition pdot (l : list (list byte)) : Prop := Forall proper l \/ exists l', l = [dot] :: l' /\ Forall proper l'.

Lemma pdot_strip l : pdot l -> Forall proper (strip l).
Proof. intros [H|(l' & -> & H)]; [rewrite strip_proper by exact H; exact H|exact H]. Qed.

Lemma pdot_app l r : pdot (l ++ r) -> pdot l.
Proof.
  intros [H|(l' & E & H)]; [left; apply Forall_app in H; apply H|].
  destruct l as [|x l]; [left; constructor|]. cbn [app] in E. injection E as -> <-. right. exists l. split; [reflexivity|]. apply Forall_app in H. apply H.
Qed.

Lemma strip_snoc l c : l <> [] -> strip (l ++ [c]) = strip l ++ [c].
Proof. intros H. destruct l as [|x l]; [contradiction|]. cbn [app strip]. destruct (is_dot x); reflexivity. Qed.

(* What has been walked already is a real path. *)
Definition walked (t : tree) (don : list (list byte)) : Prop :=
  pdot don /\ (t (strip don) = Some KDir \/ t (strip don) = Some KFile).

Lemma pdot_snoc_proper don c : don <> [] -> pdot (don ++ [c]) -> proper c.
Proof.
  intros Hd [H|(l' & E & H)].
  - apply Forall_app in H. destruct H as [_ H]. inversion H; assumption.
  - destruct don as [|x don]; [contradiction|]. cbn [app] in E. injection E as -> <-. apply Forall_app in H. destruct H as [_ H]. inversion H; assumption.
Qed.

Lemma kw_file_stuck t fl f rest n r : tree_ok t -> t f = Some KFile -> Forall proper rest -> rest <> [] -> ~ kw t fl f rest n r.
Proof.
  intros [_ Hok] Hf Hp Hr H. destruct rest as [|c rest]; [contradiction|]. inversion Hp as [|? ? Hc Hp']; subst.
  assert (t (f ++ [c]) = None) as Hn.
  { destruct (t (f ++ [c])) eqn:E; [|reflexivity]. assert (t f = Some KDir) by (apply (Hok f c); congruence). congruence. }
  inversion H; subst; try congruence.
  - destruct (proper_not_dot _ Hc eq_refl).
  - destruct (proper_not_up _ Hc eq_refl).
Qed.

(* A walk down a real path whose last element is a file ends there. *)
Lemma kw_through_file t d x fl rest n r : tree_ok t -> Forall proper (d ++ [x]) -> t (d ++ [x]) = Some KFile ->
  kw t fl [] ((d ++ [x]) ++ rest) n r -> rest = [].
Proof.
  intros Hok Hp Ht H. assert (real_dir t d) as Hd.
  { split; [apply Forall_app in Hp; apply Hp|]. apply (proj2 Hok d x). congruence. }
  rewrite <- app_assoc in H. cbn [app] in H.
  apply (kw_compose t [] d 0 d (kw_real t d Hok Hd) (proj2 Hd) fl (x :: rest) ltac:(left; discriminate)) in H.
  destruct H as (N & _ & H). assert (proper x) as Hx by (apply Forall_app in Hp; destruct Hp as [_ Hp]; inversion Hp; assumption).
  inversion H; subst; try congruence.
  - destruct (proper_not_dot _ Hx eq_refl).
  - destruct (proper_not_up _ Hx eq_refl).
Qed.

Lemma walked_kw t fl don rest n r : tree_ok t -> walked t don -> rest <> [] -> kw t fl [] (don ++ rest) n r -> real_dir t (strip don).
Proof.
  intros Hok [Hp [Ht|Ht]] Hr H; [split; [apply pdot_strip; exact Hp|exact Ht]|]. exfalso.
  apply (kw_strip t fl don rest n r Hp) in H. pose proof (pdot_strip don Hp) as Hps.
  destruct (rev (strip don)) as [|x q] eqn:E; apply (f_equal (@rev _)) in E; rewrite rev_involutive in E.
  - rewrite E in Ht. destruct Hok. cbn [rev] in Ht. congruence.
  - cbn [rev] in E. rewrite E in *. apply Hr. exact (kw_through_file t (rev q) x fl rest n r Hok Hps Ht H).
Qed.

Lemma walked_step t fs don c : tree_ok t -> answers t fs -> walked t don -> pdot (don ++ [c]) ->
  lstat fs (join_sep (don ++ [c])) = LOther -> walked t (don ++ [c]).
Proof.
  intros Hok (_ & Ha2 & _) Hw Hp Hl. destruct (Ha2 _ Hl) as (n & r & Hk & Ht).
  assert (Forall sepfree (don ++ [c])) as Hs by (apply good_sepfree; split; [destruct don; discriminate|exact Hp]).
  rewrite split_join in Hk by (auto; destruct don; discriminate).
  split; [exact Hp|]. destruct don as [|x don].
  - cbn [app] in *. destruct Hp as [Hp|(l' & E & Hp)].
    + inversion Hp as [|? ? Hc _]; subst. rewrite strip_proper by exact Hp.
      inversion Hk; subst; cbn [app] in *; auto.
      * destruct (proper_not_dot _ Hc eq_refl).
      * destruct d; discriminate.
      * match goal with H : _ \/ false = true |- _ => destruct H; [contradiction|discriminate] end.
    + injection E as -> <-. left. exact (proj1 Hok).
  - pose proof (walked_kw t false (x :: don) [c] n r Hok Hw ltac:(discriminate) Hk) as Hr.
    assert (proper c) as Hc by (apply (pdot_snoc_proper (x :: don)); [discriminate|exact Hp]).
    apply (kw_strip t false (x :: don) [c] n r (proj1 Hw)) in Hk.
    apply (kw_compose t [] _ 0 _ (kw_real t _ Hok Hr) (proj2 Hr) false [c] ltac:(left; discriminate)) in Hk.
    destruct Hk as (N & _ & Hk). rewrite strip_snoc by discriminate.
    inversion Hk; subst; auto.
    + destruct (proper_not_dot _ Hc eq_refl).
    + destruct (proper_not_up _ Hc eq_refl).
    + match goal with H : _ \/ false = true |- _ => destruct H; [contradiction|discriminate] end.
Qed.

Lemma clean_don don c : pdot (don ++ [c]) -> proper c -> clean (join_sep (don ++ [c])) = render false (strip don ++ [c]).
Proof.
  intros Hp Hc. assert (good (don ++ [c])) as Hg by (split; [destruct don; discriminate|exact Hp]).
  pose proof (good_local _ Hg) as Hl. apply is_local_comps in Hl. destruct Hl as (_ & Hr & _).
  unfold clean. rewrite Hr. rewrite split_join by (try apply good_sepfree; auto; destruct don; discriminate).
  f_equal. destruct Hp as [Hp|(l' & E & Hp)].
  - unfold clean_comps. rewrite fold_proper by exact Hp. rewrite app_nil_r, rev_involutive.
    rewrite strip_proper; [reflexivity|]. apply Forall_app in Hp. apply Hp.
  - destruct don as [|x don]; cbn [app] in E.
    + injection E as -> _. destruct (proper_not_dot _ Hc eq_refl).
    + injection E as -> <-. change (strip ([dot] :: don)) with don. unfold clean_comps. cbn [app fold_left].
      change (clean_step false [] [dot]) with (@nil (list byte)).
      rewrite fold_proper by exact Hp. rewrite app_nil_r, rev_involutive. reflexivity.
Qed.

Lemma rp_loop_kernel t fs : tree_ok t -> answers t fs -> clean_links t -> (no_climb t \/ direct_links t) ->
  forall fuel todo cur don p n,
  good (don ++ todo) -> walked t don ->
  rp_loop fs fuel cur don todo = ROk p n ->
  cur <= n /\ (exists l, p = join_sep l /\ good l /\ walked t l) /\
  forall fl tail, (tail <> [] \/ fl = true) -> forall M r,
    kw t fl [] (don ++ todo ++ tail) M r <-> exists N, M = (n - cur) + N /\ kw t fl [] (split_sep p ++ tail) N r.
Proof.
  intros Hok Ha Hcl Htame.
  assert (forall cur don p n, good don -> walked t don -> ROk (join_sep don) cur = ROk p n ->
    cur <= n /\ (exists l, p = join_sep l /\ good l /\ walked t l) /\
    forall fl tail, (tail <> [] \/ fl = true) -> forall M r,
    kw t fl [] (don ++ [] ++ tail) M r <-> exists N, M = (n - cur) + N /\ kw t fl [] (split_sep p ++ tail) N r) as Hbase.
  { intros cur don p n Hg Hw H. injection H as <- <-. split; [lia|]. split; [exists don; auto|].
    intros fl tail Ht M r. rewrite split_join by (try apply good_sepfree; auto; apply Hg). cbn [app].
    rewrite Nat.sub_diag. split; [intros H; exists M; auto|intros (N & -> & H); exact H]. }
  induction fuel as [|fuel IHf]; intros todo; induction todo as [|c rest IHt]; intros cur don p n Hg Hw H;
    rewrite rp_loop_eq in H; cbv zeta in H.
  - rewrite app_nil_r in Hg. exact (Hbase _ _ _ _ Hg Hw H).
  - destruct (lstat fs (join_sep (don ++ [c]))) eqn:El; [discriminate| |].
    + destruct (resolve_symlink fs (join_sep (don ++ [c])) (max_links - cur)) as [[q num] [e|]]; [discriminate|].
      destruct (max_links <=? cur + num); [discriminate|]. destruct (is_empty q || negb (is_local q)); discriminate.
    + assert (pdot (don ++ [c])) as Hp.
      { apply (pdot_app _ rest). rewrite <- app_assoc. apply Hg. }
      pose proof (walked_step t fs don c Hok Ha Hw Hp El) as Hw2.
      assert (good ((don ++ [c]) ++ rest)) as Hg2 by (rewrite <- app_assoc; exact Hg).
      destruct (IHt cur (don ++ [c]) p n Hg2 Hw2 H) as (Hn & Hl & IH). split; [exact Hn|]. split; [exact Hl|].
      intros fl tail Ht M r. specialize (IH fl tail Ht M r). rewrite <- app_assoc in IH. exact IH.
  - rewrite app_nil_r in Hg. exact (Hbase _ _ _ _ Hg Hw H).
  - assert (pdot (don ++ [c])) as Hp.
    { apply (pdot_app _ rest). rewrite <- app_assoc. apply Hg. }
    destruct (lstat fs (join_sep (don ++ [c]))) eqn:El; [discriminate| |].
    + assert (good (don ++ [c])) as Hgc by (split; [destruct don; discriminate|exact Hp]).
      destruct (proj1 Ha _ El) as (n0 & r0 & l0 & Hk0 & Hl0).
      rewrite split_join in Hk0 by (try apply good_sepfree; auto; destruct don; discriminate).
      assert (proper c) as Hc.
      { destruct don as [|y don]; [|apply (pdot_snoc_proper (y :: don)); [discriminate|exact Hp]].
        cbn [app] in Hp. destruct Hp as [Hp|(l' & E & _)]; [inversion Hp; assumption|]. injection E as -> _. exfalso.
        cbn [app] in Hk0. apply (proj1 (kw_dot_iff _ _ _ _ _ _)) in Hk0.
        assert (r0 = []) as E1 by (inversion Hk0; congruence). rewrite E1 in Hl0. destruct Hok as [Hroot _]. rewrite Hroot in Hl0. discriminate. }
      pose proof (walked_kw t false don [c] n0 r0 Hok Hw ltac:(discriminate) Hk0) as Hreal.
      destruct (resolve_symlink fs (join_sep (don ++ [c])) (max_links - cur)) as [[q num] e] eqn:Er.
      unfold resolve_symlink in Er. rewrite clean_don in Er by assumption.
      destruct e as [e|]; [discriminate|].
      destruct (max_links <=? cur + num); [discriminate|].
      destruct (is_empty q || negb (is_local q)) eqn:Eq; [discriminate|].
      apply orb_false_iff in Eq. destruct Eq as [Eq1 Eq2]. apply negb_false_iff in Eq2.
      assert (q <> []) as Hq by (intros ->; discriminate Eq1).
      destruct (rs_loop_clean _ _ _ _ _ _ _ Er) as [|Hqc]; [contradiction|].
      assert (tame t (strip don)) as Ht1 by (destruct Htame; [left; assumption|right; auto]).
      assert (Forall proper (strip don ++ [c])) as Hsp.
      { apply Forall_app. split; [apply Hreal|]. constructor; [exact Hc|constructor]. }
      pose proof (rs_loop_kernel t fs Hok Ha Hcl _ _ _ _ _ _ Hsp Ht1 Er Hq) as Hchain.
      assert (good ([] ++ split_sep q ++ rest)) as Hg2.
      { cbn [app]. apply good_app; [apply local_clean_good; assumption|]. eapply good_rest. exact Hg. }
      assert (walked t []) as Hw0 by (split; [left; constructor|left; apply Hok]).
      destruct (IHf (split_sep q ++ rest) (cur + num) [] p n Hg2 Hw0 H) as (Hn & Hl & IH).
      split; [lia|]. split; [exact Hl|]. intros fl tail Ht M r.
      assert (rest ++ tail <> [] \/ fl = true) as Ht2.
      { destruct Ht as [Ht|Ht]; [left; destruct rest; [exact Ht|discriminate]|right; exact Ht]. }
      change ((c :: rest) ++ tail) with (c :: (rest ++ tail)).
      rewrite (kw_strip t fl don _ M r (proj1 Hw)). rewrite (Hchain fl (rest ++ tail) Ht2 M r). rewrite Nat.sub_0_r.
      split.
      * intros (N & -> & Hk). rewrite app_assoc in Hk. apply (IH fl tail Ht) in Hk. destruct Hk as (N1 & -> & Hk).
        exists N1. split; [lia|exact Hk].
      * intros (N & -> & Hk). exists (n - (cur + num) + N). split; [lia|]. rewrite app_assoc.
        apply (IH fl tail Ht). exists N. auto.
    + pose proof (walked_step t fs don c Hok Ha Hw Hp El) as Hw2.
      assert (good ((don ++ [c]) ++ rest)) as Hg2 by (rewrite <- app_assoc; exact Hg).
      destruct (IHt cur (don ++ [c]) p n Hg2 Hw2 H) as (Hn & Hl & IH). split; [exact Hn|]. split; [exact Hl|].
      intros fl tail Ht M r. specialize (IH fl tail Ht M r). rewrite <- app_assoc in IH. exact IH.
Qed.

Lemma strip_comps l : pdot l -> clean_comps false l = strip l.
Proof.
  intros [H|(l' & -> & H)].
  - rewrite strip_proper by exact H. unfold clean_comps. rewrite fold_proper by exact H. rewrite app_nil_r, rev_involutive. reflexivity.
  - change (strip ([dot] :: l')) with l'. unfold clean_comps. cbn [fold_left]. change (clean_step false [] [dot]) with (@nil (list byte)).
    rewrite fold_proper by exact H. rewrite app_nil_r, rev_involutive. reflexivity.
Qed.

Lemma walked_end t l : tree_ok t -> walked t l -> forall N r, kw t true [] l N r <-> N = 0 /\ r = strip l.
Proof.
  intros Hok [Hp Ht] N r. pose proof (kw_strip t true l [] N r Hp) as Hs. rewrite !app_nil_r in Hs. rewrite Hs. clear Hs.
  pose proof (pdot_strip l Hp) as Hps. destruct Ht as [Ht|Ht].
  - assert (real_dir t (strip l)) as Hr by (split; assumption).
    pose proof (kw_compose t [] _ 0 _ (kw_real t _ Hok Hr) Ht true [] ltac:(right; reflexivity) N r) as Hc. rewrite app_nil_r in Hc. rewrite Hc.
    split; [intros (N1 & -> & H); inversion H; subst; auto|]. intros [-> ->]. exists 0. split; [reflexivity|apply kw_nil].
  - destruct (rev (strip l)) as [|x q] eqn:E; apply (f_equal (@rev _)) in E; rewrite rev_involutive in E; cbn [rev] in E.
    + rewrite E in Ht. destruct Hok. congruence.
    + rewrite E in *. assert (real_dir t (rev q)) as Hd.
      { split; [apply Forall_app in Hps; apply Hps|]. apply (proj2 Hok _ x). congruence. }
      assert (proper x) as Hx by (apply Forall_app in Hps; destruct Hps as [_ Hps]; inversion Hps; assumption).
      rewrite (kw_compose t [] _ 0 _ (kw_real t _ Hok Hd) (proj2 Hd) true [x] ltac:(right; reflexivity) N r).
      split.
      * intros (N1 & -> & H). inversion H; subst; try congruence; auto.
        -- destruct (proper_not_dot _ Hx eq_refl).
        -- destruct (proper_not_up _ Hx eq_refl).
      * intros [-> ->]. exists 0. split; [reflexivity|]. apply kw_file; assumption.
Qed.

Lemma good_pdot l : good l -> pdot l. Proof. intros [_ H]. exact H. Qed.

Lemma resolve_path_kernel t fs name skip p n :
  tree_ok t -> answers t fs -> clean_links t -> (no_climb t \/ direct_links t) ->
  resolve_path fs name skip = ROk p n ->
  (forall M r, kw t (negb skip) [] (split_sep (clean name)) M r <->
    exists N, M = n + N /\ kw t (negb skip) [] (split_sep p) N r) /\
  (skip = false -> forall N r, kw t true [] (split_sep p) N r <-> N = 0 /\ r = clean_comps false (split_sep p)).
Proof.
  intros Hok Ha Hcl Hcase H. unfold resolve_path in H.
  assert (forall q, (forall M r, kw t (negb skip) [] (split_sep q) M r <-> exists N, M = 0 + N /\ kw t (negb skip) [] (split_sep q) N r)) as Hrefl.
  { intros q M r. split; [intros Hk; exists M; auto|intros (N & -> & Hk); exact Hk]. }
  destruct (bytes_eqb (clean name) [dot]) eqn:Ed.
  { injection H as <- <-. apply bytes_eqb_eq in Ed. rewrite Ed. split; [apply Hrefl|]. intros _ N r.
    change (split_sep [dot]) with [[dot]]. rewrite kw_dot_iff. change (clean_comps false [[dot]]) with (@nil (list byte)).
    split; [intros Hk; split; inversion Hk; congruence|]. intros [-> ->]. apply kw_nil. }
  assert (clean name <> [dot]) as Hd by (intros E; apply bytes_eqb_eq in E; congruence).
  destruct (is_local (clean name)) eqn:El; cbn [negb] in H; [|discriminate].
  pose proof (clean_local_good (clean name) (clean_idem name) El Hd) as Hp.
  pose proof (split_nonempty (clean name)) as Hne.
  assert (walked t []) as Hw0 by (split; [left; constructor|left; apply Hok]).
  destruct skip.
  - split; [|discriminate]. pose proof (app_removelast_last' _ [] Hne) as Hs.
    destruct (removelast (split_sep (clean name))) as [|x d] eqn:Er; [injection H as <- <-; apply Hrefl|].
    destruct (rp_loop fs max_links 0 [] (x :: d)) as [p0 n0|p0 e0|] eqn:Eq; [|discriminate|discriminate]. injection H as <- <-.
    set (la := last (split_sep (clean name)) []) in *.
    assert (Forall proper ((x :: d) ++ [la])) as Hp2 by (rewrite <- Hs; exact Hp).
    apply Forall_app in Hp2. destruct Hp2 as [Hp1 Hp2].
    assert (good ([] ++ x :: d)) as Hg by (split; [discriminate|left; exact Hp1]).
    destruct (rp_loop_kernel t fs Hok Ha Hcl Hcase _ _ _ _ _ _ Hg Hw0 Eq) as (_ & (l & -> & Hgl & _) & HK).
    intros M r. rewrite Hs. specialize (HK false [la] ltac:(left; discriminate) M r).
    rewrite Nat.sub_0_r in HK. rewrite join_snoc by apply Hgl.
    rewrite split_join in HK by (try apply good_sepfree; auto; apply Hgl).
    rewrite split_join; [exact HK|destruct l; discriminate|apply good_sepfree, good_app; assumption].
  - assert (good ([] ++ split_sep (clean name))) as Hg by (split; [exact Hne|left; exact Hp]).
    destruct (rp_loop_kernel t fs Hok Ha Hcl Hcase _ _ _ _ _ _ Hg Hw0 H) as (_ & (l & -> & Hgl & Hwl) & HK). split.
    + intros M r. specialize (HK true [] ltac:(right; reflexivity) M r). rewrite !app_nil_r in HK. rewrite Nat.sub_0_r in HK. exact HK.
    + intros _ N r. rewrite split_join by (try apply good_sepfree; auto; apply Hgl).
      rewrite strip_comps by (apply good_pdot; exact Hgl). apply walked_end; assumption.
Qed.

(* ---- trees written out ---- *)
Lemma path_eqb_eq a : forall b, path_eqb a b = true <-> a = b.
Proof.
  induction a as [|x a IH]; intros [|y b]; cbn [path_eqb]; try (split; [discriminate|discriminate]); [split; reflexivity|].
  rewrite andb_true_iff, bytes_eqb_eq, IH. split; [intros [-> ->]; reflexivity|]. intros E. injection E as -> ->. auto.
Qed.

Lemma tree_of_in al p k : tree_of al p = Some k -> In (p, k) al.
Proof.
  induction al as [|[q k0] al IH]; cbn [tree_of]; [discriminate|].
  destruct (path_eqb q p) eqn:E; [|intros H; right; apply IH; exact H].
  apply path_eqb_eq in E. subst. intros H. injection H as ->. left. reflexivity.
Qed.

Lemma texts_in {V} (al : list (list byte * V)) dflt s v : texts al dflt s = v -> v <> dflt -> In (s, v) al.
Proof.
  induction al as [|[q v0] al IH]; cbn [texts]; [intros -> H; contradiction|].
  destruct (bytes_eqb q s) eqn:E; [|intros H Hn; right; apply IH; assumption].
  apply bytes_eqb_eq in E. subst. intros -> _. left. reflexivity.
Qed.

Lemma tree_of_ok al : tree_of al [] = Some KDir ->
  Forall (fun e => fst e = [] \/ tree_of al (removelast (fst e)) = Some KDir) al -> tree_ok (tree_of al).
Proof.
  intros Hr Hf. split; [exact Hr|]. intros d c H. destruct (tree_of al (d ++ [c])) as [k|] eqn:E; [|contradiction].
  apply tree_of_in in E. rewrite Forall_forall in Hf. specialize (Hf _ E). cbn [fst] in Hf.
  rewrite removelast_last in Hf. destruct Hf as [Hf|Hf]; [destruct d; discriminate|exact Hf].
Qed.

Lemma tree_of_clean al : Forall (fun e => match snd e with KLink l => clean l = l | _ => True end) al -> clean_links (tree_of al).
Proof. intros Hf p l H. apply tree_of_in in H. rewrite Forall_forall in Hf. exact (Hf _ H). Qed.

Lemma tree_of_no_climb al : Forall (fun e => match snd e with KLink l => ~ In [dot; dot] (split_sep l) | _ => True end) al -> no_climb (tree_of al).
Proof. intros Hf p l H. apply tree_of_in in H. rewrite Forall_forall in Hf. exact (Hf _ H). Qed.

Lemma texts_answers t sl rl :
  Forall (fun e => match snd e with
                   | LErr _ => True
                   | LLink => exists n r l, kw t false [] (split_sep (fst e)) n r /\ t r = Some (KLink l)
                   | LOther => exists n r, kw t false [] (split_sep (fst e)) n r /\ (t r = Some KDir \/ t r = Some KFile)
                   end) sl ->
  Forall (fun e => match snd e with
                   | RErr _ => True
                   | RTarget l => exists n r, kw t false [] (split_sep (fst e)) n r /\ t r = Some (KLink l)
                   end) rl ->
  answers t (LinkFs (texts sl (LErr 2)) (texts rl (RErr 2))).
Proof.
  intros H1 H2. rewrite Forall_forall in H1, H2. split; [|split]; cbn [lstat readlink].
  - intros s H. apply texts_in in H; [|discriminate]. exact (H1 _ H).
  - intros s H. apply texts_in in H; [|discriminate]. exact (H1 _ H).
  - intros s l H. apply texts_in in H; [|discriminate]. exact (H2 _ H).
Qed.
