(* Proofs that ResolvePath finds every name a kernel-style walk can reach. *)
From Verif Require Import Common CommonLemmas ContentRange_Model ContentRange_Proofs PathLex_Model PathLex_Proofs
  Resolve_Model Resolve_Spec Resolve_Proofs Resolve_Kernel.
Open Scope nat_scope.

(* Whatever a walk passes through can be reached without following the last element. *)
Lemma kw_prefix t fl d l n r : tree_ok t -> t d = Some KDir -> kw t fl d l n r -> forall a rest, l = a ++ rest ->
  exists n' r', n' <= n /\ kw t false d a n' r' /\ t r' <> None.
Proof.
  intros [Hroot Hok] Hd H. revert Hd.
  induction H as [d|d rest0 n r H IH|d c rest0 n r H IH|d c rest0 n r Hc Ht H IH|d c Hc Ht|d c k Hc Ht Hf|d c k rest0 n r Hc Ht Hl Hr H IH];
    intros Hd a rest E; (destruct a as [|y a]; [eexists 0, _; split; [lia|]; split; [apply kw_nil|congruence]|]); cbn [app] in E; try discriminate E;
    injection E as <- E.
  - destruct (IH Hd a rest E) as (n' & r' & H1 & H2 & H3). exists n', r'. split; [exact H1|]. split; [apply kw_dot; exact H2|exact H3].
  - assert (t d = Some KDir) as Hd' by (apply (Hok d c); congruence).
    destruct (IH Hd' a rest E) as (n' & r' & H1 & H2 & H3). exists n', r'. split; [exact H1|]. split; [apply kw_up; exact H2|exact H3].
  - destruct (IH Ht a rest E) as (n' & r' & H1 & H2 & H3). exists n', r'. split; [exact H1|]. split; [apply kw_dir; assumption|exact H3].
  - destruct a as [|z a]; [|discriminate]. exists 0, (d ++ [c]). split; [lia|]. split; [apply kw_file; assumption|congruence].
  - destruct a as [|z a]; [|discriminate]. exists 0, (d ++ [c]). split; [lia|]. split; [eapply kw_keep; eauto|congruence].
  - destruct a as [|z a].
    + exists 0, (d ++ [c]). split; [lia|]. split; [eapply kw_keep; eauto|congruence].
    + destruct (IH Hd (split_sep k ++ z :: a) rest) as (n' & r' & H1 & H2 & H3); [rewrite E, <- app_assoc; reflexivity|].
      exists (S n'), r'. split; [lia|]. split; [|exact H3]. eapply kw_link; eauto. left. discriminate.
Qed.

(* So Lstat answers every text that a short enough walk passes through. *)
Lemma lstat_answers t fs m fl s rest n r : tree_ok t -> answers_all t m fs -> n < m -> kw t fl [] (split_sep s ++ rest) n r ->
  lstat fs s = LLink \/ lstat fs s = LOther.
Proof.
  intros Hok [Ha Hb] Hn H. destruct (kw_prefix t fl [] _ n r Hok (proj1 Hok) H _ _ eq_refl) as (n' & r' & H1 & H2 & H3).
  destruct (t r') as [[| |l]|] eqn:E; [| | |congruence].
  - right. apply (Hb s n' r'); auto. lia.
  - right. apply (Hb s n' r'); auto. lia.
  - left. apply (Ha s n' r' l); auto. lia.
Qed.

(* The end of a walk is unique. *)
Lemma kw_fun t fl d l n r : kw t fl d l n r -> forall n' r', kw t fl d l n' r' -> n' = n /\ r' = r.
Proof.
  induction 1 as [d|d rest n r H IH|d c rest n r H IH|d c rest n r Hc Ht H IH|d c Hc Ht|d c k Hc Ht Hf|d c k rest n r Hc Ht Hl Hr H IH]; intros n' r' H'.
  - inversion H'; subst. auto.
  - apply (proj1 (kw_dot_iff _ _ _ _ _ _)) in H'. apply IH. exact H'.
  - apply (proj1 (kw_up_iff _ _ _ _ _ _ _)) in H'. apply IH. exact H'.
  - apply (kw_dir_iff t fl d c _ _ _ Hc Ht) in H'. apply IH. exact H'.
  - inversion H'; subst; try congruence; auto.
    + destruct (proper_not_dot _ Hc eq_refl).
    + destruct (proper_not_up _ Hc eq_refl).
  - inversion H'; subst; try congruence; auto.
    + destruct (proper_not_dot _ Hc eq_refl).
    + destruct (proper_not_up _ Hc eq_refl).
    + match goal with Hx : [] <> [] \/ _ |- _ => destruct Hx; [contradiction|discriminate] end.
  - apply (kw_link_iff t fl d c k rest n' r' Hc Ht Hl Hr) in H'. destruct H' as (m & -> & Hk). destruct (IH _ _ Hk) as [-> ->]. auto.
Qed.

(* A walk that goes on past a link goes on along its target, which is relative. *)
Lemma kw_past_link t fl d c l rest n r : proper c -> t (d ++ [c]) = Some (KLink l) -> (rest <> [] \/ fl = true) ->
  kw t fl d (c :: rest) n r -> rooted l = false.
Proof.
  intros Hc Ht Hr H. inversion H; subst; try congruence.
  - destruct (proper_not_dot _ Hc eq_refl).
  - destruct (proper_not_up _ Hc eq_refl).
  - destruct Hr; [contradiction|congruence].
Qed.

(* Climbing from a real directory: the walk ends only if the text stays inside. *)
Lemma kw_ups_inside t fl pd k rest n r : kw t fl pd (repeat [dot; dot] k ++ rest) n r -> k <= length pd.
Proof.
  revert pd. induction k as [|k IH]; intros pd H; [lia|]. cbn [repeat app] in H.
  inversion H as [| | d c ? ? ? H0|? ? ? ? ? Hp|? ? Hp|? ? ? Hp|? ? ? ? ? ? Hp]; subst; try (destruct (proper_not_up _ Hp eq_refl)).
  apply IH in H0. rewrite app_length. cbn [length]. lia.
Qed.

Lemma join_inside t fl pd j D l rest n r : tree_ok t -> Forall proper pd -> kw t true [] pd j D -> t D = Some KDir ->
  clean l = l -> rooted l = false -> ~ In [dot; dot] (split_sep l) \/ real_dir t pd ->
  kw t fl D (split_sep l ++ rest) n r ->
  Forall proper (clean_comps false (pd ++ split_sep l)).
Proof.
  intros Hok Hp Hk HD Hc Hl Hcase H.
  destruct (clean_target l Hc Hl) as (k & u & Hu & Hs).
  destruct Hs as [Hs|(Hs & _)]; rewrite Hs in *.
  - assert (k <= length pd) as Hkp.
    { destruct Hcase as [Hno|Hreal].
      - destruct k as [|k]; [lia|]. exfalso. apply Hno. left. reflexivity.
      - destruct (kw_fun _ _ _ _ _ _ (kw_real t pd Hok Hreal) _ _ Hk) as [-> ->].
        rewrite <- app_assoc in H. exact (kw_ups_inside _ _ _ _ _ _ _ H). }
    unfold clean_comps. rewrite !fold_left_app. rewrite (fold_proper false pd Hp), app_nil_r.
    rewrite fold_ups by (try apply Forall_rev; auto; rewrite rev_length; exact Hkp).
    rewrite fold_proper by exact Hu. rewrite rev_app_distr, rev_involutive, rev_skipn_firstn by exact Hkp.
    apply Forall_app. split; [apply Forall_firstn; exact Hp|exact Hu].
  - unfold clean_comps. rewrite fold_left_app, (fold_proper false pd Hp). cbn [fold_left].
    assert (forall st, clean_step false st [dot] = st) as -> by reflexivity. rewrite app_nil_r, rev_involutive. exact Hp.
Qed.

Lemma is_local_proper q : Forall proper q -> is_local (render false q) = true.
Proof.
  intros Hq. pose proof (proper_normal q Hq) as Hn. apply is_local_comps. split; [|split].
  - pose proof (clean_render false q Hn) as Hc. rewrite <- Hc. apply clean_nonempty.
  - apply (rooted_render false q Hn).
  - rewrite (comps_render false q Hn). exact Hq.
Qed.

(* What a chain leads to is local. *)
Lemma rs_loop_local fs n : forall i r q num e, rs_loop fs n i r = (q, num, e) -> q = [] \/ is_local q = true.
Proof.
  induction n as [|n IH]; intros i r q num e H; cbn [rs_loop] in H; [injection H as <- _ _; auto|].
  destruct (readlink fs r) as [c|l]; [injection H as <- _ _; auto|]. cbv zeta in H.
  destruct (rooted (clean l)); [injection H as <- _ _; auto|].
  destruct (is_local (join2 (dir r) (clean l))) eqn:El; cbn [negb] in H; [|injection H as <- _ _; auto].
  destruct (lstat fs (join2 (dir r) (clean l))); [injection H as <- _ _; auto| |injection H as <- _ _; auto].
  exact (IH _ _ _ _ _ H).
Qed.

(* A chain of links is followed to its end when the walk over it is short enough. *)
Lemma rs_loop_complete t fs m : tree_ok t -> answers t fs -> answers_all t m fs -> clean_links t -> forall n i pd x,
  Forall proper (pd ++ [x]) -> tame t pd -> lstat fs (render false (pd ++ [x])) = LLink ->
  forall fl rest, (rest <> [] \/ fl = true) -> forall M r, M < m -> M <= n ->
  kw t fl [] (pd ++ x :: rest) M r ->
  exists q num, rs_loop fs n i (render false (pd ++ [x])) = (q, num, None) /\ q <> [] /\ i < num /\ num <= i + M.
Proof.
  intros Hok Ha Hall Hcl. induction n as [|n IH]; intros i pd x Hp Htame Hls fl rest Hrest M r HM HMn Hk.
  - (* no link can be left to follow *)
    exfalso. destruct Ha as (Ha1 & _ & _). destruct (Ha1 _ Hls) as (m0 & r0 & l & Hk0 & Hl0).
    rewrite split_render_snoc in Hk0 by exact Hp.
    pose proof Hp as Hp'. apply Forall_app in Hp'. destruct Hp' as [Hpd Hpx]. inversion Hpx as [|? ? Hx _]; subst.
    destruct (kw_split_last t [] _ _ _ x pd Hok (proj1 Hok) Hk0 eq_refl Hx) as (D & j & m1 & Hpk & HD & Hlast & _).
    destruct (kw_last_link t D x m1 r0 l Hx Hlast Hl0 Hok) as [-> ->].
    apply (kw_compose t [] pd j D Hpk HD fl (x :: rest) ltac:(left; discriminate)) in Hk. destruct Hk as (N & -> & Hk).
    pose proof (kw_past_link _ _ _ _ _ _ _ _ Hx Hl0 Hrest Hk) as Erl.
    apply (kw_link_iff t fl D x l rest N r Hx Hl0 Erl Hrest) in Hk. destruct Hk as (m2 & -> & _). lia.
  - destruct (proj1 Ha _ Hls) as (m0 & r0 & l & Hk0 & Hl0).
    rewrite split_render_snoc in Hk0 by exact Hp.
    pose proof Hp as Hp'. apply Forall_app in Hp'. destruct Hp' as [Hpd Hpx]. inversion Hpx as [|? ? Hx _]; subst.
    destruct (kw_split_last t [] _ _ _ x pd Hok (proj1 Hok) Hk0 eq_refl Hx) as (D & j & m1 & Hpk & HD & Hlast & Em0).
    destruct (kw_last_link t D x m1 r0 l Hx Hlast Hl0 Hok) as [-> ->].
    apply (kw_compose t [] pd j D Hpk HD fl (x :: rest) ltac:(left; discriminate)) in Hk. destruct Hk as (N & -> & Hk).
    pose proof (kw_past_link _ _ _ _ _ _ _ _ Hx Hl0 Hrest Hk) as Erl.
    apply (kw_link_iff t fl D x l rest N r Hx Hl0 Erl Hrest) in Hk. destruct Hk as (m2 & -> & Hk).
    assert (readlink fs (render false (pd ++ [x])) = RTarget l) as Er.
    { apply (proj1 Hall _ m0 (D ++ [x]) l); [rewrite split_render_snoc by exact Hp; exact Hk0|lia|exact Hl0]. }
    assert (~ In [dot; dot] (split_sep l) \/ real_dir t pd) as Hcase.
    { destruct Htame as [Hn|[_ Hr]]; [left; exact (Hn _ _ Hl0)|right; exact Hr]. }
    assert (l <> []) as Hne by (rewrite <- (Hcl _ _ Hl0); apply clean_nonempty).
    pose proof (join_inside t fl pd j D l rest m2 r Hok Hpd Hpk HD (Hcl _ _ Hl0) Erl Hcase Hk) as Hpcc.
    pose proof (join2_render pd l Hpd Hne) as Hj.
    assert (kw t fl [] (split_sep (join2 (render false pd) l) ++ rest) (j + m2) r) as Hk2.
    { apply (join_faithful t pd j D l fl rest Hok Hpd Hpk HD (Hcl _ _ Hl0) Erl Hrest Hcase Hpcc). exists m2. auto. }
    cbn [rs_loop]. rewrite Er. cbv zeta. rewrite (Hcl _ _ Hl0), Erl.
    assert (dir (render false (pd ++ [x])) = render false pd) as -> by (apply dir_child; [apply proper_normal; exact Hpd|exact Hx]).
    assert (is_local (join2 (render false pd) l) = true) as -> by (rewrite Hj; apply is_local_proper; exact Hpcc). cbn [negb].
    destruct (lstat_answers t fs m fl _ rest _ _ Hok Hall ltac:(instantiate (1 := j + m2); lia) Hk2) as [Els|Els]; rewrite Els.
    + destruct (proj1 Ha _ Els) as (n1 & r1 & l1 & Hk1 & Hl1).
      set (cc := clean_comps false (pd ++ split_sep l)) in *.
      destruct (rev cc) as [|x' pd'r] eqn:Erev.
      * exfalso. assert (cc = []) as Ecc by (apply (f_equal (@rev _)) in Erev; rewrite rev_involutive in Erev; exact Erev).
        rewrite Hj, Ecc in Hk1. change (split_sep (render false [])) with [[dot]] in Hk1. apply (proj1 (kw_dot_iff _ _ _ _ _ _)) in Hk1.
        assert (r1 = []) as E1 by (inversion Hk1; congruence). rewrite E1 in Hl1.
        destruct Hok as [Hroot _]. rewrite Hroot in Hl1. discriminate Hl1.
      * assert (cc = rev pd'r ++ [x']) as Ecc by (apply (f_equal (@rev _)) in Erev; rewrite rev_involutive in Erev; exact Erev).
        assert (tame t (rev pd'r)) as Htame'.
        { destruct Htame as [Hn|[Hdl Hr]]; [left; exact Hn|right]. split; [exact Hdl|].
          destruct (kw_fun _ _ _ _ _ _ (kw_real t pd Hok Hr) _ _ Hpk) as [-> ->].
          apply (Hdl pd x l Hl0 Erl cc eq_refl Hpcc (rev pd'r) x' Ecc). }
        rewrite Hj, Ecc in *.
        rewrite split_render_snoc in Hk2 by exact Hpcc. rewrite <- app_assoc in Hk2. cbn [app] in Hk2.
        destruct (IH (S i) (rev pd'r) x' Hpcc Htame' Els fl rest Hrest (j + m2) r ltac:(lia) ltac:(lia) Hk2) as (q & num & H1 & H2 & H3 & H4).
        exists q, num. split; [exact H1|]. split; [exact H2|]. lia.
    + exists (join2 (render false pd) l), (S i). split; [reflexivity|]. split; [|lia].
      rewrite Hj. pose proof (clean_render false _ (proper_normal _ Hpcc)) as Hc. rewrite <- Hc. apply clean_nonempty.
Qed.

Lemma rp_loop_complete t fs : tree_ok t -> answers t fs -> answers_all t max_links fs -> clean_links t -> (no_climb t \/ direct_links t) ->
  forall fuel todo cur don fl tail M r,
  good (don ++ todo) -> walked t don -> (tail <> [] \/ fl = true) ->
  kw t fl [] (don ++ todo ++ tail) M r -> cur + M < max_links -> M < fuel ->
  exists p n, rp_loop fs fuel cur don todo = ROk p n.
Proof.
  intros Hok Ha Hall Hcl Htame.
  induction fuel as [|fuel IHf]; intros todo; [lia|]. induction todo as [|c rest IHt]; intros cur don fl tail M r Hg Hw Hft Hk Hc HM;
    rewrite rp_loop_eq; cbv zeta; [eexists _, _; reflexivity|].
  assert (pdot (don ++ [c])) as Hp by (apply (pdot_app _ rest); rewrite <- app_assoc; apply Hg).
  assert (good (don ++ [c])) as Hgc by (split; [destruct don; discriminate|exact Hp]).
  assert (split_sep (join_sep (don ++ [c])) = don ++ [c]) as Hsj by (apply split_join; [destruct don; discriminate|apply good_sepfree; exact Hgc]).
  assert (kw t fl [] (split_sep (join_sep (don ++ [c])) ++ rest ++ tail) M r) as Hk1.
  { rewrite Hsj, <- app_assoc. exact Hk. }
  destruct (lstat_answers t fs max_links fl _ _ M r Hok Hall ltac:(lia) Hk1) as [El|El]; rewrite El.
  - destruct (proj1 Ha _ El) as (n0 & r0 & l0 & Hk0 & Hl0). rewrite Hsj in Hk0.
    assert (proper c) as Hpc.
    { destruct don as [|y don]; [|apply (pdot_snoc_proper (y :: don)); [discriminate|exact Hp]].
      cbn [app] in Hp. destruct Hp as [Hp|(l' & E & _)]; [inversion Hp; assumption|]. injection E as -> _. exfalso.
      cbn [app] in Hk0. apply (proj1 (kw_dot_iff _ _ _ _ _ _)) in Hk0.
      assert (r0 = []) as E1 by (inversion Hk0; congruence). rewrite E1 in Hl0. destruct Hok as [Hroot _]. rewrite Hroot in Hl0. discriminate. }
    pose proof (walked_kw t false don [c] n0 r0 Hok Hw ltac:(discriminate) Hk0) as Hreal.
    assert (Forall proper (strip don ++ [c])) as Hsp.
    { apply Forall_app. split; [apply Hreal|]. constructor; [exact Hpc|constructor]. }
    assert (tame t (strip don)) as Ht1 by (destruct Htame; [left; assumption|right; auto]).
    assert (rest ++ tail <> [] \/ fl = true) as Ht2.
    { destruct Hft as [Ht|Ht]; [left; destruct rest; [exact Ht|discriminate]|right; exact Ht]. }
    pose proof Hk as Hk2. change ((c :: rest) ++ tail) with (c :: (rest ++ tail)) in Hk2.
    apply (kw_strip t fl don _ M r (proj1 Hw)) in Hk2.
    apply (kw_strip t false don [c] n0 r0 (proj1 Hw)) in Hk0.
    assert (n0 = 0) as ->.
    { apply (kw_compose t [] _ 0 _ (kw_real t _ Hok Hreal) (proj2 Hreal) false [c] ltac:(left; discriminate)) in Hk0.
      destruct Hk0 as (N & -> & Hk0). destruct (kw_last_link t _ c N r0 l0 Hpc Hk0 Hl0 Hok) as [_ ->]. reflexivity. }
    assert (lstat fs (render false (strip don ++ [c])) = LLink) as El2.
    { apply (proj1 Hall _ 0 r0 l0); [rewrite split_render_snoc by exact Hsp; exact Hk0|unfold max_links; lia|exact Hl0]. }
    destruct (rs_loop_complete t fs max_links Hok Ha Hall Hcl (max_links - cur) 0 _ _ Hsp Ht1 El2 fl (rest ++ tail) Ht2 M r ltac:(lia) ltac:(lia) Hk2)
      as (q & num & Er & Hq & Hn1 & Hn2).
    unfold resolve_symlink. rewrite clean_don by assumption. rewrite Er.
    assert ((max_links <=? cur + num) = false) as -> by (apply Nat.leb_gt; lia).
    assert (is_local q = true) as Hql by (destruct (rs_loop_local _ _ _ _ _ _ _ Er) as [|Hql]; [contradiction|exact Hql]).
    assert (is_empty q || negb (is_local q) = false) as -> by (rewrite Hql; destruct q; [contradiction|reflexivity]).
    destruct (rs_loop_clean _ _ _ _ _ _ _ Er) as [|Hqc]; [contradiction|].
    apply (rs_loop_kernel t fs Hok Ha Hcl _ _ _ _ _ _ Hsp Ht1 Er Hq fl (rest ++ tail) Ht2 M r) in Hk2.
    destruct Hk2 as (N & -> & Hk2).
    apply (IHf (split_sep q ++ rest) (cur + num) [] fl tail N r).
    + cbn [app]. apply good_app; [apply local_clean_good; assumption|]. eapply good_rest. exact Hg.
    + split; [left; constructor|left; apply Hok].
    + exact Hft.
    + cbn [app]. rewrite <- app_assoc. exact Hk2.
    + lia.
    + lia.
  - apply (IHt cur (don ++ [c]) fl tail M r); auto.
    + rewrite <- app_assoc. exact Hg.
    + apply (walked_step t fs don c Hok Ha Hw Hp El).
    + rewrite <- app_assoc. exact Hk.
Qed.

(* A walk over the elements of a clean, local name, and the resolution of it. *)
Lemma resolve_path_answered t fs name skip :
  tree_ok t -> answers t fs -> answers_all t max_links fs -> clean_links t -> (no_climb t \/ direct_links t) ->
  (exists p n, resolve_path fs name skip = ROk p n) <->
  is_local (clean name) = true /\ exists M r, M < max_links /\ kw t true [] (walk_part skip (split_sep (clean name))) M r.
Proof.
  intros Hok Ha Hall Hcl Hcase. assert (walked t []) as Hw0 by (split; [left; constructor|left; apply Hok]).
  assert (0 < max_links) as Hpos by (unfold max_links; lia).
  assert (forall l p n, good l -> rp_loop fs max_links 0 [] l = ROk p n -> n < max_links -> exists M r, M < max_links /\ kw t true [] l M r) as Hback.
  { intros l p n Hg H Hn. destruct (rp_loop_kernel t fs Hok Ha Hcl Hcase _ l 0 [] p n Hg Hw0 H) as (_ & (l' & -> & Hgl & Hwl) & HK).
    specialize (HK true [] ltac:(right; reflexivity) n (strip l')). rewrite Nat.sub_0_r, app_nil_r in HK. cbn [app] in HK.
    exists n, (strip l'). split; [exact Hn|]. apply HK. exists 0. split; [lia|].
    rewrite app_nil_r. rewrite split_join by (try apply good_sepfree; auto; apply Hgl). apply walked_end; auto. }
  pose proof (proj2 (resolve_path_shape fs name skip)) as Hshape. unfold resolve_path in *.
  destruct (bytes_eqb (clean name) [dot]) eqn:Ed.
  { apply bytes_eqb_eq in Ed. rewrite Ed. split; [|intros _; eexists _, _; reflexivity]. intros _. split; [reflexivity|].
    exists 0, []. split; [exact Hpos|]. destruct skip; [apply kw_nil|]. apply kw_dot, kw_nil. }
  assert (clean name <> [dot]) as Hd by (intros E; apply bytes_eqb_eq in E; congruence).
  destruct (is_local (clean name)) eqn:El; cbn [negb] in *; [|split; [intros (p & n & H); discriminate|intros [H _]; discriminate]].
  pose proof (clean_local_good (clean name) (clean_idem name) El Hd) as Hp.
  pose proof (split_nonempty (clean name)) as Hne. destruct skip; cbn [walk_part].
  - pose proof (app_removelast_last' _ [] Hne) as Hs.
    destruct (removelast (split_sep (clean name))) as [|x d] eqn:Er.
    { split; [|intros _; eexists _, _; reflexivity]. intros _. split; [reflexivity|]. exists 0, []. split; [exact Hpos|apply kw_nil]. }
    assert (good ([] ++ x :: d)) as Hg by (split; [discriminate|left; rewrite Hs in Hp; apply Forall_app in Hp; apply Hp]).
    split.
    + intros (p & n & H). split; [reflexivity|]. destruct (Hshape _ _ H) as (_ & Hn & _).
      destruct (rp_loop fs max_links 0 [] (x :: d)) as [p0 n0|p0 e0|] eqn:Eq; [|discriminate|discriminate]. injection H as <- <-.
      exact (Hback _ _ _ Hg Eq Hn).
    + intros (_ & M & r & HM & Hk).
      destruct (rp_loop_complete t fs Hok Ha Hall Hcl Hcase max_links (x :: d) 0 [] true [] M r Hg Hw0 ltac:(right; reflexivity)) as (p & n & ->);
        [cbn [app]; rewrite app_nil_r; exact Hk|lia|lia|]. eexists _, _. reflexivity.
  - assert (good ([] ++ split_sep (clean name))) as Hg by (split; [exact Hne|left; exact Hp]). split.
    + intros (p & n & H). split; [reflexivity|]. destruct (Hshape _ _ H) as (_ & Hn & _). exact (Hback _ _ _ Hg H Hn).
    + intros (_ & M & r & HM & Hk).
      apply (rp_loop_complete t fs Hok Ha Hall Hcl Hcase max_links _ 0 [] true [] M r Hg Hw0 ltac:(right; reflexivity)); [|lia|lia].
      cbn [app]. rewrite app_nil_r. exact Hk.
Qed.

(* ---- the walk as a program ---- *)

Lemma kernel_walk_eq t fl m d todo : kernel_walk t fl m d todo =
    match todo with
    | [] => Some (0, d)
    | c :: rest =>
        if bytes_eqb c [46%N] then kernel_walk t fl m d rest
        else if bytes_eqb c [46%N; 46%N] then match d with [] => None | _ => kernel_walk t fl m (removelast d) rest end
        else if negb (plain_name c) then None
        else match t (d ++ [c]) with
             | None => None
             | Some KDir => kernel_walk t fl m (d ++ [c]) rest
             | Some KFile => match rest with [] => Some (0, d ++ [c]) | _ => None end
             | Some (KLink l) =>
                 if negb fl && (match rest with [] => true | _ => false end) then Some (0, d ++ [c])
                 else if rooted l then None
                 else match m with
                      | O => None
                      | S m => match kernel_walk t fl m d (split_sep l ++ rest) with
                               | Some (n, r) => Some (S n, r)
                               | None => None
                               end
                      end
             end
    end.
Proof. destruct m, todo; reflexivity. Qed.

Lemma plain_name_iff c : plain_name c = true -> c <> [46%N] -> c <> [46%N; 46%N] -> proper c.
Proof.
  intros H H1 H2. unfold plain_name in H. apply andb_true_iff in H. destruct H as [Ha Hb].
  split; [intros ->; discriminate|]. split; [exact H1|]. split; [exact H2|]. intros Hi.
  apply negb_true_iff in Hb. assert (existsb (N.eqb 47%N) c = true) as Hx by (apply existsb_exists; exists sep; split; [exact Hi|reflexivity]). congruence.
Qed.

Lemma proper_plain c : proper c -> plain_name c = true /\ bytes_eqb c [46%N] = false /\ bytes_eqb c [46%N; 46%N] = false.
Proof.
  intros (H1 & H2 & H3 & H4). assert (forall b, c <> b -> bytes_eqb c b = false) as Hne.
  { intros b Hb. destruct (bytes_eqb c b) eqn:E; [|reflexivity]. apply bytes_eqb_eq in E. contradiction. }
  split; [|split; apply Hne; assumption]. unfold plain_name. rewrite (Hne [] H1). cbn [negb andb]. apply negb_true_iff.
  destruct (existsb (N.eqb 47%N) c) eqn:E; [|reflexivity]. apply existsb_exists in E. destruct E as (x & Hi & Hx). apply N.eqb_eq in Hx. subst x. contradiction.
Qed.

Lemma kernel_walk_sound t fl m : forall todo d n r, kernel_walk t fl m d todo = Some (n, r) -> kw t fl d todo n r /\ n <= m.
Proof.
  induction m as [|m IHm]; intros todo; induction todo as [|c rest IH]; intros d n r H; rewrite kernel_walk_eq in H.
  1, 3: injection H as <- <-; split; [apply kw_nil|lia].
  all: destruct (bytes_eqb c [46%N]) eqn:E1;
    [apply bytes_eqb_eq in E1; subst c; destruct (IH _ _ _ H); split; [apply kw_dot; assumption|assumption]|].
  all: destruct (bytes_eqb c [46%N; 46%N]) eqn:E2.
  1, 3: apply bytes_eqb_eq in E2; subst c; destruct d as [|y d]; [discriminate|]; destruct (IH _ _ _ H) as [Hk Hn]; split; [|exact Hn];
    rewrite (app_removelast_last' (y :: d) [] ltac:(discriminate)); apply kw_up; exact Hk.
  all: destruct (plain_name c) eqn:E3; cbn [negb] in H; [|discriminate].
  all: assert (proper c) as Hc by (apply plain_name_iff; [exact E3|intros E; apply bytes_eqb_eq in E; congruence|intros E; apply bytes_eqb_eq in E; congruence]).
  all: destruct (t (d ++ [c])) as [[| |l]|] eqn:Et; [destruct (IH _ _ _ H); split; [apply kw_dir; assumption|assumption]| | |discriminate].
  1, 3: destruct rest; [|discriminate]; injection H as <- <-; split; [apply kw_file; assumption|lia].
  all: destruct (negb fl && match rest with [] => true | _ => false end) eqn:E4;
    [apply andb_true_iff in E4; destruct E4 as [E4 E5]; destruct rest; [|discriminate]; injection H as <- <-;
     split; [eapply kw_keep; eauto; destruct fl; [discriminate|reflexivity]|lia]|].
  all: destruct (rooted l) eqn:E6; [discriminate H|].
  1: discriminate H.
  destruct (kernel_walk t fl m d (split_sep l ++ rest)) as [[n' r']|] eqn:Ek; [|discriminate]. injection H as <- <-.
  apply IHm in Ek. destruct Ek as [Hk Hn]. split; [|lia]. eapply kw_link; eauto.
  destruct rest; [|left; discriminate]. right. destruct fl; [reflexivity|discriminate].
Qed.

Lemma kernel_walk_complete t fl d todo n r : kw t fl d todo n r -> forall m, n <= m -> kernel_walk t fl m d todo = Some (n, r).
Proof.
  induction 1 as [d|d rest n r H IH|d c rest n r H IH|d c rest n r Hc Ht H IH|d c Hc Ht|d c k Hc Ht Hf|d c k rest n r Hc Ht Hl Hr H IH];
    intros m Hm; rewrite kernel_walk_eq; try (destruct (proper_plain c Hc) as (-> & -> & ->); cbn [negb]; rewrite Ht).
  - reflexivity.
  - change (bytes_eqb [dot] [46%N]) with true. cbv iota. apply IH. exact Hm.
  - change (bytes_eqb [dot; dot] [46%N]) with false. change (bytes_eqb [dot; dot] [46%N; 46%N]) with true. cbv iota.
    destruct (d ++ [c]) as [|y q] eqn:E; [destruct d; discriminate|]. rewrite <- E, removelast_last. apply IH. exact Hm.
  - apply IH. exact Hm.
  - reflexivity.
  - subst fl. reflexivity.
  - assert (negb fl && match rest with [] => true | _ => false end = false) as ->.
    { destruct Hr as [Hr| ->]; [|reflexivity]. destruct rest; [contradiction|]. apply andb_false_r. }
    rewrite Hl. destruct m as [|m]; [lia|]. rewrite (IH m) by lia. reflexivity.
Qed.

Lemma kernel_fs_answers t m : answers t (kernel_fs t m) /\ answers_all t (S m) (kernel_fs t m).
Proof.
  split; [split; [|split]|split]; cbn [kernel_fs lstat readlink].
  - intros s. destruct (kernel_walk t false m [] (split_sep s)) as [[n r]|] eqn:E; [|discriminate].
    apply kernel_walk_sound in E. destruct (t r) as [[| |l]|] eqn:Et; try discriminate. intros _. exists n, r, l. split; [apply E|exact Et].
  - intros s. destruct (kernel_walk t false m [] (split_sep s)) as [[n r]|] eqn:E; [|discriminate].
    apply kernel_walk_sound in E. destruct (t r) as [[| |l]|] eqn:Et; try discriminate; intros _; exists n, r; (split; [apply E|auto]).
  - intros s l. destruct (kernel_walk t false m [] (split_sep s)) as [[n r]|] eqn:E; [|discriminate].
    apply kernel_walk_sound in E. destruct (t r) as [[| |l']|] eqn:Et; try discriminate. intros H. injection H as <-. exists n, r. split; [apply E|exact Et].
  - intros s n r l Hk Hn Ht. rewrite (kernel_walk_complete _ _ _ _ _ _ Hk m) by lia. rewrite Ht. auto.
  - intros s n r Hk Hn Ht. rewrite (kernel_walk_complete _ _ _ _ _ _ Hk m) by lia. destruct Ht as [-> | ->]; reflexivity.
Qed.

(* ---- what a failure says ---- *)

Lemma rs_loop_why fs n : forall i r q num e, rs_loop fs n i r = (q, num, e) ->
  match e with
  | Some (ErrSys c) => fs_said fs c
  | Some ErrEscapes => False
  | Some ErrLoop => num = i + n
  | None => q = [] -> leads_out fs
  end.
Proof.
  induction n as [|n IH]; intros i r q num e H; cbn [rs_loop] in H; [injection H as <- <- <-; lia|].
  destruct (readlink fs r) as [c|l] eqn:Er; [injection H as <- <- <-; exists r; auto|]. cbv zeta in H.
  destruct (rooted (clean l)) eqn:Ec; [injection H as <- <- <-; intros _; exists r, l; split; [exact Er|left; rewrite <- rooted_clean; exact Ec]|].
  destruct (is_local (join2 (dir r) (clean l))) eqn:El; cbn [negb] in H; [|injection H as <- <- <-; intros _; exists r, l; auto].
  destruct (lstat fs (join2 (dir r) (clean l))) as [c| |] eqn:Es.
  - injection H as <- <- <-. eexists. left. exact Es.
  - apply IH in H. destruct e as [[| |]|]; try exact H. lia.
  - injection H as <- <- <-. intros E. exfalso. destruct (dir_nonempty r). destruct (dir r); [reflexivity|]. unfold join2 in E.
    exfalso. eapply clean_nonempty. exact E.
Qed.

Lemma rp_loop_why fs : forall fuel todo cur don p e, rp_loop fs fuel cur don todo = RFail p e ->
  match e with
  | ErrSys c => fs_said fs c
  | ErrEscapes => leads_out fs
  | ErrLoop => True
  end.
Proof.
  induction fuel as [|fuel IHf]; intros todo; induction todo as [|c rest IHt]; intros cur don p e H; rewrite rp_loop_eq in H; cbv zeta in H; try discriminate.
  all: destruct (lstat fs (join_sep (don ++ [c]))) as [ec| |] eqn:El; [injection H as <- <-; eexists; left; exact El| |exact (IHt _ _ _ _ H)].
  all: destruct (resolve_symlink fs (join_sep (don ++ [c])) (max_links - cur)) as [[q num] e'] eqn:Er; unfold resolve_symlink in Er.
  all: pose proof (rs_loop_why _ _ _ _ _ _ _ Er) as Hw.
  all: destruct e' as [e'|]; [injection H as <- <-; destruct e'; [contradiction|exact I|exact Hw]|].
  all: destruct (max_links <=? cur + num); [injection H as <- <-; exact I|].
  all: destruct (is_empty q || negb (is_local q)) eqn:Eq; [injection H as <- <-; apply Hw; destruct q as [|b q]; [reflexivity|];
    destruct (rs_loop_local _ _ _ _ _ _ _ Er) as [|Hl]; [discriminate|]; rewrite Hl in Eq; discriminate|].
  - discriminate.
  - exact (IHf _ _ _ _ _ H).
Qed.

Lemma resolve_path_why fs name skip p e : resolve_path fs name skip = RFail p e ->
  match e with
  | ErrSys c => fs_said fs c
  | ErrEscapes => is_local (clean name) = false \/ leads_out fs
  | ErrLoop => True
  end.
Proof.
  unfold resolve_path. destruct (bytes_eqb (clean name) [dot]); [discriminate|].
  destruct (is_local (clean name)); cbn [negb]; [|intros H; injection H as <- <-; left; reflexivity].
  destruct skip.
  - destruct (removelast (split_sep (clean name))) as [|x d]; [discriminate|].
    destruct (rp_loop fs max_links 0 [] (x :: d)) as [p0 n0|p0 e0|] eqn:Eq; [discriminate| |discriminate].
    intros H. injection H as <- <-. apply rp_loop_why in Eq. destruct e0; auto.
  - intros H. apply rp_loop_why in H. destruct e; auto.
Qed.

(* ---- walks that end, however long ---- *)

(* A chain is followed to its end, or given up as too long. *)
Lemma rs_loop_ends t fs m : tree_ok t -> answers t fs -> answers_all t m fs -> clean_links t -> forall n i pd x,
  Forall proper (pd ++ [x]) -> tame t pd -> lstat fs (render false (pd ++ [x])) = LLink ->
  forall fl rest, (rest <> [] \/ fl = true) -> forall M r, M < m ->
  kw t fl [] (pd ++ x :: rest) M r ->
  exists q num, rs_loop fs n i (render false (pd ++ [x])) = (q, num, None) /\ q <> [] /\ i < num /\ num <= i + M \/
    rs_loop fs n i (render false (pd ++ [x])) = (q, num, Some ErrLoop).
Proof.
  intros Hok Ha Hall Hcl. induction n as [|n IH]; intros i pd x Hp Htame Hls fl rest Hrest M r HM Hk.
  - exists [], i. right. reflexivity.
  - destruct (proj1 Ha _ Hls) as (m0 & r0 & l & Hk0 & Hl0).
    rewrite split_render_snoc in Hk0 by exact Hp.
    pose proof Hp as Hp'. apply Forall_app in Hp'. destruct Hp' as [Hpd Hpx]. inversion Hpx as [|? ? Hx _]; subst.
    destruct (kw_split_last t [] _ _ _ x pd Hok (proj1 Hok) Hk0 eq_refl Hx) as (D & j & m1 & Hpk & HD & Hlast & Em0).
    destruct (kw_last_link t D x m1 r0 l Hx Hlast Hl0 Hok) as [-> ->].
    apply (kw_compose t [] pd j D Hpk HD fl (x :: rest) ltac:(left; discriminate)) in Hk. destruct Hk as (N & -> & Hk).
    pose proof (kw_past_link _ _ _ _ _ _ _ _ Hx Hl0 Hrest Hk) as Erl.
    apply (kw_link_iff t fl D x l rest N r Hx Hl0 Erl Hrest) in Hk. destruct Hk as (m2 & -> & Hk).
    assert (readlink fs (render false (pd ++ [x])) = RTarget l) as Er.
    { apply (proj1 Hall _ m0 (D ++ [x]) l); [rewrite split_render_snoc by exact Hp; exact Hk0|lia|exact Hl0]. }
    assert (~ In [dot; dot] (split_sep l) \/ real_dir t pd) as Hcase.
    { destruct Htame as [Hn|[_ Hr]]; [left; exact (Hn _ _ Hl0)|right; exact Hr]. }
    assert (l <> []) as Hne by (rewrite <- (Hcl _ _ Hl0); apply clean_nonempty).
    pose proof (join_inside t fl pd j D l rest m2 r Hok Hpd Hpk HD (Hcl _ _ Hl0) Erl Hcase Hk) as Hpcc.
    pose proof (join2_render pd l Hpd Hne) as Hj.
    assert (kw t fl [] (split_sep (join2 (render false pd) l) ++ rest) (j + m2) r) as Hk2.
    { apply (join_faithful t pd j D l fl rest Hok Hpd Hpk HD (Hcl _ _ Hl0) Erl Hrest Hcase Hpcc). exists m2. auto. }
    cbn [rs_loop]. rewrite Er. cbv zeta. rewrite (Hcl _ _ Hl0), Erl.
    assert (dir (render false (pd ++ [x])) = render false pd) as -> by (apply dir_child; [apply proper_normal; exact Hpd|exact Hx]).
    assert (is_local (join2 (render false pd) l) = true) as -> by (rewrite Hj; apply is_local_proper; exact Hpcc). cbn [negb].
    destruct (lstat_answers t fs m fl _ rest _ _ Hok Hall ltac:(instantiate (1 := j + m2); lia) Hk2) as [Els|Els]; rewrite Els.
    + destruct (proj1 Ha _ Els) as (n1 & r1 & l1 & Hk1 & Hl1).
      set (cc := clean_comps false (pd ++ split_sep l)) in *.
      destruct (rev cc) as [|x' pd'r] eqn:Erev.
      * exfalso. assert (cc = []) as Ecc by (apply (f_equal (@rev _)) in Erev; rewrite rev_involutive in Erev; exact Erev).
        rewrite Hj, Ecc in Hk1. change (split_sep (render false [])) with [[dot]] in Hk1. apply (proj1 (kw_dot_iff _ _ _ _ _ _)) in Hk1.
        assert (r1 = []) as E1 by (inversion Hk1; congruence). rewrite E1 in Hl1.
        destruct Hok as [Hroot _]. rewrite Hroot in Hl1. discriminate Hl1.
      * assert (cc = rev pd'r ++ [x']) as Ecc by (apply (f_equal (@rev _)) in Erev; rewrite rev_involutive in Erev; exact Erev).
        assert (tame t (rev pd'r)) as Htame'.
        { destruct Htame as [Hn|[Hdl Hr]]; [left; exact Hn|right]. split; [exact Hdl|].
          destruct (kw_fun _ _ _ _ _ _ (kw_real t pd Hok Hr) _ _ Hpk) as [-> ->].
          apply (Hdl pd x l Hl0 Erl cc eq_refl Hpcc (rev pd'r) x' Ecc). }
        rewrite Hj, Ecc in *.
        rewrite split_render_snoc in Hk2 by exact Hpcc. rewrite <- app_assoc in Hk2. cbn [app] in Hk2.
        destruct (IH (S i) (rev pd'r) x' Hpcc Htame' Els fl rest Hrest (j + m2) r ltac:(lia) Hk2) as (q & num & [(H1 & H2 & H3 & H4)|H1]).
        -- exists q, num. left. split; [exact H1|]. split; [exact H2|]. lia.
        -- exists q, num. right. exact H1.
    + exists (join2 (render false pd) l), (S i). left. split; [reflexivity|]. split; [|lia].
      rewrite Hj. pose proof (clean_render false _ (proper_normal _ Hpcc)) as Hc. rewrite <- Hc. apply clean_nonempty.
Qed.

Lemma rp_loop_ends t fs m : tree_ok t -> answers t fs -> answers_all t m fs -> clean_links t -> (no_climb t \/ direct_links t) ->
  forall fuel todo cur don fl tail M r,
  good (don ++ todo) -> walked t don -> (tail <> [] \/ fl = true) ->
  kw t fl [] (don ++ todo ++ tail) M r -> M < m ->
  (exists p n, rp_loop fs fuel cur don todo = ROk p n) \/ (exists p, rp_loop fs fuel cur don todo = RFail p ErrLoop) \/
  rp_loop fs fuel cur don todo = RFuel.
Proof.
  intros Hok Ha Hall Hcl Htame.
  induction fuel as [fuel IHf] using lt_wf_ind; intros todo; induction todo as [|c rest IHt]; intros cur don fl tail M r Hg Hw Hft Hk HM;
    rewrite rp_loop_eq; cbv zeta; [left; eexists _, _; reflexivity|].
  assert (pdot (don ++ [c])) as Hp by (apply (pdot_app _ rest); rewrite <- app_assoc; apply Hg).
  assert (good (don ++ [c])) as Hgc by (split; [destruct don; discriminate|exact Hp]).
  assert (split_sep (join_sep (don ++ [c])) = don ++ [c]) as Hsj by (apply split_join; [destruct don; discriminate|apply good_sepfree; exact Hgc]).
  assert (kw t fl [] (split_sep (join_sep (don ++ [c])) ++ rest ++ tail) M r) as Hk1.
  { rewrite Hsj, <- app_assoc. exact Hk. }
  destruct (lstat_answers t fs m fl _ _ M r Hok Hall ltac:(lia) Hk1) as [El|El]; rewrite El.
  - destruct (proj1 Ha _ El) as (n0 & r0 & l0 & Hk0 & Hl0). rewrite Hsj in Hk0.
    assert (proper c) as Hpc.
    { destruct don as [|y don]; [|apply (pdot_snoc_proper (y :: don)); [discriminate|exact Hp]].
      cbn [app] in Hp. destruct Hp as [Hp|(l' & E & _)]; [inversion Hp; assumption|]. injection E as -> _. exfalso.
      cbn [app] in Hk0. apply (proj1 (kw_dot_iff _ _ _ _ _ _)) in Hk0.
      assert (r0 = []) as E1 by (inversion Hk0; congruence). rewrite E1 in Hl0. destruct Hok as [Hroot _]. rewrite Hroot in Hl0. discriminate. }
    pose proof (walked_kw t false don [c] n0 r0 Hok Hw ltac:(discriminate) Hk0) as Hreal.
    assert (Forall proper (strip don ++ [c])) as Hsp.
    { apply Forall_app. split; [apply Hreal|]. constructor; [exact Hpc|constructor]. }
    assert (tame t (strip don)) as Ht1 by (destruct Htame; [left; assumption|right; auto]).
    assert (rest ++ tail <> [] \/ fl = true) as Ht2.
    { destruct Hft as [Ht|Ht]; [left; destruct rest; [exact Ht|discriminate]|right; exact Ht]. }
    pose proof Hk as Hk2. change ((c :: rest) ++ tail) with (c :: (rest ++ tail)) in Hk2.
    apply (kw_strip t fl don _ M r (proj1 Hw)) in Hk2.
    apply (kw_strip t false don [c] n0 r0 (proj1 Hw)) in Hk0.
    assert (n0 = 0) as ->.
    { apply (kw_compose t [] _ 0 _ (kw_real t _ Hok Hreal) (proj2 Hreal) false [c] ltac:(left; discriminate)) in Hk0.
      destruct Hk0 as (N & -> & Hk0). destruct (kw_last_link t _ c N r0 l0 Hpc Hk0 Hl0 Hok) as [_ ->]. reflexivity. }
    assert (lstat fs (render false (strip don ++ [c])) = LLink) as El2.
    { apply (proj1 Hall _ 0 r0 l0); [rewrite split_render_snoc by exact Hsp; exact Hk0|lia|exact Hl0]. }
    destruct (rs_loop_ends t fs m Hok Ha Hall Hcl (max_links - cur) 0 _ _ Hsp Ht1 El2 fl (rest ++ tail) Ht2 M r ltac:(lia) Hk2)
      as (q & num & [(Er & Hq & Hn1 & Hn2)|Er]); unfold resolve_symlink; rewrite clean_don by assumption; rewrite Er; [|right; left; eexists; reflexivity].
    destruct (max_links <=? cur + num); [right; left; eexists; reflexivity|].
    assert (is_local q = true) as Hql by (destruct (rs_loop_local _ _ _ _ _ _ _ Er) as [|Hql]; [contradiction|exact Hql]).
    assert (is_empty q || negb (is_local q) = false) as -> by (rewrite Hql; destruct q; [contradiction|reflexivity]).
    destruct (rs_loop_clean _ _ _ _ _ _ _ Er) as [|Hqc]; [contradiction|].
    apply (rs_loop_kernel t fs Hok Ha Hcl _ _ _ _ _ _ Hsp Ht1 Er Hq fl (rest ++ tail) Ht2 M r) in Hk2.
    destruct Hk2 as (N & -> & Hk2).
    destruct fuel as [|fuel]; [right; right; reflexivity|].
    apply (IHf fuel ltac:(lia) (split_sep q ++ rest) (cur + num) [] fl tail N r).
    + cbn [app]. apply good_app; [apply local_clean_good; assumption|]. eapply good_rest. exact Hg.
    + split; [left; constructor|left; apply Hok].
    + exact Hft.
    + cbn [app]. rewrite <- app_assoc. exact Hk2.
    + lia.
  - apply (IHt cur (don ++ [c]) fl tail M r); auto.
    + rewrite <- app_assoc. exact Hg.
    + apply (walked_step t fs don c Hok Ha Hw Hp El).
    + rewrite <- app_assoc. exact Hk.
Qed.

Lemma answers_all_le t m m' fs : m <= m' -> answers_all t m' fs -> answers_all t m fs.
Proof.
  intros Hm [H1 H2]. split.
  - intros s n r l Hk Hn. apply H1 with (n := n); [exact Hk|lia].
  - intros s n r Hk Hn. apply H2 with (n := n); [exact Hk|lia].
Qed.

Lemma resolve_path_long t fs name skip M r :
  tree_ok t -> answers t fs -> answers_all t (S M) fs -> clean_links t -> (no_climb t \/ direct_links t) ->
  is_local (clean name) = true -> kw t true [] (walk_part skip (split_sep (clean name))) M r ->
  max_links <= M -> exists p, resolve_path fs name skip = RFail p ErrLoop.
Proof.
  intros Hok Ha Hall Hcl Hcase Hloc Hk HM.
  assert (walked t []) as Hw0 by (split; [left; constructor|left; apply Hok]).
  assert (forall p n, resolve_path fs name skip <> ROk p n) as Hno.
  { intros p n H. destruct (proj1 (resolve_path_answered t fs name skip Hok Ha (answers_all_le t max_links (S M) fs ltac:(lia) Hall) Hcl Hcase) (ex_intro _ p (ex_intro _ n H))) as (_ & M' & r' & HM' & Hk').
    destruct (kw_fun _ _ _ _ _ _ Hk _ _ Hk') as [-> _]. lia. }
  pose proof (proj1 (resolve_path_shape fs name skip)) as Hnf. unfold resolve_path in *.
  destruct (bytes_eqb (clean name) [dot]) eqn:Ed; [destruct (Hno _ _ eq_refl)|].
  assert (clean name <> [dot]) as Hd by (intros E; apply bytes_eqb_eq in E; congruence).
  rewrite Hloc in *. cbn [negb] in *.
  pose proof (clean_local_good (clean name) (clean_idem name) Hloc Hd) as Hp.
  pose proof (split_nonempty (clean name)) as Hne. destruct skip; cbn [walk_part] in Hk.
  - pose proof (app_removelast_last' _ [] Hne) as Hs.
    destruct (removelast (split_sep (clean name))) as [|x d] eqn:Er; [destruct (Hno _ _ eq_refl)|].
    assert (good ([] ++ x :: d)) as Hg by (split; [discriminate|left; rewrite Hs in Hp; apply Forall_app in Hp; apply Hp]).
    assert (kw t true [] ([] ++ (x :: d) ++ []) M r) as Hk2 by (cbn [app]; rewrite app_nil_r; exact Hk).
    destruct (rp_loop_ends t fs (S M) Hok Ha Hall Hcl Hcase max_links (x :: d) 0 [] true [] M r Hg Hw0 ltac:(right; reflexivity) Hk2 ltac:(lia)) as [(p & n & E)|[(p & E)|E]];
      rewrite E in *; [destruct (Hno _ _ eq_refl)|eexists; reflexivity|destruct (Hnf eq_refl)].
  - assert (good ([] ++ split_sep (clean name))) as Hg by (split; [exact Hne|left; exact Hp]).
    assert (kw t true [] ([] ++ split_sep (clean name) ++ []) M r) as Hk2 by (cbn [app]; rewrite app_nil_r; exact Hk).
    destruct (rp_loop_ends t fs (S M) Hok Ha Hall Hcl Hcase max_links _ 0 [] true [] M r Hg Hw0 ltac:(right; reflexivity) Hk2 ltac:(lia)) as [(p & n & E)|[(p & E)|E]];
      rewrite E in *; [destruct (Hno _ _ eq_refl)|eexists; reflexivity|destruct (Hnf eq_refl)].
Qed.
