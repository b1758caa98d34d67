(* Confinement of the overlay's entry points. *)
From Verif Require Import Common CommonLemmas ContentRange_Model ContentRange_Proofs PathLex_Model PathLex_Proofs
  Resolve_Model Resolve_Spec Resolve_Proofs Resolve_Kernel OverlayRoot_Model OverlayRoot_Spec.
From Verif Require Masks_Model.
Open Scope nat_scope.

Lemma join_nil_iff l : Forall proper l -> join_sep l = [] -> l = [].
Proof.
  intros Hp H. destruct l as [|a l]; [reflexivity|]. inversion Hp as [|? ? Ha _]; subst.
  exfalso. destruct Ha as [Ha _]. destruct l; cbn in H; [contradiction|]. destruct a; [contradiction|discriminate].
Qed.

Lemma child_join b l : Forall proper b -> Forall proper l -> l <> [] -> child_name (join_sep b) (join_sep l) = join_sep (b ++ l).
Proof.
  intros Hb Hl Hne. destruct b as [|a b]; [reflexivity|].
  rewrite join_app by (try discriminate; exact Hne).
  destruct (join_sep (a :: b)) as [|x y] eqn:E; [apply join_nil_iff in E; [discriminate|exact Hb]|].
  destruct (join_sep l) as [|x' y'] eqn:E'; [apply join_nil_iff in E'; [contradiction|exact Hl]|].
  reflexivity.
Qed.

(* The elements a local name has below the view's root. *)
Lemma name_elems b p n : Forall proper b -> ov_name (join_sep b) p = Some n ->
  Forall proper (clean_comps false (split_sep p)) /\ rooted p = false /\ n = join_sep (b ++ clean_comps false (split_sep p)).
Proof.
  intros Hb. unfold ov_name. cbv zeta. destruct (is_local (clean p)) eqn:El; cbn [negb]; [|discriminate].
  pose proof (proj1 (is_local_comps (clean p)) El) as (H1 & H2 & H3).
  rewrite rooted_clean in H2.
  assert (clean_comps false (split_sep (clean p)) = clean_comps false (split_sep p)) as E.
  { unfold clean. rewrite H2. apply comps_render. apply clean_comps_normal. apply split_sepfree. }
  assert (Forall proper (clean_comps false (split_sep p))) as Hp by (rewrite <- E; exact H3).
  intros H. split; [exact Hp|]. split; [exact H2|].
  assert (clean p = render false (clean_comps false (split_sep p))) as Er by (unfold clean; rewrite H2; reflexivity).
  rewrite Er in H. destruct (clean_comps false (split_sep p)) as [|c l] eqn:Ec.
  - cbn [render] in H. change (bytes_eqb [dot] [dot]) with true in H. rewrite app_nil_r. congruence.
  - cbn [render] in H. destruct (bytes_eqb (join_sep (c :: l)) [dot]) eqn:Ed.
    + apply bytes_eqb_eq in Ed. exfalso.
      assert (split_sep (join_sep (c :: l)) = [[dot]]) as Es by (rewrite Ed; reflexivity).
      rewrite split_join in Es by (try discriminate; apply proper_sepfree; exact Hp). inversion Es; subst.
      inversion Hp as [|? ? Hc _]; subst. destruct Hc as (_ & Hc & _). apply Hc; reflexivity.
    + rewrite child_join in H by (try discriminate; assumption). congruence.
Qed.

Lemma ov_name_within b p n : Forall proper b -> ov_name (join_sep b) p = Some n -> within b n.
Proof. intros Hb H. destruct (name_elems b p n Hb H) as (H1 & _ & ->). exists (clean_comps false (split_sep p)). auto. Qed.

Lemma local_name b p : Forall proper b -> is_local p = true -> ov_name (join_sep b) p = Some (join_sep (b ++ clean_comps false (split_sep p))).
Proof.
  intros Hb H. destruct (ov_name (join_sep b) p) as [n|] eqn:E.
  - destruct (name_elems b p n Hb E) as (_ & _ & ->). reflexivity.
  - exfalso. unfold ov_name in E. cbv zeta in E.
    assert (is_local (clean p) = true) as Hl.
    { apply is_local_comps in H. destruct H as (H1 & H2 & H3). apply is_local_comps.
      split; [apply clean_nonempty|]. split; [rewrite rooted_clean; exact H2|].
      unfold clean. rewrite H2. rewrite comps_render by (apply clean_comps_normal; apply split_sepfree). exact H3. }
    rewrite Hl in E. cbn [negb] in E. destruct (bytes_eqb (clean p) [dot]); discriminate.
Qed.

Lemma resolve_skip_not_dot fs name p n : clean name <> [dot] -> resolve_path fs name true = ROk p n -> p <> [dot].
Proof.
  intros Hd. unfold resolve_path. cbv zeta.
  destruct (bytes_eqb (clean name) [dot]) eqn:E; [apply bytes_eqb_eq in E; contradiction|].
  destruct (negb (is_local (clean name))); [discriminate|].
  destruct (removelast (split_sep (clean name))) as [|x d]; [intros H; injection H as <- _; exact Hd|].
  destruct (rp_loop fs max_links 0 [] (x :: d)) as [p0 n0| |]; try discriminate. intros H. injection H as <- _. intros E2.
  destruct p0 as [|a p0]; [discriminate E2|]. cbn [app] in E2. injection E2 as _ E2. destruct p0; discriminate E2.
Qed.

Lemma good_firstn l k : good l -> pdot (firstn k l).
Proof. intros H. apply (pdot_app (firstn k l) (skipn k l)). rewrite firstn_skipn. apply good_pdot. exact H. Qed.

Lemma join_pdot_comps l : pdot l -> l <> [] -> clean_comps false (split_sep (join_sep l)) = strip l.
Proof.
  intros H Hn. rewrite split_join; [apply strip_comps; exact H|exact Hn|]. apply good_sepfree. split; [exact Hn|exact H].
Qed.

Definition solid (m : merged) (b l : list (list byte)) : Prop :=
  forall k, 1 <= k <= length l -> m (join_sep (b ++ firstn k l)) = MDir \/ m (join_sep (b ++ firstn k l)) = MFile.

Lemma solid_strip m b l : Forall proper b -> good l -> link_free (resolver (join_sep b) m) l -> solid m b (strip l).
Proof.
  intros Hb Hg Hl k Hk.
  assert (exists j, 1 <= j <= length l /\ firstn j l <> [] /\ strip (firstn j l) = firstn k (strip l)) as (j & Hj & Hne & Es).
  { destruct l as [|c l]; [cbn in Hk; lia|]. cbn [strip] in Hk |- *. destruct (is_dot c) eqn:Ec.
    - exists (S k). cbn [length firstn strip]. rewrite Ec. split; [lia|]. split; [discriminate|reflexivity].
    - exists k. destruct k as [|k]; [lia|]. cbn [firstn strip]. rewrite Ec. split; [exact Hk|]. split; [discriminate|reflexivity]. }
  specialize (Hl j Hj). cbn [lstat resolver] in Hl. unfold ov_lstat in Hl.
  rewrite local_name in Hl; [|exact Hb|apply good_local; split; [exact Hne|exact (good_firstn l j Hg)]].
  rewrite join_pdot_comps in Hl by (try exact Hne; apply good_firstn; exact Hg). rewrite Es in Hl.
  destruct (m (join_sep (b ++ firstn k (strip l)))) eqn:Em; try discriminate; auto.
Qed.

Lemma ov_resolve_spec b m name skip full : Forall proper b -> ov_resolve (join_sep b) m name skip = NOk full ->
  exists l, Forall proper l /\ full = join_sep (b ++ l) /\ solid m b (if skip then removelast l else l) /\
    (skip = true -> clean name <> [dot] -> l <> []).
Proof.
  intros Hb H. unfold ov_resolve in H. destruct (resolve_path_shape (resolver (join_sep b) m) name skip) as [_ Hs].
  destruct (resolve_path (resolver (join_sep b) m) name skip) as [p n| |] eqn:Er; try discriminate.
  destruct (Hs p n eq_refl) as (Hloc & _ & l & -> & Hg & Hfree). clear Hs.
  rewrite local_name in H by assumption. rewrite join_pdot_comps in H by (try apply good_pdot; try apply Hg; exact Hg).
  injection H as <-. exists (strip l). split; [apply pdot_strip, good_pdot, Hg|]. split; [reflexivity|].
  assert (join_sep l = [dot] -> l = [[dot]]) as Hdot.
  { intros E. rewrite <- (split_join l); [rewrite E; reflexivity|apply Hg|apply good_sepfree; exact Hg]. }
  split.
  - destruct Hfree as [E|Hf].
    + rewrite (Hdot E). change (strip [[dot]]) with (@nil (list byte)). destruct skip; intros k Hk; cbn in Hk; lia.
    + destruct skip; [|apply solid_strip; assumption].
      destruct (removelast (strip l)) as [|x y] eqn:Ex; [intros k Hk; cbn in Hk; lia|]. rewrite <- Ex.
      assert (removelast l <> []) as Hne.
      { intros E. destruct l as [|c [|c' l]]; [destruct Hg; contradiction| |discriminate E]. cbn in Ex. destruct (is_dot c); discriminate Ex. }
      assert (removelast (strip l) = strip (removelast l)) as Ec.
      { destruct l as [|c l]; [reflexivity|]. destruct l as [|c' l]; [contradiction|].
        cbn [strip]. change (removelast (c :: c' :: l)) with (c :: removelast (c' :: l)). cbn [strip]. destruct (is_dot c); reflexivity. }
      rewrite Ec. apply solid_strip; [exact Hb| |exact Hf]. split; [exact Hne|].
      pose proof (app_removelast_last [] (proj1 Hg)) as Hl. apply (pdot_app (removelast l) [last l []]). rewrite <- Hl. apply good_pdot, Hg.
  - intros -> Hc E. pose proof (resolve_skip_not_dot _ _ _ _ Hc Er) as Hnd. apply Hnd.
    destruct l as [|c l]; [destruct Hg; contradiction|]. cbn [strip] in E. destruct (is_dot c) eqn:Ed; [|discriminate].
    subst l. apply is_dot_true in Ed. subst c. reflexivity.
Qed.

Lemma ov_resolve_ends b m name skip : ov_resolve b m name skip <> NFuel.
Proof.
  unfold ov_resolve. destruct (resolve_path_shape (resolver b m) name skip) as [H _].
  destruct (resolve_path (resolver b m) name skip) as [p n| |]; [destruct (ov_name b p); discriminate|discriminate|contradiction].
Qed.

Lemma peel_within b m : Forall proper b -> forall head rs full, Forall proper head -> Forall proper rs ->
  peel (join_sep b) m head (join_sep rs) = NOk full -> beneath b full.
Proof.
  intros Hb head. induction head as [|c up IH]; intros rs full Hh Hr H; [discriminate|].
  inversion Hh as [|? ? Hc Hup]; subst. cbn [peel] in H.
  destruct (ov_resolve (join_sep b) m (join_sep (rev (c :: up))) true) as [r|e|] eqn:Er; [| |discriminate].
  - injection H as <-. destruct (ov_resolve_spec b m _ true r Hb Er) as (l & Hl & -> & _ & Hne).
    assert (l <> []) as Hl2.
    { apply Hne; [reflexivity|]. intros E. assert (Forall proper (rev (c :: up))) as Hp by (apply Forall_rev; exact Hh).
      assert (rev (c :: up) <> []) as Hn by (cbn [rev]; intros E2; apply app_eq_nil in E2; destruct E2; discriminate).
      assert (clean (join_sep (rev (c :: up))) = render false (rev (c :: up))) as Ec.
      { rewrite <- (clean_render false (rev (c :: up))) by (apply proper_normal; exact Hp). f_equal.
        destruct (rev (c :: up)); [contradiction|reflexivity]. }
      rewrite Ec in E. apply (render_inj false (rev (c :: up)) []) in E; [contradiction|apply proper_normal; exact Hp|apply normal_nil]. }
    destruct rs as [|r0 rs].
    + exists l. split; [exact Hl2|]. split; [exact Hl|]. unfold Masks_Model.child_name. cbn [join_sep]. destruct (join_sep (b ++ l)); reflexivity.
    + exists (l ++ r0 :: rs). split; [destruct l; discriminate|]. split; [apply Forall_app; split; assumption|].
      rewrite child_join by (try discriminate; try assumption; apply Forall_app; split; assumption). rewrite <- app_assoc. reflexivity.
  - destruct (not_exist e); [|discriminate]. destruct up as [|c' up]; [discriminate|].
    apply (IH (c :: rs) full); [exact Hup|constructor; assumption|].
    replace (join_sep (c :: rs)) with (child_name c (join_sep rs)); [exact H|].
    destruct rs as [|r0 rs].
    + unfold Masks_Model.child_name. cbn [join_sep]. destruct c; reflexivity.
    + exact (child_join [c] (r0 :: rs) (Forall_cons c Hc (Forall_nil _)) Hr ltac:(discriminate)).
Qed.

Lemma clean_proper p : is_local (clean p) = true -> clean p <> [dot] -> Forall proper (split_sep (clean p)).
Proof. intros H Hd. apply clean_local_good; [apply clean_idem|exact H|exact Hd]. Qed.

Lemma within_self b : within b (join_sep b). Proof. exists []. rewrite app_nil_r. auto. Qed.
Lemma beneath_within b full : beneath b full -> within b full. Proof. intros (l & _ & H). exists l. exact H. Qed.

Lemma mkdir_all_name_within b m name full : Forall proper b -> mkdir_all_name (join_sep b) m name = NOk full -> within b full.
Proof.
  intros Hb. unfold mkdir_all_name. cbv zeta. destruct (bytes_eqb (clean name) [dot]) eqn:E.
  - intros H. injection H as <-. apply within_self.
  - destruct (is_local (clean name)) eqn:El; cbn [negb]; [|discriminate]. intros H.
    apply beneath_within. apply (peel_within b m Hb (rev (split_sep (clean name))) []); [|constructor|exact H].
    apply Forall_rev. apply clean_proper; [exact El|]. intros Ed. rewrite Ed in E. discriminate.
Qed.

Lemma ov_resolve_within b m name skip full : Forall proper b -> ov_resolve (join_sep b) m name skip = NOk full -> within b full.
Proof. intros Hb H. destruct (ov_resolve_spec b m name skip full Hb H) as (l & Hl & -> & _). exists l. auto. Qed.

Lemma locate_reaches b m name skip full : Forall proper b -> locate (join_sep b) m name skip = NOk full ->
  (forall c, m full <> MErr c) /\ (skip = false -> full = join_sep b \/ m full = MDir \/ m full = MFile).
Proof.
  intros Hb. unfold locate. destruct (ov_resolve (join_sep b) m name skip) as [n|e|] eqn:E; try discriminate.
  intros H. assert (n = full /\ forall c, m full <> MErr c) as [-> Hm].
  { destruct (m n) eqn:Em; try discriminate; split; try congruence. }
  split; [exact Hm|]. intros ->. destruct (ov_resolve_spec _ _ _ _ _ Hb E) as (l & _ & -> & Hs & _).
  destruct l as [|x l]; [left; rewrite app_nil_r; reflexivity|]. right.
  specialize (Hs (length (x :: l))). rewrite firstn_all in Hs. apply Hs. cbn [length]. lia.
Qed.
Lemma reads_reach b m skip name full : Forall proper b -> In (NOk full) (names_of (join_sep b) m (QRead skip name)) ->
  (forall c, m full <> MErr c) /\ (skip = false -> full = join_sep b \/ m full = MDir \/ m full = MFile).
Proof. intros Hb [H|[]]. exact (locate_reaches b m name skip full Hb H). Qed.
Lemma locate_within b m name skip full : Forall proper b -> locate (join_sep b) m name skip = NOk full -> within b full.
Proof.
  intros Hb. unfold locate. destruct (ov_resolve (join_sep b) m name skip) as [n|e|] eqn:E; try discriminate.
  pose proof (ov_resolve_within _ _ _ _ _ Hb E) as Hw. destruct (m n); intros H; try discriminate; injection H as <-; exact Hw.
Qed.

Lemma write_name_within b m name cr full : Forall proper b -> write_name (join_sep b) m name cr = NOk full -> within b full.
Proof.
  intros Hb. unfold write_name. destruct (ov_resolve (join_sep b) m name false) as [n|e|] eqn:E; try discriminate.
  - intros H. injection H as <-. exact (ov_resolve_within _ _ _ _ _ Hb E).
  - destruct (cr && not_exist e); [|discriminate]. apply ov_resolve_within. exact Hb.
Qed.

Lemma structural_beneath b m name full : Forall proper b -> structural (join_sep b) m name = NOk full -> beneath b full.
Proof.
  intros Hb. unfold structural, names_self. destruct (bytes_eqb (clean name) [dot]) eqn:E; [discriminate|].
  destruct (ov_resolve (join_sep b) m name true) as [n|e|] eqn:Er; try discriminate. intros H.
  assert (n = full) as -> by (destruct n; [discriminate|congruence]).
  destruct (ov_resolve_spec b m name true full Hb Er) as (l & Hl & -> & _ & Hne). exists l. split; [|split; [exact Hl|reflexivity]].
  apply Hne; [reflexivity|]. intros Ed. rewrite Ed in E. discriminate.
Qed.

(* Every name a call works on is the view's root or below it. *)
Lemma names_within b m q full : Forall proper b -> In (NOk full) (names_of (join_sep b) m q) ->
  within b full /\ (takes_away q -> beneath b full).
Proof.
  intros Hb H. destruct q; cbn [names_of In takes_away] in *;
    repeat (destruct H as [H|H]; [first
      [ split; [|intros []]; first [ eapply locate_within; eassumption | eapply ov_resolve_within; eassumption
                                   | eapply write_name_within; eassumption | eapply mkdir_all_name_within; eassumption ]
      | pose proof (structural_beneath _ _ _ _ Hb H); split; [apply beneath_within; assumption|intros _; assumption] ]|]);
    destruct H.
Qed.

Lemma within_proper b full : Forall proper b -> within b full -> exists l, Forall proper l /\ full = join_sep l /\ exists r, l = b ++ r.
Proof. intros Hb (l & Hl & ->). exists (b ++ l). split; [apply Forall_app; split; assumption|]. split; [reflexivity|]. exists l. reflexivity. Qed.

Lemma within_trans b l full : within (b ++ l) full -> Forall proper l -> within b full.
Proof. intros (r & Hr & ->) Hl. exists (l ++ r). split; [apply Forall_app; split; assumption|]. rewrite app_assoc. reflexivity. Qed.

Lemma open_root_within b m name base : Forall proper b -> open_root (join_sep b) m name = NOk base -> within b base /\ m base = MDir.
Proof.
  intros Hb. unfold open_root. destruct (locate (join_sep b) m name false) as [n|e|] eqn:E; try discriminate.
  pose proof (locate_within _ _ _ _ _ Hb E). destruct (m n) eqn:Em; intros H1; try discriminate. injection H1 as <-. auto.
Qed.

Lemma open_roots_within ms : forall b base, Forall proper b -> open_roots (join_sep b) ms = NOk base ->
  exists l, Forall proper l /\ base = join_sep (b ++ l).
Proof.
  induction ms as [|[m name] ms IH]; intros b base Hb H; cbn [open_roots] in H.
  - injection H as <-. exists []. rewrite app_nil_r. auto.
  - destruct (open_root (join_sep b) m name) as [b1|e|] eqn:E; try discriminate.
    destruct (open_root_within _ _ _ _ Hb E) as [(l1 & Hl1 & ->) _].
    destruct (IH (b ++ l1) base) as (l2 & Hl2 & ->); [apply Forall_app; split; assumption|exact H|].
    exists (l1 ++ l2). split; [apply Forall_app; split; assumption|]. rewrite app_assoc. reflexivity.
Qed.

(* ---- only the view's own names are asked about ---- *)
Lemma rs_loop_ext f g : (forall p, lstat f p = lstat g p) -> (forall p, readlink f p = readlink g p) ->
  forall n i p, rs_loop f n i p = rs_loop g n i p.
Proof.
  intros H1 H2 n. induction n as [|n IH]; intros i p; [reflexivity|]. cbn [rs_loop]. rewrite H2.
  destruct (readlink g p) as [c|t]; [reflexivity|]. cbv zeta. destruct (rooted (clean t)); [reflexivity|].
  destruct (negb (is_local (join2 (dir p) (clean t)))); [reflexivity|]. rewrite H1.
  destruct (lstat g (join2 (dir p) (clean t))); [reflexivity|apply IH|reflexivity].
Qed.

Lemma rp_loop_ext f g : (forall p, lstat f p = lstat g p) -> (forall p, readlink f p = readlink g p) ->
  forall fuel todo cur don, rp_loop f fuel cur don todo = rp_loop g fuel cur don todo.
Proof.
  intros H1 H2 fuel. induction fuel as [|fuel IHf]; intros todo; induction todo as [|c rest IHt]; intros cur don;
    rewrite (rp_loop_eq f), (rp_loop_eq g); try reflexivity; cbv zeta; rewrite H1; unfold resolve_symlink; rewrite (rs_loop_ext f g H1 H2);
    destruct (lstat g (join_sep (don ++ [c]))); try reflexivity; try apply IHt.
  destruct (rs_loop g (max_links - cur) 0 (clean (join_sep (don ++ [c])))) as [[q num] e].
  destruct e; [reflexivity|]. destruct (max_links <=? cur + num); [reflexivity|]. destruct (is_empty q || negb (is_local q)); [reflexivity|].
  apply IHf.
Qed.

Lemma resolve_path_ext f g name skip : (forall p, lstat f p = lstat g p) -> (forall p, readlink f p = readlink g p) ->
  resolve_path f name skip = resolve_path g name skip.
Proof.
  intros H1 H2. unfold resolve_path. cbv zeta. destruct (bytes_eqb (clean name) [dot]); [reflexivity|].
  destruct (negb (is_local (clean name))); [reflexivity|]. destruct skip; [|apply rp_loop_ext; assumption].
  destruct (removelast (split_sep (clean name))) as [|x d]; [reflexivity|]. rewrite (rp_loop_ext f g H1 H2). reflexivity.
Qed.

Section SameInside.
Variables (b : list (list byte)) (m1 m2 : merged).
Hypothesis Hb : Forall proper b.
Hypothesis Hm : forall full, within b full -> m1 full = m2 full.

Lemma same_resolve name skip : ov_resolve (join_sep b) m1 name skip = ov_resolve (join_sep b) m2 name skip.
Proof.
  unfold ov_resolve. rewrite (resolve_path_ext (resolver (join_sep b) m1) (resolver (join_sep b) m2)); [reflexivity| |];
    intros p; cbn [lstat readlink resolver]; unfold ov_lstat, ov_readlink; destruct (ov_name (join_sep b) p) as [n|] eqn:E; try reflexivity;
    rewrite (Hm n (ov_name_within b p n Hb E)); reflexivity.
Qed.
Lemma same_locate name skip : locate (join_sep b) m1 name skip = locate (join_sep b) m2 name skip.
Proof.
  unfold locate. rewrite same_resolve. destruct (ov_resolve (join_sep b) m2 name skip) as [n|e|] eqn:E; try reflexivity.
  rewrite (Hm n (ov_resolve_within _ _ _ _ _ Hb E)). reflexivity.
Qed.
Lemma same_peel head : forall rest, peel (join_sep b) m1 head rest = peel (join_sep b) m2 head rest.
Proof.
  induction head as [|c up IH]; intros rest; [reflexivity|]. cbn [peel]. rewrite same_resolve.
  destruct (ov_resolve (join_sep b) m2 (join_sep (rev (c :: up))) true); try reflexivity. destruct (not_exist e); [|reflexivity].
  destruct up; [reflexivity|apply IH].
Qed.
Lemma same_names q : names_of (join_sep b) m1 q = names_of (join_sep b) m2 q.
Proof.
  destruct q; cbn [names_of]; unfold write_name, structural, mkdir_all_name; rewrite ?same_locate, ?same_resolve, ?same_peel; reflexivity.
Qed.
Lemma same_open_root name : open_root (join_sep b) m1 name = open_root (join_sep b) m2 name.
Proof.
  unfold open_root. rewrite same_locate. destruct (locate (join_sep b) m2 name false) as [n|e|] eqn:E; try reflexivity.
  rewrite (Hm n (locate_within _ _ _ _ _ Hb E)). reflexivity.
Qed.
End SameInside.
