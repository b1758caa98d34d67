(* A sub-root resolves a name to what the view it came from resolves the longer name to. *)
From Verif Require Import Common CommonLemmas ContentRange_Model ContentRange_Proofs PathLex_Model PathLex_Proofs
  Resolve_Model Resolve_Spec Resolve_Proofs Resolve_Kernel OverlayRoot_Model OverlayRoot_Spec OverlayRoot_Proofs OverlayRootTree_Proofs.
Open Scope nat_scope.

Lemma fold_keeps_up x : forall st, In [dot; dot] st -> In [dot; dot] (fold_left (clean_step false) x st).
Proof.
  induction x as [|c x IH]; intros st H; [exact H|]. cbn [fold_left]. apply IH. unfold clean_step.
  destruct (is_empty c || is_dot c); [exact H|]. destruct (is_dotdot c) eqn:E; [|right; exact H].
  apply is_dotdot_true in E. subst c. destruct st as [|top st]; [destruct H|]. destruct (is_dotdot top) eqn:Et; [left; reflexivity|].
  destruct H as [->|H]; [|exact H]. discriminate Et.
Qed.

Lemma fold_over d x : forall st, Forall proper (fold_left (clean_step false) x st) ->
  fold_left (clean_step false) x (st ++ d) = fold_left (clean_step false) x st ++ d.
Proof.
  induction x as [|c x IH]; intros st H; [reflexivity|]. cbn [fold_left] in *.
  replace (clean_step false (st ++ d) c) with (clean_step false st c ++ d); [apply IH; exact H|].
  unfold clean_step. destruct (is_empty c || is_dot c); [reflexivity|]. destruct (is_dotdot c) eqn:E; [|reflexivity].
  destruct st as [|top st]; [|cbn [app]; destruct (is_dotdot top); reflexivity]. exfalso.
  apply is_dotdot_true in E. subst c.
  pose proof (fold_keeps_up x [[dot; dot]] (or_introl eq_refl)) as Hin.
  change (clean_step false [] [dot; dot]) with [[dot; dot]] in H. rewrite Forall_forall in H. destruct (H _ Hin) as (_ & _ & Hx & _). apply Hx. reflexivity.
Qed.

Lemma clean_comps_under d x : Forall proper d -> Forall proper (clean_comps false x) -> clean_comps false (d ++ x) = d ++ clean_comps false x.
Proof.
  intros Hd Hx. unfold clean_comps in *. rewrite fold_left_app, (fold_proper false d Hd). rewrite app_nil_r.
  change (rev d) with ([] ++ rev d). rewrite fold_over.
  - rewrite rev_app_distr, rev_involutive. reflexivity.
  - apply Forall_rev in Hx. rewrite rev_involutive in Hx. exact Hx.
Qed.

Lemma last_app_ne {A} (l r : list A) x : r <> [] -> last (l ++ r) x = last r x.
Proof.
  intros H. induction l as [|a l IH]; [reflexivity|]. cbn [app]. rewrite <- IH. cbn [last]. destruct (l ++ r) eqn:E; [|reflexivity].
  apply app_eq_nil in E. destruct E. contradiction.
Qed.

(* ResolvePath of a clean text, by the number of its elements. *)
Lemma resolve_elems fs c skip : Forall proper c -> c <> [] -> resolve_path fs (join_sep c) skip =
  if skip then
    if match removelast c with [] => true | _ => false end then ROk (join_sep c) 0
    else match rp_loop fs max_links 0 [] (removelast c) with ROk p n => ROk (p ++ sep :: last c []) n | o => o end
  else rp_loop fs max_links 0 [] c.
Proof.
  intros Hp Hn. destruct (clean_join c Hp Hn) as (Kc & Kl & Kd). unfold resolve_path. cbv zeta. rewrite Kc, Kl, Kd. cbn [negb].
  rewrite split_join by (try exact Hn; apply proper_sepfree; exact Hp). destruct skip; [|reflexivity]. destruct (removelast c); reflexivity.
Qed.

Section Sub.
Variables (b d : list (list byte)) (m : merged).
Hypothesis Hb : Forall proper b.
Hypothesis Hd : Forall proper d.
Hypothesis Hdn : d <> [].
Hypothesis Hdir : forall k, 1 <= k <= length d -> m (join_sep (b ++ firstn k d)) = MDir.

Let sub := resolver (join_sep (b ++ d)) m.
Let par := resolver (join_sep b) m.

Lemma bd_proper : Forall proper (b ++ d). Proof. apply Forall_app; split; assumption. Qed.

(* A clean local text and its elements. *)
Definition spells (r : list byte) (c : list (list byte)) : Prop := is_local r = true /\ clean_comps false (split_sep r) = c /\ Forall proper c.

Lemma spells_local r : is_local r = true -> spells r (clean_comps false (split_sep r)).
Proof. intros H. split; [exact H|]. split; [reflexivity|]. apply is_local_comps in H. apply H. Qed.

Lemma spells_join c : Forall proper c -> c <> [] -> spells (join_sep c) c.
Proof.
  intros H Hn. split; [apply good_local; split; [exact Hn|left; exact H]|]. split; [|exact H].
  rewrite join_pdot_comps by (try exact Hn; left; exact H). apply strip_proper. exact H.
Qed.

Lemma same_lstat r c : spells r c -> lstat sub r = lstat par (join_sep (d ++ c)).
Proof.
  intros (H1 & H2 & H3). destruct (spells_join (d ++ c)) as (J1 & J2 & _); [apply Forall_app; split; assumption|destruct d; [contradiction|discriminate]|].
  unfold sub, par. cbn [lstat resolver]. unfold ov_lstat.
  rewrite (local_name (b ++ d) r bd_proper H1), (local_name b _ Hb J1), H2, J2, <- app_assoc. reflexivity.
Qed.
Lemma same_readlink r c : spells r c -> readlink sub r = readlink par (join_sep (d ++ c)).
Proof.
  intros (H1 & H2 & H3). destruct (spells_join (d ++ c)) as (J1 & J2 & _); [apply Forall_app; split; assumption|destruct d; [contradiction|discriminate]|].
  unfold sub, par. cbn [readlink resolver]. unfold ov_readlink.
  rewrite (local_name (b ++ d) r bd_proper H1), (local_name b _ Hb J1), H2, J2, <- app_assoc. reflexivity.
Qed.

(* Dir and Join on both sides. *)
Lemma dir_spells c : Forall proper c -> c <> [] -> dir (join_sep c) = render false (removelast c).
Proof.
  intros Hc Hn. pose proof (app_removelast_last [] Hn) as E. rewrite E at 1.
  assert (join_sep (removelast c ++ [last c []]) = render false (removelast c ++ [last c []])) as Er by (destruct (removelast c); reflexivity).
  rewrite Er. apply dir_child.
  - apply proper_normal. apply removelast_proper. exact Hc.
  - rewrite E in Hc. apply Forall_app in Hc. destruct Hc as [_ Hc]. inversion Hc; assumption.
Qed.

Lemma join_dir c t : Forall proper c -> c <> [] -> rooted t = false -> t <> [] ->
  join2 (dir (join_sep c)) t = render false (clean_comps false (removelast c ++ split_sep t)).
Proof.
  intros Hc Hn Ht Htn. rewrite dir_spells by assumption. unfold join2.
  assert (clean (render false (removelast c) ++ sep :: t) = render false (clean_comps false (removelast c ++ split_sep t))) as E.
  { unfold clean. assert (rooted (render false (removelast c) ++ sep :: t) = false) as Er.
    { pose proof (rooted_render false (removelast c) (proper_normal _ (removelast_proper _ Hc))) as H.
      destruct (render false (removelast c)) as [|x y] eqn:Ex; [|exact H].
      destruct (removelast c) as [|x y] eqn:Ey; [discriminate Ex|]. cbn [render] in Ex. apply join_nil_iff in Ex; [discriminate|]. rewrite <- Ey. apply removelast_proper. exact Hc. }
    rewrite Er. f_equal. rewrite split_app_gen. destruct (removelast c) as [|x y] eqn:Ex.
    - reflexivity.
    - cbn [render]. rewrite split_join; [reflexivity|discriminate|]. apply proper_sepfree. rewrite <- Ex. apply removelast_proper. exact Hc. }
  destruct (render false (removelast c)) as [|x y] eqn:Ex; [|exact E].
  destruct (removelast c) as [|x y] eqn:Ey; [discriminate Ex|]. cbn [render] in Ex. apply join_nil_iff in Ex; [discriminate|].
  rewrite <- Ey. apply removelast_proper. exact Hc.
Qed.

Lemma base_dir : lstat sub [dot] = LOther.
Proof.
  unfold sub. cbn [lstat resolver]. unfold ov_lstat. rewrite (local_name (b ++ d) [dot] bd_proper eq_refl).
  change (clean_comps false (split_sep [dot])) with (@nil (list byte)). rewrite app_nil_r.
  assert (1 <= length d <= length d) as Hk by (destruct d; [contradiction|cbn; lia]). specialize (Hdir (length d) Hk). rewrite firstn_all in Hdir.
  rewrite Hdir. reflexivity.
Qed.

Lemma rs_sim n : forall i c q num, Forall proper c -> c <> [] -> q <> [] -> rs_loop sub n i (join_sep c) = (q, num, None) ->
  exists cq, Forall proper cq /\ q = render false cq /\ rs_loop par n i (join_sep (d ++ c)) = (join_sep (d ++ cq), num, None).
Proof.
  induction n as [|n IH]; intros i c q num Hc Hn Hq H; [discriminate|]. cbn [rs_loop] in *.
  rewrite (same_readlink (join_sep c) c (spells_join c Hc Hn)) in H.
  destruct (readlink par (join_sep (d ++ c))) as [e|t]; [discriminate|]. cbv zeta in *.
  destruct (rooted (clean t)) eqn:Ert; [injection H as <- _; contradiction|].
  assert (Forall proper (d ++ c)) as Hdc by (apply Forall_app; split; assumption).
  assert (d ++ c <> []) as Hdcn by (destruct d; [contradiction|discriminate]).
  rewrite (join_dir c (clean t) Hc Hn Ert (clean_nonempty t)) in H.
  rewrite (join_dir (d ++ c) (clean t) Hdc Hdcn Ert (clean_nonempty t)). rewrite removelast_app by exact Hn. rewrite <- app_assoc.
  set (x := removelast c ++ split_sep (clean t)) in *.
  destruct (is_local (render false (clean_comps false x))) eqn:El; cbn [negb] in H; [|injection H as <- _; contradiction].
  assert (normal false (clean_comps false x)) as Hnx.
  { apply clean_comps_normal. unfold x. apply Forall_app. split; [apply proper_sepfree, removelast_proper; exact Hc|apply split_sepfree]. }
  pose proof (is_local_render _ Hnx El) as Hp. rewrite (clean_comps_under d x Hd Hp). set (cq := clean_comps false x) in *. clearbody cq.
  assert (d ++ cq <> []) as Hne by (destruct d; [contradiction|discriminate]).
  assert (Forall proper (d ++ cq)) as Hdq by (apply Forall_app; split; assumption).
  assert (render false (d ++ cq) = join_sep (d ++ cq)) as Er by (destruct (d ++ cq); [contradiction|reflexivity]). rewrite Er.
  destruct (spells_join (d ++ cq) Hdq Hne) as (Hl1 & _). rewrite Hl1. cbn [negb].
  assert (lstat sub (render false cq) = lstat par (join_sep (d ++ cq))) as Els.
  { apply same_lstat. split; [exact El|]. split; [apply comps_render; exact Hnx|exact Hp]. }
  rewrite Els in H. destruct (lstat par (join_sep (d ++ cq))) eqn:Ell; [discriminate| |].
  - destruct cq as [|y cq]; [cbn [render] in Els; rewrite base_dir in Els; discriminate|].
    apply (IH (S i) (y :: cq) q num Hp); [discriminate|exact Hq|exact H].
  - injection H as <- <-. exists cq. auto.
Qed.

Lemma rp_walk fs fuel cur : forall x don rest, (forall k, 1 <= k <= length x -> lstat fs (join_sep (don ++ firstn k x)) = LOther) ->
  rp_loop fs fuel cur don (x ++ rest) = rp_loop fs fuel cur (don ++ x) rest.
Proof.
  induction x as [|c x IH]; intros don rest H; [rewrite app_nil_r; reflexivity|]. cbn [app]. rewrite rp_loop_eq. cbv zeta.
  pose proof (H 1 ltac:(cbn; lia)) as H1. cbn [firstn] in H1. rewrite H1. rewrite IH; [rewrite <- app_assoc; reflexivity|].
  intros k Hk. rewrite <- app_assoc. apply (H (S k)). cbn [length]. lia.
Qed.

Lemma walk_d fuel cur rest : rp_loop par fuel cur [] (d ++ rest) = rp_loop par fuel cur d rest.
Proof.
  rewrite rp_walk; [reflexivity|]. intros k Hk. cbn [app]. unfold par. rewrite (lstat_join b m d k Hb Hd Hk). rewrite (Hdir k Hk). reflexivity.
Qed.

Definition left_over (don todo : list (list byte)) : list (list byte) := match don with [] => strip todo | _ => todo end.

Lemma rp_sim fuel : forall todo cur don p n, pdot (don ++ todo) -> rp_loop sub fuel cur don todo = ROk p n -> (don = [] -> todo <> []) ->
  exists c, Forall proper c /\ clean_comps false (split_sep p) = c /\ is_local p = true /\
    rp_loop par fuel cur (d ++ strip don) (left_over don todo) = ROk (join_sep (d ++ c)) n.
Proof.
  induction fuel as [|fuel IHf]; intros todo; induction todo as [|c rest IHt]; intros cur don p n Hg H Hne.
  1, 3: rewrite rp_loop_eq in H; injection H as <- <-; rewrite app_nil_r in Hg;
    assert (don <> []) as Hdon by (intros ->; apply Hne; reflexivity);
    exists (strip don); split; [apply pdot_strip; exact Hg|]; split; [apply join_pdot_comps; assumption|];
    split; [apply good_local; split; assumption|]; unfold left_over; destruct don; [contradiction|]; rewrite rp_loop_eq; reflexivity.
  all: rewrite rp_loop_eq in H; cbv zeta in H.
  all: destruct (is_dot c && match don with [] => true | _ => false end) eqn:Ed.
  1, 3: apply andb_true_iff in Ed; destruct Ed as [Ed1 Ed2]; destruct don; [|discriminate]; apply is_dot_true in Ed1; subst c;
    cbn [app] in H, Hg; change (join_sep [[dot]]) with [dot] in H; rewrite base_dir in H;
    destruct (IHt cur [[dot]] p n Hg H ltac:(discriminate)) as (c & H1 & H2 & H3 & H4); exists c; split; [exact H1|]; split; [exact H2|]; split; [exact H3|];
    exact H4.
  all: assert (proper c) as Hcp by
    (destruct don as [|x don];
      [destruct Hg as [Hg|(l' & E & Hg)]; cbn [app] in *; [inversion Hg; assumption|injection E as -> ->; discriminate Ed]
      |destruct Hg as [Hg|(l' & E & Hg)]; [apply Forall_app in Hg; destruct Hg as [_ Hg]; inversion Hg; assumption
                                           |cbn [app] in E; injection E as -> <-; apply Forall_app in Hg; destruct Hg as [_ Hg]; inversion Hg; assumption]]).
  all: assert (left_over don (c :: rest) = c :: rest) as El by
    (unfold left_over; destruct don; [cbn [strip]; destruct (proper_tests c Hcp) as (_ & -> & _)|]; reflexivity).
  all: rewrite El; rewrite (rp_loop_eq par); cbv zeta.
  all: assert (pdot (don ++ [c])) as Hg1 by (apply (pdot_app (don ++ [c]) rest); rewrite <- app_assoc; exact Hg).
  all: assert (strip (don ++ [c]) = strip don ++ [c]) as Es by
    (destruct don; [cbn [app strip]; destruct (proper_tests c Hcp) as (_ & -> & _); reflexivity|apply strip_snoc; discriminate]).
  all: assert (don ++ [c] <> []) as Hne1 by (destruct don; discriminate).
  all: assert (Forall proper (strip don ++ [c])) as Hpc by (rewrite <- Es; apply pdot_strip; exact Hg1).
  all: assert (strip don ++ [c] <> []) as Hne2 by (destruct (strip don); discriminate).
  all: assert (lstat sub (join_sep (don ++ [c])) = lstat par (join_sep ((d ++ strip don) ++ [c]))) as Els by
    (rewrite <- app_assoc; apply same_lstat; split; [apply good_local; split; assumption|]; split; [rewrite join_pdot_comps by assumption; exact Es|exact Hpc]).
  all: rewrite Els in H; destruct (lstat par (join_sep ((d ++ strip don) ++ [c]))) as [e| |] eqn:Ell; [discriminate| |].
  2, 4: destruct (IHt cur (don ++ [c]) p n) as (c' & H1 & H2 & H3 & H4);
    [rewrite <- app_assoc; exact Hg|exact H|intros E; contradiction|];
    exists c'; split; [exact H1|]; split; [exact H2|]; split; [exact H3|];
    rewrite Es in H4; rewrite <- app_assoc; replace (left_over (don ++ [c]) rest) with rest in H4 by (destruct don; reflexivity); exact H4.
  all: unfold resolve_symlink in *.
  all: assert (clean (join_sep (don ++ [c])) = join_sep (strip don ++ [c])) as Ec1 by
    (rewrite clean_don by assumption; destruct (strip don); reflexivity).
  all: assert (clean (join_sep ((d ++ strip don) ++ [c])) = join_sep (d ++ strip don ++ [c])) as Ec2 by
    (rewrite <- app_assoc; apply clean_join; [apply Forall_app; split; assumption|destruct d; [contradiction|discriminate]]).
  all: rewrite Ec1 in H; rewrite Ec2.
  all: destruct (rs_loop sub (max_links - cur) 0 (join_sep (strip don ++ [c]))) as [[q num] e] eqn:Ers; destruct e as [e|]; [discriminate|].
  all: destruct (max_links <=? cur + num) eqn:Em; [discriminate|].
  all: destruct (is_empty q) eqn:Eq1; cbn [orb] in H; [discriminate|]; destruct (is_local q) eqn:Eq2; cbn [negb] in H; [|discriminate].
  1: discriminate H.
  assert (q <> []) as Hq by (intros ->; discriminate Eq1).
  destruct (rs_sim (max_links - cur) 0 (strip don ++ [c]) q num Hpc Hne2 Hq Ers) as (cq & Hcq & -> & Hpar). rewrite Hpar. rewrite Em.
  assert (d ++ cq <> []) as Hne3 by (destruct d; [contradiction|discriminate]).
  assert (Forall proper (d ++ cq)) as Hdq by (apply Forall_app; split; assumption).
  destruct (spells_join (d ++ cq) Hdq Hne3) as (Hl1 & _). rewrite Hl1. cbn [negb].
  assert (is_empty (join_sep (d ++ cq)) = false) as Eem.
  { destruct (join_sep (d ++ cq)) eqn:E; [apply join_nil_iff in E; [contradiction|exact Hdq]|reflexivity]. }
  rewrite Eem. cbn [orb]. rewrite split_join by (try exact Hne3; apply proper_sepfree; exact Hdq). rewrite <- app_assoc, walk_d.
  assert (Forall proper rest) as Hrest.
  { destruct don as [|x don]; destruct Hg as [Hg|(l' & E & Hg)].
    - cbn [app] in Hg. inversion Hg; assumption.
    - cbn [app] in E. injection E as _ ->. exact Hg.
    - apply Forall_app in Hg. destruct Hg as [_ Hg]. inversion Hg; assumption.
    - cbn [app] in E. injection E as _ <-. apply Forall_app in Hg. destruct Hg as [_ Hg]. inversion Hg; assumption. }
  rewrite split_render in H by (apply proper_normal; exact Hcq).
  destruct (IHf (match cq with [] => [[dot]] | _ => cq end ++ rest) (cur + num) [] p n) as (c' & H1 & H2 & H3 & H4).
  - cbn [app]. destruct cq as [|y cq]; [right; exists rest; auto|left; apply Forall_app; split; assumption].
  - cbn [render] in H. destruct cq; exact H.
  - intros _. destruct cq; discriminate.
  - exists c'. split; [exact H1|]. split; [exact H2|]. split; [exact H3|].
    replace (left_over [] (match cq with [] => [[dot]] | _ => cq end ++ rest)) with (cq ++ rest) in H4.
    + cbn [strip] in H4. rewrite app_nil_r in H4. exact H4.
    + unfold left_over. destruct cq as [|y cq]; [reflexivity|]. cbn [app strip]. inversion Hcq as [|? ? Hy _]; subst.
      destruct (proper_tests y Hy) as (_ & -> & _). reflexivity.
Qed.

Lemma long_name name : is_local (clean name) = true -> clean (join_sep d ++ sep :: name) = join_sep (d ++ clean_comps false (split_sep name)).
Proof.
  intros Hl. apply is_local_comps in Hl. destruct Hl as (_ & Hr & Hp). rewrite rooted_clean in Hr.
  assert (clean_comps false (split_sep (clean name)) = clean_comps false (split_sep name)) as E.
  { unfold clean. rewrite Hr. apply comps_render. apply clean_comps_normal. apply split_sepfree. }
  rewrite E in Hp. unfold clean.
  assert (rooted (join_sep d ++ sep :: name) = false) as Hr2.
  { pose proof (rooted_render false d (proper_normal d Hd)) as H. assert (render false d = join_sep d) as Er by (destruct d; [contradiction|reflexivity]).
    rewrite Er in H. destruct (join_sep d) eqn:Ej; [apply join_nil_iff in Ej; [contradiction|exact Hd]|exact H]. }
  rewrite Hr2, split_app_gen, split_join by (try exact Hdn; apply proper_sepfree; exact Hd).
  rewrite clean_comps_under by assumption. destruct (d ++ clean_comps false (split_sep name)) eqn:Ed; [destruct d; [contradiction|discriminate]|reflexivity].
Qed.

Lemma resolve_clean bs x y skip : clean x = clean y -> ov_resolve bs m x skip = ov_resolve bs m y skip.
Proof. intros E. unfold ov_resolve, resolve_path. cbv zeta. rewrite E. reflexivity. Qed.

Lemma sub_agrees name skip full : ov_resolve (join_sep (b ++ d)) m name skip = NOk full ->
  ov_resolve (join_sep b) m (join_sep d ++ sep :: name) skip = NOk full.
Proof.
  intros H. assert (is_local (clean name) = true) as Hl.
  { destruct (is_local (clean name)) eqn:E; [reflexivity|]. unfold ov_resolve in H. rewrite resolve_path_nonlocal in H by exact E. discriminate. }
  pose proof Hl as Hl0. apply is_local_comps in Hl0. destruct Hl0 as (_ & Hr & Hp). rewrite rooted_clean in Hr.
  assert (clean_comps false (split_sep (clean name)) = clean_comps false (split_sep name)) as E.
  { unfold clean. rewrite Hr. apply comps_render. apply clean_comps_normal. apply split_sepfree. }
  rewrite E in Hp. clear E. pose proof (long_name name Hl) as Hlong. set (c := clean_comps false (split_sep name)) in *.
  assert (clean name = render false c) as Ecn by (unfold clean; rewrite Hr; reflexivity).
  assert (Forall proper (d ++ c)) as Hdc by (apply Forall_app; split; assumption).
  assert (d ++ c <> []) as Hdcn by (destruct d; [contradiction|discriminate]).
  rewrite (resolve_clean (join_sep b) _ (join_sep (d ++ c)) skip).
  2:{ rewrite Hlong. symmetry. apply clean_join; assumption. }
  assert (forall p, is_local p = true -> forall c0, clean_comps false (split_sep p) = c0 -> Forall proper c0 ->
    match ov_name (join_sep (b ++ d)) p with Some n => NOk n | None => NErr ErrEscapes end = NOk full ->
    match ov_name (join_sep b) (join_sep (d ++ c0)) with Some n => NOk n | None => NErr ErrEscapes end = NOk full) as Hfin.
  { intros p Hlp c0 Hc0 Hpc0 Hn. rewrite (local_name (b ++ d) p bd_proper Hlp), Hc0 in Hn.
    assert (Forall proper (d ++ c0)) as K1 by (apply Forall_app; split; assumption).
    assert (d ++ c0 <> []) as K2 by (destruct d; [contradiction|discriminate]).
    destruct (spells_join (d ++ c0) K1 K2) as (J1 & J2 & _). rewrite (local_name b _ Hb J1), J2, app_assoc. exact Hn. }
  destruct (list_eq_dec (list_eq_dec N.eq_dec) c []) as [Hc0|Hcn].
  - rewrite Hc0 in *. rewrite app_nil_r.
    assert (full = join_sep (b ++ d)) as ->.
    { rewrite (resolve_clean (join_sep (b ++ d)) name [dot] skip) in H by (rewrite Ecn; reflexivity). unfold ov_resolve, resolve_path in H. cbv zeta in H.
      change (clean [dot]) with [dot] in H. change (bytes_eqb [dot] [dot]) with true in H. cbv iota in H.
      rewrite (local_name (b ++ d) [dot] bd_proper eq_refl) in H. change (clean_comps false (split_sep [dot])) with (@nil (list byte)) in H. rewrite app_nil_r in H. congruence. }
    destruct skip.
    + exact (resolve_dirs b m d Hb Hd Hdn (fun k Hk => Hdir k ltac:(lia))).
    + unfold ov_resolve. fold par. rewrite resolve_elems by assumption. pose proof (walk_d max_links 0 []) as Hw. rewrite app_nil_r in Hw. rewrite Hw, rp_loop_eq.
      destruct (spells_join d Hd Hdn) as (J1 & J2 & _). rewrite (local_name b _ Hb J1), J2. reflexivity.
  - assert (render false c = join_sep c) as Er by (destruct c; [contradiction|reflexivity]).
    rewrite (resolve_clean (join_sep (b ++ d)) name (join_sep c) skip) in H by (rewrite Ecn, Er; symmetry; apply clean_join; assumption).
    clearbody c. unfold ov_resolve in *. fold sub in H. fold par.
    rewrite (resolve_elems sub c skip Hp Hcn) in H. rewrite (resolve_elems par (d ++ c) skip Hdc Hdcn). destruct skip.
    + rewrite removelast_app by exact Hcn. rewrite last_app_ne by exact Hcn.
      assert (match d ++ removelast c with [] => true | _ => false end = false) as Ene by (destruct d; [contradiction|reflexivity]).
      rewrite Ene, walk_d.
      assert (Forall proper (removelast c) /\ proper (last c [])) as [Hpr Hpl].
      { rewrite (app_removelast_last [] Hcn) in Hp. apply Forall_app in Hp. destruct Hp as [Hp1 Hp2]. split; [exact Hp1|]. inversion Hp2; assumption. }
      destruct (match removelast c with [] => true | _ => false end) eqn:Erl.
      * assert (removelast c = []) as Erl2 by (destruct (removelast c); [reflexivity|discriminate]). rewrite Erl2, rp_loop_eq, join_snoc by exact Hdn.
        assert (c = [last c []]) as Ec1 by (rewrite (app_removelast_last [] Hcn) at 1; rewrite Erl2; reflexivity). rewrite <- Ec1.
        destruct (spells_join c Hp Hcn) as (J1 & J2 & J3). exact (Hfin (join_sep c) J1 c J2 Hp H).
      * destruct (rp_loop sub max_links 0 [] (removelast c)) as [p n| |] eqn:Ers; try discriminate.
        assert (removelast c <> []) as Hrn by (intros E; rewrite E in Erl; discriminate).
        destruct (rp_sim max_links (removelast c) 0 [] p n (or_introl Hpr) Ers (fun _ => Hrn)) as (c1 & Hc1 & Hc2 & Hc3 & Hc4).
        unfold left_over in Hc4. cbn [strip] in Hc4. rewrite app_nil_r, strip_proper in Hc4 by exact Hpr. rewrite Hc4.
        rewrite join_snoc by (destruct d; [contradiction|discriminate]). rewrite <- app_assoc.
        destruct (rp_loop_spec sub max_links (removelast c) 0 [] _ ltac:(unfold max_links; lia) ltac:(lia) (link_free_nil sub) (conj Hrn (or_introl Hpr)) Ers) as [_ Hsp].
        destruct (Hsp p n eq_refl) as (l & -> & _ & Hgl & _).
        rewrite join_pdot_comps in Hc2 by (try apply good_pdot; try apply Hgl; exact Hgl).
        assert (good (l ++ [last c []])) as Hg2 by (apply good_app; [exact Hgl|constructor; [exact Hpl|constructor]]).
        rewrite join_snoc in H by apply Hgl.
        apply (Hfin (join_sep (l ++ [last c []]))); [apply good_local; exact Hg2| | |exact H].
        -- rewrite join_pdot_comps by (try apply good_pdot; try apply Hg2; exact Hg2). rewrite strip_snoc by apply Hgl. rewrite Hc2. reflexivity.
        -- apply Forall_app. split; [exact Hc1|constructor; [exact Hpl|constructor]].
    + rewrite walk_d. destruct (rp_loop sub max_links 0 [] c) as [p n| |] eqn:Ers; try discriminate.
      destruct (rp_sim max_links c 0 [] p n (or_introl Hp) Ers (fun _ => Hcn)) as (c1 & Hc1 & Hc2 & Hc3 & Hc4).
      unfold left_over in Hc4. cbn [strip] in Hc4. rewrite app_nil_r, strip_proper in Hc4 by exact Hp. rewrite Hc4.
      exact (Hfin p Hc3 c1 Hc2 Hc1 H).
Qed.
End Sub.
