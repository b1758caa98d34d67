(* Copying up: the top grows, the merged tree does not change. *)
From Verif Require Import Common ContentRange_Model ContentRange_Proofs Overlay_Model Overlay_Spec Overlay_Proofs OverlayOps_Proofs.
Open Scope nat_scope.

Lemma stands_dir n x : stands_for n x -> is_dir x = is_dir n.
Proof. destruct n, x; cbn; intros H; try reflexivity; try contradiction; discriminate. Qed.

(* s' is s with names added to the top, each in place of what a lower shows there. *)
Definition grown (A : path -> node -> Prop) (s s' : stack) : Prop :=
  wf s' /\ tl s' = tl s /\ length s' = length s /\ (forall a, whi s' 0 a = whi s 0 a) /\ (forall a, opi s' 0 a = opi s 0 a) /\
  (forall a n, at_ s 0 a = Some n -> at_ s' 0 a = Some n) /\
  (forall a x, at_ s 0 a = None -> at_ s' 0 a = Some x -> A a x /\ exists j n, view s 0 a = Some (S j, n) /\ stands_for n x).
Lemma grown_refl A s : wf s -> grown A s s.
Proof. intros W. split; [exact W|]. do 4 (split; [auto|]). split; [auto|]. intros a x H1 H2. congruence. Qed.
Lemma grown_mono (A B : path -> node -> Prop) s s' : (forall a x, A a x -> B a x) -> grown A s s' -> grown B s s'.
Proof.
  intros H [G1 [G2 [G3 [G4 [G5 [G6 G7]]]]]]. split; [exact G1|]. do 5 (split; [assumption|]). intros a x H1 H2. destruct (G7 a x H1 H2) as [G8 G9]. auto.
Qed.
Lemma hides_marks s s' k p : (forall a, whi s' k a = whi s k a) -> (forall a, opi s' k a = opi s k a) -> (hides s' k p <-> hides s k p).
Proof.
  intros H1 H2. unfold hides. rewrite H1. split; (intros [H|[a [Ha H]]]; [left; exact H|right; exists a; split; [exact Ha|]]).
  - rewrite H1, H2 in H. exact H.
  - rewrite H1, H2. exact H.
Qed.
Lemma opt_pair_ext {A} (x y : option (nat * A)) : (forall j n, x = Some (j, n) <-> y = Some (j, n)) -> x = y.
Proof.
  intros H. destruct x as [[j n]|].
  - symmetry. apply H. reflexivity.
  - destruct y as [[j n]|]; [|reflexivity]. apply H. reflexivity.
Qed.
Lemma grown_same A s s' p : wf s -> grown A s s' -> at_ s' 0 p = at_ s 0 p -> view s' 0 p = view s 0 p.
Proof.
  intros W [W' [T [L [M1 [M2 [G1 G2]]]]]] E. destruct (at_ s 0 p) as [n|] eqn:E0.
  - rewrite (view_top s' p n W' E), (view_top s p n W E0). reflexivity.
  - apply opt_pair_ext. intros [|j] n.
    + split; intros V; apply view_zero in V; try assumption; congruence.
    + rewrite (view_lower s' p j n W'), T, (hides_marks s s' 0 p M1 M2). rewrite E. split.
      * intros [_ [V [Hh Hn]]]. apply (view_lower s p j n W). split; [exact E0|]. split; [exact V|]. split; [exact Hh|].
        intros a Ha. specialize (Hn a Ha). unfold nondir_at in *. destruct (at_ s 0 a) as [y|] eqn:Ea; [|reflexivity].
        rewrite (G1 a y Ea) in Hn. exact Hn.
      * intros V. assert (V0 := V). apply (view_lower s p j n W) in V as [_ [V [Hh Hn]]]. split; [reflexivity|]. split; [exact V|]. split; [exact Hh|].
        intros a Ha. unfold nondir_at. destruct (at_ s' 0 a) as [x|] eqn:Ex; [|reflexivity].
        destruct (at_ s 0 a) as [y|] eqn:Ea.
        -- rewrite (G1 a y Ea) in Ex. inversion Ex; subst y. specialize (Hn a Ha). unfold nondir_at in Hn. rewrite Ea in Hn. exact Hn.
        -- destruct (G2 a x Ea Ex) as [_ [j' [n' [Va St]]]]. destruct (visible_ancestor s a p _ _ W Ha V0) as [i [m [_ Vd]]].
           rewrite Va in Vd. inversion Vd; subst. rewrite (stands_dir _ _ St). reflexivity.
Qed.
Lemma grown_trans A s1 s2 s3 : wf s1 -> grown A s1 s2 -> grown A s2 s3 -> grown A s1 s3.
Proof.
  intros W1 G12 [W3 [T2 [L2 [M3 [M4 [G3 G4]]]]]]. assert (G := G12). destruct G as [W2 [T1 [L1 [M1 [M2 [G1 G2]]]]]].
  split; [exact W3|]. split; [congruence|]. split; [congruence|]. split; [intros a; rewrite M3; apply M1|]. split; [intros a; rewrite M4; apply M2|]. split; [auto|].
  intros a x H1 H2. destruct (at_ s2 0 a) as [y|] eqn:E.
  - rewrite (G3 a y E) in H2. inversion H2; subst y. exact (G2 a x H1 E).
  - destruct (G4 a x E H2) as [G5 [j [n [V St]]]]. split; [exact G5|]. exists j, n. split; [|exact St].
    rewrite <- V. symmetry. apply (grown_same A s1 s2 a W1 G12). congruence.
Qed.
(* One name of the merged tree, before and after. *)
Lemma grown_view A s s' p : wf s -> grown A s s' ->
  view s' 0 p = view s 0 p \/ exists j n x, view s 0 p = Some (S j, n) /\ view s' 0 p = Some (0, x) /\ stands_for n x /\ A p x.
Proof.
  intros W G. assert (G0 := G). destruct G0 as [W' [T [L [M1 [M2 [G1 G2]]]]]].
  destruct (at_ s 0 p) as [n|] eqn:E.
  - left. apply (grown_same A s s' p W G). rewrite E. apply G1, E.
  - destruct (at_ s' 0 p) as [x|] eqn:E'; [|left; apply (grown_same A s s' p W G); congruence].
    right. destruct (G2 p x E E') as [HA [j [n [V St]]]]. exists j, n, x. split; [exact V|]. split; [exact (view_top s' p x W' E')|]. auto.
Qed.
Lemma grown_none A s s' p : wf s -> grown A s s' -> view s 0 p = None -> view s' 0 p = None.
Proof. intros W G V. destruct (grown_view A s s' p W G) as [H|[j [n [x [H _]]]]]; congruence. Qed.
Lemma grown_dir A s s' p j m : wf s -> grown A s s' -> view s 0 p = Some (j, ODir m) -> exists i m', i <= j /\ view s' 0 p = Some (i, ODir m').
Proof.
  intros W G V. destruct (grown_view A s s' p W G) as [H|[k [n [x [H [H1 [St _]]]]]]].
  - rewrite H, V. eauto.
  - rewrite V in H. inversion H; subst. apply stands_dir in St. destruct x; try discriminate. exists 0, mode. split; [lia|exact H1].
Qed.
Lemma grown_held A s s' : grown A s s' -> held s -> held s'.
Proof.
  intros [W' [T [L [M1 [M2 [G1 G2]]]]]] H a Ha. rewrite M2 in Ha. specialize (H a Ha). unfold dir_at in *.
  destruct (at_ s 0 a) as [n|] eqn:E; [|discriminate]. rewrite (G1 a n E). exact H.
Qed.
Lemma grown_wf A s s' : grown A s s' -> wf s'.
Proof. intros G. apply G. Qed.

(* Lookups of names the top holds are right too. *)
Lemma lookup_plain be ls p : wf ls -> plain_at ls p ->
  match lookup be ls p with
  | LFound j n => view ls 0 p = Some (j, n)
  | LMissing | LNotDir => view ls 0 p = None
  | LErr => exists i a, i < length ls /\ under a p /\ broken be i a = true
  end.
Proof.
  intros W [U|H]; [exact (lookup_true be ls p W U)|]. destruct (wf_split ls W) as [l [r ->]].
  destruct (at_ (l :: r) 0 p) as [n|] eqn:E; [|congruence]. clear H. assert (W1 : wf_tree (l_tree l)) by (apply wf_cons in W; apply W).
  assert (F := walk_found (l_tree l) p n W1 E).
  assert (Lk : lookup be (l :: r) p = if broken be 0 p then LErr else LFound 0 n).
  { assert (G : forall berr is, lookup_loop be (l :: r) p berr (0 :: is) = if broken be 0 p then LErr else LFound 0 n).
    { intros berr is. cbn [lookup_loop nth_error]. unfold lstat. rewrite F. destruct (broken be 0 p); reflexivity. }
    destruct p as [|c q]; cbn [lookup]; unfold upto; rewrite Nat.sub_0_r; cbn [seq]; apply G. }
  rewrite Lk. destruct (broken be 0 p) eqn:B; [exists 0, p; split; [cbn; lia|split; [apply under_refl|exact B]]|exact (view_top _ p n W E)].
Qed.

(* The cut depends on the marks alone. *)
Lemma marki_marks s s' p self : (forall i a, whi s' i a = whi s i a) -> (forall i a, opi s' i a = opi s i a) -> forall i, markedi s' p self i = markedi s p self i.
Proof.
  intros H1 H2 i. assert (A := H1 i p). assert (B := H2 i p). unfold markedi, marked, whi, opi in *.
  destruct (nth_error s i), (nth_error s' i); rewrite ?A, ?B; try reflexivity; rewrite <- ?A, <- ?B; reflexivity.
Qed.
Lemma cut_from_marks s s' p from : length s' = length s -> (forall i a, whi s' i a = whi s i a) -> (forall i a, opi s' i a = opi s i a) -> cut_from s' p from = cut_from s p from.
Proof.
  intros L H1 H2. unfold cut_from. rewrite L. generalize (length s - 1) true. induction p as [|c q IH]; intros cut self; cbn [cut_walk]; unfold cut_step;
  rewrite (find_ext _ (markedi s _ self)) by (apply marki_marks; assumption); [reflexivity|]. apply IH.
Qed.
Lemma grown_marks A s s' : grown A s s' -> (forall i a, whi s' i a = whi s i a) /\ (forall i a, opi s' i a = opi s i a) /\ (forall i a, at_ s' (S i) a = at_ s (S i) a).
Proof.
  intros [W' [T [L [M1 [M2 _]]]]].
  assert (N : forall i, nth_error s' (S i) = nth_error s (S i)).
  { intros i. destruct s as [|l r], s' as [|l' r']; cbn in *; try discriminate; [reflexivity|]. congruence. }
  repeat split; [intros [|i] a; [apply M1|unfold whi; rewrite N; reflexivity]|intros [|i] a; [apply M2|unfold opi; rewrite N; reflexivity]|intros i a; unfold at_; rewrite N; reflexivity].
Qed.
Lemma grown_unlinked A s s' q : grown A s s' -> (forall a x, A a x -> strictly_under a q -> is_dir x = true) -> unlinked s q -> unlinked s' q.
Proof.
  intros G HA U [i [a [g [Hi [Ha Hg]]]]]. destruct (grown_marks A s s' G) as [M1 [M2 At]].
  assert (L : length s' = length s) by apply G.
  rewrite (cut_from_marks s s' q 0 L M1 M2) in Hi. destruct i as [|i].
  - destruct (at_ s 0 a) as [n|] eqn:E.
    + destruct G as [_ [_ [_ [_ [_ [G1 _]]]]]]. rewrite (G1 a n E) in Hg. inversion Hg; subst. apply U. exists 0, a, g. auto.
    + destruct G as [_ [_ [_ [_ [_ [_ G2]]]]]]. destruct (G2 a _ E Hg) as [HAx _]. discriminate (HA a _ HAx Ha).
  - rewrite At in Hg. apply U. exists (S i), a, g. auto.
Qed.
Lemma grown_plain A s s' q : grown A s s' -> (forall a x, A a x -> strictly_under a q -> is_dir x = true) -> plain_at s q -> plain_at s' q.
Proof.
  intros G HA [U|H]; [left; exact (grown_unlinked A s s' q G HA U)|right]. destruct (at_ s 0 q) as [n|] eqn:E; [|congruence].
  destruct G as [_ [_ [_ [_ [_ [G1 _]]]]]]. rewrite (G1 q n E). discriminate.
Qed.
Lemma grown_way A s s' q : grown A s s' -> (forall a x, A a x -> strictly_under a q -> is_dir x = true) -> clear_way s q -> clear_way s' q.
Proof.
  intros G HA C a Ha. apply (grown_plain A s s' a G); [|apply C, Ha]. intros b x Hb Hs. apply (HA b x Hb).
  apply strictly_under_iff in Hs as [H1 H2]. apply strictly_under_iff. split; [exact (under_trans _ _ _ H1 Ha)|].
  intros ->. apply H2, under_antisym; assumption.
Qed.

(* Adding one name to the top. *)
Lemma node_tset t p n q : p <> [] -> node_at (tset t p n) q = if path_eqb q p then Some n else node_at t q.
Proof.
  intros Hp. destruct q as [|c q].
  - assert (path_eqb [] p = false) as E by (apply path_eqb_neq; congruence). rewrite E. cbn [node_at]. rewrite tget_tset, E. reflexivity.
  - cbn [node_at]. apply tget_tset.
Qed.
Lemma wf_tset t c q n : wf_tree t -> node_at t (c :: q) = None -> holds_dir t q = true -> wf_tree (tset t (c :: q) n).
Proof.
  intros W Hn Hd b p y H. rewrite tget_tset in H. rewrite node_tset by discriminate.
  destruct (path_eqb (b :: p) (c :: q)) eqn:E.
  - apply path_eqb_eq in E. inversion E; subst b p. assert (path_eqb q (c :: q) = false) as ->.
    { apply path_eqb_neq. intros F. apply (f_equal (@length _)) in F. cbn in F. lia. }
    unfold holds_dir in Hd. destruct (node_at t q) as [[m| | |]|]; try discriminate. eauto.
  - destruct (W b p y H) as [m Hm]. destruct (path_eqb p (c :: q)) eqn:E2; [|eauto].
    apply path_eqb_eq in E2. subst p. congruence.
Qed.
Lemma grown_add (A : path -> node -> Prop) s c q x j n : wf s -> at_ s 0 (c :: q) = None -> dir_at s 0 q = true -> view s 0 (c :: q) = Some (S j, n) -> stands_for n x -> A (c :: q) x ->
  grown A s (set_top_tree (tset (top_tree s) (c :: q) x) s).
Proof.
  intros W Hn Hd V St HA. destruct (wf_split s W) as [l [r ->]]. assert (W0 := W). apply wf_cons in W as [W1 W2].
  split; [apply wf_cons; split; [apply wf_tset; assumption|exact W2]|]. do 4 (split; [reflexivity|]). split.
  - intros a y H. change (node_at (tset (l_tree l) (c :: q) x) a = Some y). rewrite node_tset by discriminate.
    destruct (path_eqb a (c :: q)) eqn:E; [|exact H]. apply path_eqb_eq in E. subst a. congruence.
  - intros a y H H'. change (node_at (tset (l_tree l) (c :: q) x) a = Some y) in H'. rewrite node_tset in H' by discriminate.
    destruct (path_eqb a (c :: q)) eqn:E; [|change (at_ (l :: r) 0 a = Some y) in H'; congruence].
    apply path_eqb_eq in E. subst a. inversion H'; subst y. split; [exact HA|]. eauto.
Qed.
Lemma dir_holds s q : s <> [] -> dir_at s 0 q = holds_dir (top_tree s) q.
Proof. destruct s; [congruence|reflexivity]. Qed.
Lemma t_add_ok p n s : err_opt (t_add p n s) = None ->
  exists c q, p = c :: q /\ node_at (top_tree s) p = None /\ holds_dir (top_tree s) q = true /\ t_add p n s = step (set_top_tree (tset (top_tree s) p n) s).
Proof.
  unfold t_add. destruct p as [|c q]; [discriminate|]. destruct (node_at (top_tree s) (c :: q)); [discriminate|].
  destruct (holds_dir (top_tree s) q) eqn:E; [|discriminate]. intros _. exists c, q. auto.
Qed.
Lemma t_add_keeps (P : stack -> Prop) c q n s : P s ->
  (node_at (top_tree s) (c :: q) = None -> holds_dir (top_tree s) q = true -> P (set_top_tree (tset (top_tree s) (c :: q) n) s)) -> keeps P (t_add (c :: q) n s).
Proof.
  intros H1 H2. unfold t_add. destruct (node_at (top_tree s) (c :: q)); [apply keeps_fail, H1|].
  destruct (holds_dir (top_tree s) q); [apply keeps_step, H2; reflexivity|apply keeps_fail, H1].
Qed.

Lemma materialize_grows (A : path -> node -> Prop) be i q s0 : wf s0 -> (forall a, under a q -> exists j m, view s0 0 a = Some (j, ODir m)) -> (forall a m, under a q -> A a (ODir m)) ->
  forall s, grown A s0 s -> keeps (grown A s0) (materialize be i q s) /\ (err_opt (materialize be i q s) = None -> dir_at (end_of (materialize be i q s)) 0 q = true).
Proof.
  intros W0. induction q as [|c q IH]; intros Hv HA s G; cbn [materialize].
  - split; [apply keeps_ret, G|]. intros _. cbn. destruct (at_root s 0 (wf_len s (grown_wf _ _ _ G))) as [m Hm]. unfold dir_at. rewrite Hm. reflexivity.
  - destruct (IH (fun a Ha => Hv a (under_cons _ _ _ Ha)) (fun a m Ha => HA a m (under_cons _ _ _ Ha)) s G) as [K E]. clear IH.
    set (a0 := materialize be i q s) in *.
    assert (G1 : grown A s0 (end_of a0)) by apply K. set (s1 := end_of a0) in *.
    assert (W1 : wf s1) by apply G1. assert (Hs1 : s1 <> []) by apply W1.
    assert (Wt : wf_tree (top_tree s1)) by (destruct (wf_split s1 W1) as [l [r El]]; rewrite El in *; apply wf_cons in W1; apply W1).
    assert (D : forall a x, under a (c :: q) -> node_at (top_tree s1) a = Some x -> is_dir x = true).
    { intros a x Ha Hx. rewrite <- at_top in Hx by exact Hs1. destruct (Hv a Ha) as [j [m Vm]].
      destruct (grown_dir A s0 s1 a j m W0 G1 Vm) as [k [m' [_ Vm']]]. rewrite (view_top s1 a x W1 Hx) in Vm'. inversion Vm'; subst. reflexivity. }
    assert (R : err_opt a0 = None -> keeps (grown A s0) (match lstat be 0 (top_tree s1) (c :: q) with
        | AFound _ => ret s1 | AMissing => t_add (c :: q) (ODir (parent_mode be i s1 (c :: q))) s1 | _ => fail s1 EOther end) /\
      (err_opt (match lstat be 0 (top_tree s1) (c :: q) with
        | AFound _ => ret s1 | AMissing => t_add (c :: q) (ODir (parent_mode be i s1 (c :: q))) s1 | _ => fail s1 EOther end) = None ->
       dir_at (end_of (match lstat be 0 (top_tree s1) (c :: q) with
        | AFound _ => ret s1 | AMissing => t_add (c :: q) (ODir (parent_mode be i s1 (c :: q))) s1 | _ => fail s1 EOther end)) 0 (c :: q) = true)).
    { intros Hok. specialize (E Hok). unfold lstat. destruct (broken be 0 (c :: q)); [split; [apply keeps_fail, G1|discriminate]|].
      assert (S := walk_spec (top_tree s1) (c :: q) Wt). destruct (walk (top_tree s1) (c :: q)) as [x| | |].
      - split; [apply keeps_ret, G1|]. intros _. cbn [ret end_of fst snd]. rewrite dir_holds by exact Hs1. unfold holds_dir. rewrite S.
        exact (D _ x (under_refl _) S).
      - destruct S as [S _]. assert (A0 : at_ s1 0 (c :: q) = None) by (rewrite at_top by exact Hs1; exact S).
        destruct (Hv _ (under_refl _)) as [j [m Vm]]. destruct (grown_dir A s0 s1 _ j m W0 G1 Vm) as [k [m' [_ Vm']]].
        destruct k as [|k]; [apply (view_zero s1 _ _ W1) in Vm'; congruence|].
        split.
        + apply t_add_keeps; [exact G1|]. intros _ _. eapply grown_trans; [exact W0|exact G1|].
          eapply grown_add; [exact W1|exact A0|exact E|exact Vm'|exact I|apply HA, under_refl].
        + intros H. apply t_add_ok in H as [c' [q' [Ep [_ [_ ->]]]]]. cbn [step end_of fst snd]. unfold dir_at. rewrite at_set_top by exact Hs1.
          rewrite node_tset by discriminate. rewrite path_eqb_refl. reflexivity.
      - split; [apply keeps_fail, G1|discriminate].
      - destruct S as [_ [a [g [Ha Hg]]]]. exfalso. apply strictly_under_iff in Ha as [Ha _]. specialize (D a _ Ha Hg). discriminate. }
    split.
    + apply keeps_bind; [exact K|]. intros Hok. apply R, Hok.
    + intros H. apply bind_ok' in H as [H1 [H2 H3]]. rewrite H3. apply (R H1), H2.
Qed.

(* copyUp, with the name itself put in place last. *)
Definition copy_way (p : path) (a : path) (x : node) : Prop := under a p /\ (a = p \/ is_dir x = true).
Lemma copied_stands n : (forall m, n <> OSpecial m) -> stands_for n (copied n).
Proof. destruct n; cbn; auto. intros H. exact (H _ eq_refl). Qed.
Lemma copy_up_grows be p s : wf s -> held s -> plain_at s p ->
  keeps (grown (copy_way p) s) (copy_up be p s) /\
  (err_opt (copy_up be p s) = None -> view s 0 p <> None -> at_ (end_of (copy_up be p s)) 0 p <> None).
Proof.
  intros W Hh U. assert (G0 := grown_refl (copy_way p) s W).
  assert (F : forall e, keeps (grown (copy_way p) s) (fail s e) /\ (err_opt (fail s e) = None -> view s 0 p <> None -> at_ (end_of (fail s e)) 0 p <> None)).
  { intros e. split; [apply keeps_fail, G0|discriminate]. }
  unfold copy_up. destruct p as [|c q].
  { split; [apply keeps_ret, G0|]. intros _ _. cbn. destruct (at_root s 0 (wf_len s W)) as [m Hm]. congruence. }
  assert (L := lookup_plain be s (c :: q) W U). destruct (lookup be s (c :: q)) as [[|j] n| | |]; try apply F.
  - split; [apply keeps_ret, G0|]. intros _ _. cbn. rewrite (view_at s _ _ _ W L). discriminate.
  - assert (Hn : at_ s 0 (c :: q) = None) by exact (view_above s _ _ _ W L).
    assert (Hv : forall a, under a q -> exists k m, view s 0 a = Some (k, ODir m)).
    { intros a Ha. destruct (visible_ancestor s a (c :: q) (S j) n W) as [k [m [_ V]]]; [apply strictly_cons, Ha|exact L|]. eauto. }
    destruct (materialize_grows (copy_way (c :: q)) be (S j) q s W Hv) with (s := s) as [K E].
    { intros a m Ha. split; [apply under_cons, Ha|right; reflexivity]. }
    { exact G0. }
    set (a0 := materialize be (S j) q s) in *. assert (G1 : grown (copy_way (c :: q)) s (end_of a0)) by apply K. set (s1 := end_of a0) in *.
    assert (W1 : wf s1) by apply G1. assert (Hs1 : s1 <> []) by apply W1.
    (* the name itself is still missing in the top *)
    assert (Hm1 : at_ s1 0 (c :: q) = None).
    {      destruct (materialize_grows (fun a x => under a q) be (S j) q s W Hv (fun a m Ha => Ha) s (grown_refl _ s W)) as [[K1 K2] _].
      assert (N : forall s', grown (fun a x => under a q) s s' -> at_ s' 0 (c :: q) = None).
      { intros s' G'. destruct (at_ s' 0 (c :: q)) as [x|] eqn:Ex; [|reflexivity]. destruct G' as [_ [_ [_ [_ [_ [_ G']]]]]].
        destruct (G' _ x Hn Ex) as [Hu _]. apply under_len in Hu. cbn in Hu. lia. }
      apply N. exact K2. }
    assert (V1 : view s1 0 (c :: q) = Some (S j, n)) by (rewrite <- L; apply (grown_same _ s s1 _ W G1); congruence).
    assert (Add : (forall m, n <> OSpecial m) -> err_opt a0 = None -> keeps (grown (copy_way (c :: q)) s) (t_add (c :: q) (copied n) s1) /\
      (err_opt (t_add (c :: q) (copied n) s1) = None -> at_ (end_of (t_add (c :: q) (copied n) s1)) 0 (c :: q) <> None)).
    { intros Hsp Hok. split.
      - apply t_add_keeps; [exact G1|]. intros _ _. eapply grown_trans; [exact W|exact G1|].
        eapply grown_add; [exact W1|exact Hm1|exact (E Hok)|exact V1|apply copied_stands, Hsp|]. split; [apply under_refl|left; reflexivity].
      - intros H. apply t_add_ok in H as [c' [q' [_ [_ [_ ->]]]]]. cbn [step end_of fst snd]. rewrite at_set_top by exact Hs1. rewrite node_tset by discriminate.
        rewrite path_eqb_refl. discriminate. }
    assert (Cu : keeps (grown (copy_way (c :: q)) s) (copy_up_from be (S j) n (c :: q) s) /\
      (err_opt (copy_up_from be (S j) n (c :: q) s) = None -> at_ (end_of (copy_up_from be (S j) n (c :: q) s)) 0 (c :: q) <> None)).
    { unfold copy_up_from. cbn [tl]. destruct n as [m|m d|g|m].
      - split; [apply keeps_bind; [exact K|intros Hok; apply Add; [discriminate|exact Hok]]|]. intros H. apply bind_ok' in H as [H1 [H2 H3]]. rewrite H3.
        apply Add; [discriminate|exact H1|exact H2].
      - fold a0. rewrite at_top in Hm1 by exact Hs1.
        assert (Eq : forall f, bind a0 (fun s2 => match node_at (top_tree s2) (c :: q) with None => t_add (c :: q) (copied (OFile m d)) s2 | Some y => f s2 y end) =
                     bind a0 (t_add (c :: q) (copied (OFile m d)))).
        { intros f. unfold bind. destruct a0 as [[tr s2] [e|]]; [reflexivity|]. cbn in s1. subst s1. rewrite Hm1. reflexivity. }
        rewrite Eq. split; [apply keeps_bind; [exact K|intros Hok; apply Add; [discriminate|exact Hok]]|]. intros H. apply bind_ok' in H as [H1 [H2 H3]]. rewrite H3.
        apply Add; [discriminate|exact H1|exact H2].
      - split; [apply keeps_bind; [exact K|intros Hok; apply Add; [discriminate|exact Hok]]|]. intros H. apply bind_ok' in H as [H1 [H2 H3]]. rewrite H3.
        apply Add; [discriminate|exact H1|exact H2].
      - split; [apply keeps_fail, G0|discriminate]. }
    destruct Cu as [Cu1 Cu2]. set (a1 := copy_up_from be (S j) n (c :: q) s) in *. assert (G2 : grown (copy_way (c :: q)) s (end_of a1)) by apply Cu1.
    assert (Op : topi opb (end_of a1) (c :: q) = false).
    { destruct (topi opb (end_of a1) (c :: q)) eqn:Eo; [|reflexivity]. exfalso. assert (O : opi (end_of a1) 0 (c :: q) = true) by (destruct (end_of a1); [discriminate|exact Eo]).
      destruct G2 as [_ [_ [_ [_ [M2 _]]]]]. rewrite M2 in O. specialize (Hh _ O). unfold dir_at in Hh. rewrite Hn in Hh. discriminate. }
    split.
    + apply keeps_bind; [exact Cu1|]. intros _. rewrite Op. apply keeps_ret, G2.
    + intros H _. apply bind_ok' in H as [H1 [H2 H3]]. rewrite H3. rewrite Op. cbn. apply Cu2, H1.
  - split; [apply keeps_ret, G0|]. intros _ H. contradiction.
Qed.
Lemma ensure_parent_grows be c q s : wf s -> held s -> plain_at s q ->
  keeps (grown (fun a x => under a q /\ is_dir x = true) s) (ensure_parent be (c :: q) s) /\
  (err_opt (ensure_parent be (c :: q) s) = None -> dir_at (end_of (ensure_parent be (c :: q) s)) 0 q = true).
Proof.
  intros W Hh U. unfold ensure_parent. cbn [tl]. assert (L := lookup_plain be s q W U). assert (G0 := grown_refl (fun a x => under a q /\ is_dir x = true) s W).
  destruct (lookup be s q) as [j n| | |]; try (split; [apply keeps_fail, G0|discriminate]).
  destruct (is_dir n) eqn:D; [|split; [apply keeps_fail, G0|discriminate]].
  destruct (copy_up_grows be q s W Hh U) as [K E].
  assert (Dir : forall s' x, grown (copy_way q) s s' -> at_ s' 0 q = Some x -> is_dir x = true).
  { intros s' x G Hx. destruct n as [m| | |]; try discriminate. destruct (grown_dir _ s s' q j m W G L) as [k [m' [_ V]]].
    rewrite (view_top s' q x (grown_wf _ _ _ G) Hx) in V. inversion V; subst. reflexivity. }
  split.
  - eapply keeps_weaken; [|exact K]. intros s' G. destruct G as [G1 [G2 [G3 [G4 [G5 [G6 G7]]]]]]. assert (G : grown (copy_way q) s s') by (split; [exact G1|do 5 (split; [assumption|]); assumption]).
    split; [exact G1|]. do 5 (split; [assumption|]). intros a x H1 H2. destruct (G7 a x H1 H2) as [[Hu Hd] Hs]. split; [|exact Hs]. split; [exact Hu|].
    destruct Hd as [-> | Hd]; [exact (Dir s' x G H2)|exact Hd].
  - intros H. specialize (E H). unfold dir_at. destruct (at_ (end_of (copy_up be q s)) 0 q) as [x|] eqn:Ex; [exact (Dir _ x (proj2 K) Ex)|].
    exfalso. apply E; [congruence|exact eq_refl].
Qed.
