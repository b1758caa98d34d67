(* What each overlay call answers. *)
From Verif Require Import Common CommonLemmas ContentRange_Model ContentRange_Proofs Overlay_Model Overlay_Spec Overlay_Proofs OverlayOps_Proofs OverlayGrow_Proofs OverlayNew_Proofs OverlayRename_Proofs OverlayCalls_Proofs OverlayWorks_Proofs OverlayErr_Spec.
Open Scope nat_scope.

Lemma straight_linked s p from : straight s p -> ~ linked s from p.
Proof. intros H [i [a [g [_ [H1 H2]]]]]. exact (H i a g H1 H2). Qed.
Lemma straight_un s p : straight s p -> unlinked s p.
Proof. exact (straight_linked s p 0). Qed.
Lemma strictly_under_trans a b p : strictly_under a b -> under b p -> strictly_under a p.
Proof.
  intros H1 H2. apply strictly_under_iff in H1 as [H1 H3]. apply strictly_under_iff. split; [exact (under_trans _ _ _ H1 H2)|].
  intros ->. apply H3, under_antisym; assumption.
Qed.
Lemma straight_up s p a : straight s p -> under a p -> straight s a.
Proof. intros H Ha i b g Hb. apply H. exact (strictly_under_trans _ _ _ Hb Ha). Qed.
Lemma straight_way s p : straight s p -> clear_way s p.
Proof. intros H a Ha. left. apply straight_un. exact (straight_up s p a H Ha). Qed.
Lemma tl_under (p : path) : under (tl p) p.
Proof. destruct p as [|c q]; [apply under_refl|apply under_cons, under_refl]. Qed.

Lemma vd_view s p : visible_dir s p <-> exists j m, view s 0 p = Some (j, ODir m).
Proof.
  unfold visible_dir, visible. split.
  - intros [m H]. destruct (view s 0 p) as [[j n]|]; [|discriminate]. cbn in H. exists j, m. congruence.
  - intros [j [m ->]]. exists m. reflexivity.
Qed.
Lemma other_view s p : other s p <-> exists j n, view s 0 p = Some (j, n) /\ is_dir n = false.
Proof.
  unfold other, visible. split.
  - intros [n [H1 H2]]. destruct (view s 0 p) as [[j x]|]; [|discriminate]. cbn in H1. assert (x = n) by congruence. subst x.
    exists j, n. split; [reflexivity|]. destruct n; [exfalso; exact (H2 _ eq_refl)|reflexivity..].
  - intros [j [n [-> H]]]. exists n. split; [reflexivity|]. intros m ->. discriminate.
Qed.
Lemma dir_not_other s p : visible_dir s p -> ~ other s p.
Proof. rewrite vd_view, other_view. intros [j [m V]] [i [n [V' D]]]. rewrite V in V'. inversion V'; subst. discriminate. Qed.
Lemma dir_shown s p : visible_dir s p -> shown s p.
Proof. rewrite vd_view. intros [j [m V]]. unfold shown. congruence. Qed.
Lemma other_shown s p : other s p -> shown s p.
Proof. rewrite other_view. intros [j [n [V _]]]. unfold shown. congruence. Qed.
Lemma three s p : missing s p \/ visible_dir s p \/ other s p.
Proof.
  unfold missing. rewrite vd_view, other_view. destruct (view s 0 p) as [[j n]|]; [|auto]. right. destruct (is_dir n) eqn:D; [left|right; eauto].
  destruct n; try discriminate. eauto.
Qed.
Lemma stuck_other s p : stuck s p -> other s p.
Proof. rewrite other_view. intros [i [m V]]. exists (S i), (OSpecial m). auto. Qed.
Lemma ancestors_dirs s p : wf s -> visible_dir s p -> forall a, under a p -> visible_dir s a.
Proof.
  intros W D a Ha. destruct (path_dec a p) as [-> | Hne]; [exact D|]. apply vd_view in D as [j [m V]].
  destruct (visible_ancestor s a p j (ODir m) W) as [i [m' [_ Va]]]; [apply strictly_under_iff; auto|exact V|]. apply vd_view. eauto.
Qed.
Lemma full_dir s p : wf s -> full s p -> visible_dir s p.
Proof.
  intros W [c H]. unfold shown in H. destruct (view s 0 (c :: p)) as [[j n]|] eqn:V; [|congruence].
  destruct (visible_ancestor s p (c :: p) j n W) as [i [m [_ Vp]]]; [apply strictly_cons, under_refl|exact V|]. apply vd_view. eauto.
Qed.

Lemma look be s p : wf s -> reached be s p -> lookup be s p = match view s 0 p with Some (j, n) => LFound j n | None => LMissing end.
Proof.
  intros W [A [St P]]. assert (U := straight_un s p St). assert (L := lookup_answers be s p W (or_introl U) A).
  destruct (view s 0 p) as [[j n]|] eqn:V.
  - destruct (lookup be s p) as [i x| | |]; try contradiction; congruence.
  - destruct p as [|c q]; [exfalso; exact (view_root_some s W V)|]. apply missing_lookup; try assumption.
    + apply straight_un. exact (straight_up s (c :: q) q St (tl_under (c :: q))).
    + apply P. discriminate.
Qed.
Lemma reached_plain be s p : reached be s p -> plain_at s p.
Proof. intros [_ [St _]]. left. apply straight_un, St. Qed.
Lemma reached_tl_plain be s p : reached be s p -> plain_at s (tl p).
Proof. intros [_ [St _]]. left. apply straight_un. exact (straight_up s p (tl p) St (tl_under p)). Qed.
Lemma reached_tl be s p : wf s -> reached be s p -> reached be s (tl p).
Proof.
  intros W [A [St P]]. split; [exact (answers_up be s p (tl p) A (tl_under p))|]. split; [exact (straight_up s p (tl p) St (tl_under p))|].
  intros H. apply (ancestors_dirs s (tl p) W); [|apply tl_under]. apply P. intros ->. apply H. reflexivity.
Qed.
Lemma reached_grown A be s s' p : wf s -> grown A s s' -> reached be s p -> reached be s' p.
Proof.
  intros W G [An [St P]]. split; [|split].
  - intros i a Hi. apply An. destruct G as [_ [_ [G _]]]. lia.
  - intros i a g Ha Hg. destruct (grown_marks A s s' G) as [_ [_ Lo]]. destruct i as [|i]; [|rewrite Lo in Hg; exact (St _ a g Ha Hg)].
    destruct (at_ s 0 a) as [x|] eqn:E.
    + destruct G as [_ [_ [_ [_ [_ [G _]]]]]]. rewrite (G a x E) in Hg. rewrite Hg in E. exact (St 0 a g Ha E).
    + destruct G as [_ [_ [_ [_ [_ [_ G]]]]]]. destruct (G a _ E Hg) as [_ [j [n [V S]]]]. destruct p as [|c q]; [exact (strictly_nil a Ha)|].
      assert (D := ancestors_dirs s q W (P ltac:(discriminate)) a (proj1 (strictly_cons a c q) Ha)). apply vd_view in D as [j' [m D]].
      rewrite V in D. inversion D; subst. exact S.
  - intros H. specialize (P H). apply vd_view in P as [j [m V]]. destruct (grown_dir A s s' (tl p) j m W G V) as [i [m' [_ V']]]. apply vd_view. eauto.
Qed.

Lemma answered_bind s a f x : a = ([], s, Some x) -> bind a f = ([], s, Some x).
Proof. intros ->. reflexivity. Qed.

(* --- removals --- *)
Lemma listing be s p : wf s -> reached be s p -> visible_dir s p -> (read_dir be s p = DNames [] /\ ~ full s p) \/ (exists x es, read_dir be s p = DNames (x :: es) /\ full s p).
Proof.
  intros W R D. assert (U := straight_un s p (proj1 (proj2 R))). assert (L := read_dir_view be s p W U).
  assert (NB : ~ exists i a, i < length s /\ under a p /\ broken be i a = true) by (intros [i' [a [H1 [H2 H3]]]]; rewrite (proj1 R i' a H1 H2) in H3; discriminate).
  destruct (read_dir be s p) as [[|[c k] es]|e].
  - left. split; [reflexivity|]. intros [c H]. destruct L as [_ [L _]]. unfold shown in H. destruct (view s 0 (c :: p)) as [[k n]|] eqn:V; [|congruence].
    exact (proj2 (L c k) (ex_intro _ n V)).
  - right. exists (c, k), es. split; [reflexivity|]. exists c. destruct L as [_ [L _]]. destruct (proj1 (L c k) (or_introl eq_refl)) as [n V]. unfold shown. congruence.
  - exfalso. destruct e; try (apply NB, L); [|exact (L D)]. apply (dir_shown s p D). unfold visible in L. destruct (view s 0 p); [discriminate|reflexivity].
Qed.
Lemma remove_answers be s p : inv s -> reached be s p -> exists e, owes s (CRemove p) e /\ answered s (remove be p s) e.
Proof.
  intros [W H] R. destruct p as [|c q]; [exists (Some EInval); split; [reflexivity|reflexivity]|].
  assert (L := look be s _ W R). assert (R' := R). destruct R' as [A [St P]]. destruct (three s (c :: q)) as [M|[D|O]].
  - exists (Some ENotExist). split; [exact M|]. unfold remove. cbn [is_nil]. rewrite L, M. reflexivity.
  - destruct (listing be s _ W R D) as [[Ls F]|[x [es [Ls F]]]].
    + exists None. split; [split; [discriminate|]; split; [exact (dir_shown _ _ D)|exact F]|].
      apply remove_succeeds; try assumption; [discriminate|apply straight_un, St|exact (reached_tl_plain be s _ R)|apply straight_linked, St|exact (dir_shown _ _ D)|].
      intros c'. destruct (view s 0 (c' :: c :: q)) eqn:V; [|reflexivity]. exfalso. apply F. exists c'. unfold shown. congruence.
    + exists (Some ENotEmpty). split; [split; [discriminate|exact F]|]. unfold remove. cbn [is_nil]. rewrite L. apply vd_view in D as [j [m V]]. rewrite V. cbn [is_dir]. rewrite Ls. reflexivity.
  - assert (F : ~ full s (c :: q)) by (intros F; exact (dir_not_other _ _ (full_dir s _ W F) O)).
    exists None. split; [split; [discriminate|]; split; [exact (other_shown _ _ O)|exact F]|].
      apply remove_succeeds; try assumption; [discriminate|apply straight_un, St|exact (reached_tl_plain be s _ R)|apply straight_linked, St|exact (other_shown _ _ O)|].
      intros c'. destruct (view s 0 (c' :: c :: q)) eqn:V; [|reflexivity]. exfalso. apply F. exists c'. unfold shown. congruence.
Qed.
Lemma remove_all_answers be s p : inv s -> reached be s p -> exists e, owes s (CRemoveAll p) e /\ answered s (remove_all be p s) e.
Proof.
  intros [W H] R. destruct p as [|c q]; [exists (Some EInval); split; [reflexivity|reflexivity]|].
  exists None. split; [discriminate|]. assert (L := look be s _ W R). assert (R' := R). destruct R' as [A [St P]].
  destruct (view s 0 (c :: q)) as [[j n]|] eqn:V.
  - apply remove_all_succeeds; try assumption; [discriminate|apply straight_un, St|exact (reached_tl_plain be s _ R)|apply straight_linked, St|congruence].
  - unfold remove_all. cbn [is_nil]. rewrite L. reflexivity.
Qed.

(* --- creations --- *)
Lemma mkdir_answers be s p m : inv s -> reached be s p -> exists e, owes s (CMkdir p m) e /\ answered s (mkdir be p m s) e.
Proof.
  intros I R. assert (W := proj1 I). assert (L := look be s p W R). destruct (view s 0 p) as [[j n]|] eqn:V.
  - exists (Some EExist). split; [unfold owes, shown; congruence|]. unfold mkdir. rewrite L. reflexivity.
  - exists None. split; [exact V|]. destruct p as [|c q]; [exfalso; exact (view_root_some s W V)|]. destruct R as [A [St P]].
    apply mkdir_succeeds; try assumption; [apply straight_un, St|apply straight_un; exact (straight_up s _ q St (tl_under (c :: q)))|apply P; discriminate].
Qed.
Lemma symlink_answers be s t p : inv s -> reached be s p -> exists e, owes s (CSymlink t p) e /\ answered s (symlink be t p s) e.
Proof.
  intros I R. assert (W := proj1 I). assert (L := look be s p W R). destruct (view s 0 p) as [[j n]|] eqn:V.
  - exists (Some EExist). split; [unfold owes, shown; congruence|]. unfold symlink. rewrite L. reflexivity.
  - exists None. split; [exact V|]. destruct p as [|c q]; [exfalso; exact (view_root_some s W V)|]. unfold symlink. rewrite L. cbn [answered].
    assert (Up := reached_tl_plain be s _ R). cbn [tl] in Up.
    assert (Ok : err_opt (ensure_parent be (c :: q) s) = None) by (apply ensure_parent_ok; [exact I|exact Up|exact (proj1 (reached_tl be s _ W R))|apply R; discriminate]).
    rewrite bind_opt by exact Ok. destruct (placed_ready be c q s I Up V Ok) as [H1 H2].
    assert (T : err_opt (t_add (c :: q) (OLink t) (end_of (ensure_parent be (c :: q) s))) = None) by (unfold t_add; rewrite H1, H2; reflexivity).
    rewrite bind_opt by exact T. unfold unmask. destruct (topi whb _ _); reflexivity.
Qed.
Lemma open_answers be s p creating excl trunc m : inv s -> usable be s (COpen p creating excl trunc m) ->
  exists e, owes s (COpen p creating excl trunc m) e /\ answered s (open_write be p creating excl trunc m s) e.
Proof.
  intros I [R [NS NT]]. assert (W := proj1 I). assert (L := look be s p W R). destruct (three s p) as [M|[D|O]].
  - destruct creating.
    + exists None. split; [left; auto|]. destruct p as [|c q]; [exfalso; exact (view_root_some s W M)|]. destruct R as [A [St P]].
      apply create_succeeds; try assumption; [apply straight_un, St|apply straight_un; exact (straight_up s _ q St (tl_under (c :: q)))|apply P; discriminate].
    + exists (Some ENotExist). split; [split; auto|]. unfold open_write. rewrite L, M. reflexivity.
  - exists (Some EIsDir). split; [exact D|]. apply vd_view in D as [j [m' V]]. unfold open_write. rewrite L, V. reflexivity.
  - assert (O' := O). apply other_view in O' as [j [n [V Dn]]]. rewrite V in L. destruct (creating && excl) eqn:CE.
    + apply andb_true_iff in CE as [-> ->]. exists (Some EExist). split; [split; auto|]. unfold open_write. rewrite L, Dn. reflexivity.
    + assert (NE : creating = true -> excl = true -> False) by (intros -> ->; discriminate).
      destruct n as [m0|m0 d|g|m0]; [discriminate| |exfalso; apply NS; exists g; unfold visible; rewrite V; reflexivity|].
      * exists None. split.
        { right. split; [exact O|]. split; [|exact NE]. intros [i [m' V']]. congruence. }
        destruct excl.
        { rewrite andb_true_r in CE. subst creating.
          assert (E : open_write be p false true trunc m s = open_write be p false false trunc m s).
          { unfold open_write. rewrite L. cbn [is_dir andb]. reflexivity. }
          rewrite E. exact (open_succeeds be p false trunc m s j m0 d I (reached_plain be s p R) (proj1 R) V). }
        exact (open_succeeds be p creating trunc m s j m0 d I (reached_plain be s p R) (proj1 R) V).
      * destruct j as [|j]; [exfalso; exact (NT m0 V)|]. exists (Some EUnsupported). split; [split; [exists j, m0; exact V|exact NE]|].
        unfold open_write. rewrite L. cbn [is_dir]. rewrite CE. apply answered_bind. unfold copy_up. destruct p as [|c q]; [|rewrite L; reflexivity].
        exfalso. destruct (view_root s 0 (wf_len s W)) as [m' E]. congruence.
Qed.
Lemma stuck_copy be s p : wf s -> reached be s p -> stuck s p -> copy_up be p s = ([], s, Some EUnsupported).
Proof.
  intros W R [j [m V]]. assert (L := look be s p W R). rewrite V in L. unfold copy_up. destruct p as [|c q]; [|rewrite L; reflexivity].
  exfalso. destruct (view_root s 0 (wf_len s W)) as [m' E]. congruence.
Qed.
Lemma stuck_dec s p : stuck s p \/ ~ stuck s p.
Proof.
  unfold stuck. destruct (view s 0 p) as [[[|i] n]|] eqn:V; [right; intros [i [m E]]; congruence| |right; intros [i [m E]]; congruence].
  destruct n; try (right; intros [k [m' E]]; congruence). left. eauto.
Qed.
Lemma copy_ready be s p : inv s -> reached be s p -> shown s p -> ~ stuck s p ->
  err_opt (copy_up be p s) = None \/ exists m, view s 0 p = Some (0, OSpecial m).
Proof.
  intros I R Sh NS. unfold shown in Sh. destruct (view s 0 p) as [[[|j] n]|] eqn:V; [| |congruence].
  - destruct n; try (left; apply copy_up_ok; [exact I|exact (reached_plain be s p R)|apply R|congruence|intros j m' E; congruence]). right. eauto.
  - left. apply copy_up_ok; [exact I|exact (reached_plain be s p R)|apply R|congruence|]. intros j' m E. apply NS. exists j, m. congruence.
Qed.
Lemma copy_held be s p : inv s -> reached be s p -> shown s p -> ~ stuck s p ->
  err_opt (copy_up be p s) = None /\ exists x, at_ (end_of (copy_up be p s)) 0 p = Some x /\ grown (copy_way p) s (end_of (copy_up be p s)).
Proof.
  intros I R Sh NS. assert (W := proj1 I). destruct (copy_up_grows be p s W (proj2 I) (reached_plain be s p R)) as [[_ G] E].
  assert (Ok : err_opt (copy_up be p s) = None).
  { destruct (copy_ready be s p I R Sh NS) as [Ok|[m V]]; [exact Ok|]. assert (L := look be s p W R). rewrite V in L. unfold copy_up. rewrite L. destruct p; reflexivity. }
  split; [exact Ok|]. specialize (E Ok Sh). destruct (at_ (end_of (copy_up be p s)) 0 p) as [x|]; [|congruence]. eauto.
Qed.
Lemma chmod_answers be s p m : inv s -> reached be s p -> exists e, owes s (CChmod p m) e /\ answered s (chmod be p m s) e.
Proof.
  intros I R. assert (W := proj1 I). assert (L := look be s p W R). destruct (view s 0 p) as [[j n]|] eqn:V.
  - assert (Sh : shown s p) by (unfold shown; congruence). destruct (stuck_dec s p) as [St|NS].
    + exists (Some EUnsupported). split; [exact St|]. apply answered_bind. exact (stuck_copy be s p W R St).
    + exists None. split; [split; assumption|]. destruct (copy_held be s p I R Sh NS) as [Ok [x [Hx G]]]. unfold chmod. cbn [answered]. rewrite bind_opt by exact Ok.
      rewrite at_top in Hx by apply (grown_wf _ _ _ G). rewrite Hx. unfold t_put. rewrite Hx. reflexivity.
  - exists (Some ENotExist). split; [exact V|]. unfold chmod. destruct p as [|c q]; [exfalso; exact (view_root_some s W V)|].
    unfold copy_up. rewrite L. cbn. assert (T : node_at (top_tree s) (c :: q) = None).
    { rewrite <- at_top by apply W. destruct (at_ s 0 (c :: q)) as [x|] eqn:E; [|reflexivity]. rewrite (view_top s _ x W E) in V. discriminate. }
    cbn in T. rewrite T. reflexivity.
Qed.
Lemma write_answers s p d : exists e, owes s (CWrite p d) e /\ answered s (write_file p d s) e.
Proof.
  exists None. split; [reflexivity|]. unfold write_file. cbn [answered]. destruct (node_at (top_tree s) p) as [[| | |]|] eqn:E; try reflexivity. unfold t_put. rewrite E. reflexivity.
Qed.

(* --- MkdirAll --- *)
Lemma mkdir_all_cons be c q m s : mkdir_all be (c :: q) m s = bind (mkdir_all be q m s) (mkdir_level be m (c :: q)).
Proof. unfold mkdir_all. cbn [ancestry]. rewrite for_each_app. destruct (for_each _ (ancestry q) s) as [[tr s1] [e|]]; [reflexivity|]. cbn [bind]. rewrite for_each_one. reflexivity. Qed.
Lemma reached_at be s p : wf s -> answers be s p -> straight s p -> (p <> [] -> visible_dir s (tl p)) -> reached be s p.
Proof. intros _ A St P. split; [exact A|]. split; assumption. Qed.
Lemma mkdir_all_there be p m s : inv s -> answers be s p -> straight s p -> visible_dir s p -> mkdir_all be p m s = ret s.
Proof.
  intros I A St D. induction p as [|c q IH]; [reflexivity|]. rewrite mkdir_all_cons. assert (W := proj1 I).
  assert (Dq := ancestors_dirs s _ W D q (tl_under (c :: q))).
  rewrite IH; [|exact (answers_up be s _ q A (tl_under (c :: q)))|exact (straight_up s _ q St (tl_under (c :: q)))|exact Dq].
  cbn [bind]. unfold ret at 1. cbn [bind]. unfold mkdir_level. rewrite (look be s (c :: q) W (reached_at be s _ W A St (fun _ => Dq))).
  apply vd_view in D as [j [m' V]]. rewrite V. reflexivity.
Qed.
Lemma mkdir_all_blocked be p m s a : inv s -> answers be s p -> straight s p -> under a p -> other s a -> mkdir_all be p m s = ([], s, Some ENotDir).
Proof.
  intros I A St Ha O. assert (W := proj1 I). induction p as [|c q IH].
  - apply under_nil_r in Ha. subst a. exfalso. apply (dir_not_other s []); [|exact O]. apply vd_view. destruct (view_root s 0 (wf_len s W)) as [m' E]. eauto.
  - rewrite mkdir_all_cons. assert (Aq := answers_up be s _ q A (tl_under (c :: q))). assert (Sq := straight_up s _ q St (tl_under (c :: q))).
    apply under_inv in Ha as [-> | Ha]; [|apply answered_bind; exact (IH Aq Sq Ha)].
    assert (O' := O). apply other_view in O' as [j [n [V Dn]]]. destruct (visible_ancestor s q (c :: q) j n W) as [i [m' [_ Vq]]]; [apply strictly_cons, under_refl|exact V|].
    assert (Dq : visible_dir s q) by (apply vd_view; eauto). rewrite (mkdir_all_there be q m s I Aq Sq Dq). unfold ret. cbn [bind].
    unfold mkdir_level. rewrite (look be s (c :: q) W (reached_at be s _ W A St (fun _ => Dq))), V, Dn. reflexivity.
Qed.
Lemma mkdir_all_works be p m s : inv s -> answers be s p -> straight s p -> (forall a, under a p -> ~ other s a) -> err_opt (mkdir_all be p m s) = None.
Proof.
  intros I. induction p as [|c q IH]; intros A St N; [reflexivity|]. rewrite mkdir_all_cons. assert (W := proj1 I).
  assert (Aq := answers_up be s _ q A (tl_under (c :: q))). assert (Sq := straight_up s _ q St (tl_under (c :: q))).
  assert (Ok := IH Aq Sq (fun a Ha => N a (under_cons _ _ _ Ha))). rewrite bind_opt by exact Ok. clear IH.
  destruct (mkdir_all_tree be q m s I (straight_way s q Sq)) as [Tr Vd]. specialize (Vd Ok).
  assert (Lo := lowers_kept be (CMkdirAll q m) s _ (reaches_end s _)). cbn [run_call] in Lo.
  destruct (Tr _ (reaches_end s _)) as [I1 V1]. set (s1 := end_of (mkdir_all be q m s)) in *. clearbody s1.
  assert (W1 := proj1 I1). assert (Len : length s1 = length s). { destruct s as [|l r], s1 as [|l1 r1]; cbn in *; try congruence; [destruct W; congruence|destruct W1; congruence]. }
  assert (R1 : reached be s1 (c :: q)).
  { split; [intros i a Hi; apply A; lia|]. split; [|intros _; exact Vd]. intros [|i] a g Ha Hg.
    - assert (Va := view_top s1 a _ W1 Hg). destruct (V1 a) as [[E|[j [n [x [E1 [E2 E3]]]]]]|[_ [_ [_ E]]]]; [|rewrite Va in E2; inversion E2; subst x|congruence].
      + rewrite Va in E. symmetry in E. apply (view_zero s a _ W) in E. exact (St 0 a g Ha E).
      + destruct n as [m'|m' d|g'|m']; cbn in E3; try discriminate; try contradiction. inversion E3; subst g'. apply (view_at s a _ _ W) in E1. exact (St _ a g Ha E1).
    - rewrite (tl_at s s1 i a (proj1 W) (proj1 W1) Lo) in Hg. exact (St _ a g Ha Hg). }
  unfold mkdir_level. assert (L := look be s1 (c :: q) W1 R1). destruct (view s1 0 (c :: q)) as [[j n]|] eqn:V.
  - rewrite L. destruct (is_dir n) eqn:D; [reflexivity|]. exfalso. apply (N _ (under_refl _)). apply other_view.
    destruct (V1 (c :: q)) as [[E|[k [n' [x [E1 [E2 E3]]]]]]|[_ [_ [_ E]]]].
    + rewrite V in E. symmetry in E. eauto.
    + rewrite V in E2. inversion E2; subst. exists (S k), n'. split; [exact E1|]. rewrite <- (stands_dir _ _ E3). exact D.
    + rewrite V in E. inversion E; subst. discriminate.
  - destruct R1 as [A1 [St1 P1]]. assert (Mk := mkdir_succeeds be c q m s1 I1 (straight_un _ _ St1) (straight_un _ _ (straight_up s1 _ q St1 (tl_under (c :: q)))) A1 Vd V).
    unfold mkdir in Mk. rewrite L in Mk |- *. exact Mk.
Qed.
Lemma blocked_dec s p : (exists a, under a p /\ other s a) \/ forall a, under a p -> ~ other s a.
Proof.
  induction p as [|c q IH].
  - destruct (three s []) as [M|[D|O]]; [right|right|left; exists []; split; [apply under_refl|exact O]]; intros a Ha; apply under_nil_r in Ha; subst a.
    + intros O. exact (other_shown _ _ O M).
    + exact (dir_not_other _ _ D).
  - destruct IH as [[a [Ha O]]|IH]; [left; exists a; split; [apply under_cons, Ha|exact O]|].
    destruct (three s (c :: q)) as [M|[D|O]]; [right|right|left; exists (c :: q); split; [apply under_refl|exact O]]; intros a Ha; apply under_inv in Ha as [-> | Ha]; auto.
    + intros O. exact (other_shown _ _ O M).
    + exact (dir_not_other _ _ D).
Qed.
Lemma mkdir_all_answers be s p m : inv s -> usable be s (CMkdirAll p m) -> exists e, owes s (CMkdirAll p m) e /\ answered s (mkdir_all be p m s) e.
Proof.
  intros I [A St]. destruct (blocked_dec s p) as [[a [Ha O]]|N].
  - exists (Some ENotDir). split; [exists a; auto|]. exact (mkdir_all_blocked be p m s a I A St Ha O).
  - exists None. split; [exact N|]. exact (mkdir_all_works be p m s I A St N).
Qed.

(* --- links --- *)
Lemma copied_kind s s1 A o x : wf s -> grown A s s1 -> at_ s1 0 o = Some x -> exists j n, view s 0 o = Some (j, n) /\ is_dir n = is_dir x.
Proof.
  intros W G Hx. assert (V := view_top s1 o x (grown_wf _ _ _ G) Hx). destruct (grown_view _ s s1 o W G) as [E|[j [n [y [A1 [A2 [A3 _]]]]]]].
  - rewrite E in V. exists 0, x. auto.
  - rewrite V in A2. inversion A2; subst. exists (S j), n. split; [exact A1|]. symmetry. exact (stands_dir _ _ A3).
Qed.
Record both (be : backend) (o n : path) (s : stack) : Prop := {
  b_copy : err_opt (copy_up be o s) = None;
  b_place : err_opt (ensure_parent be n (end_of (copy_up be o s))) = None;
  b_grown : grown (link_way o n) s (end_of (ensure_parent be n (end_of (copy_up be o s))));
  b_held : exists x, at_ (end_of (ensure_parent be n (end_of (copy_up be o s)))) 0 o = Some x;
  b_dir : dir_at (end_of (ensure_parent be n (end_of (copy_up be o s)))) 0 (tl n) = true
}.
Lemma both_ready be s o n : inv s -> reached be s o -> reached be s n -> n <> [] -> shown s o -> ~ stuck s o -> both be o n s.
Proof.
  intros I Ro Rn Nn Sh NS. assert (W := proj1 I). destruct (copy_held be s o I Ro Sh NS) as [Ok [x [Hx G1]]].
  assert (I1 : inv (end_of (copy_up be o s))) by (split; [exact (grown_wf _ _ _ G1)|exact (grown_held _ _ _ G1 (proj2 I))]). assert (W1 := proj1 I1).
  assert (Rn1 := reached_grown _ be s _ n W G1 Rn). destruct n as [|c q]; [congruence|].
  assert (Up := reached_tl_plain be _ _ Rn1). cbn [tl] in Up.
  assert (Ok2 : err_opt (ensure_parent be (c :: q) (end_of (copy_up be o s))) = None) by (apply ensure_parent_ok; [exact I1|exact Up|exact (proj1 (reached_tl be _ _ W1 Rn1))|apply Rn1; discriminate]).
  destruct (ensure_parent_grows be c q _ W1 (proj2 I1) Up) as [[_ G2] D]. specialize (D Ok2). constructor; try assumption.
  - apply (grown_trans _ s (end_of (copy_up be o s))); [exact W| |].
    + eapply grown_mono; [|exact G1]. intros a z Hz. left. exact Hz.
    + eapply grown_mono; [|exact G2]. intros a z Hz. right. exact Hz.
  - exists x. destruct G2 as [_ [_ [_ [_ [_ [G2 _]]]]]]. exact (G2 o x Hx).
Qed.
Lemma link_answers be s o n : inv s -> usable be s (CLink o n) -> exists e, owes s (CLink o n) e /\ answered s (hardlink be o n s) e.
Proof.
  intros I [Ro [Rn ND]]. assert (W := proj1 I). assert (Lo := look be s o W Ro). assert (Ln := look be s n W Rn).
  destruct (view s 0 o) as [[j y]|] eqn:Vo.
  2: { exists (Some ENotExist). split; [exact Vo|]. unfold hardlink. rewrite Lo. reflexivity. }
  assert (So : shown s o) by (unfold shown; congruence). destruct (view s 0 n) as [[k z]|] eqn:Vn.
  { exists (Some EExist). split; [split; [exact So|unfold shown; congruence]|]. unfold hardlink. rewrite Lo, Ln. reflexivity. }
  destruct (stuck_dec s o) as [St|NS].
  { exists (Some EUnsupported). split; [split; assumption|]. unfold hardlink. rewrite Lo, Ln. apply answered_bind. exact (stuck_copy be s o W Ro St). }
  exists None. split; [split; [exact So|]; split; assumption|]. unfold hardlink. rewrite Lo, Ln. cbn [answered].
  assert (Nn : n <> []) by (intros ->; exact (view_root_some s W Vn)). destruct (both_ready be s o n I Ro Rn Nn So NS) as [B1 B2 B3 [x B4] B5].
  rewrite bind_opt by exact B1. rewrite bind_opt by exact B2. set (s2 := end_of (ensure_parent be n (end_of (copy_up be o s)))) in *. clearbody s2.
  assert (W2 := grown_wf _ _ _ B3). destruct (copied_kind s s2 _ o x W B3 B4) as [j' [y' [E1 E2]]]. rewrite Vo in E1. inversion E1; subst j' y'.
  assert (Dx : is_dir x = false). { rewrite <- E2. destruct (is_dir y) eqn:D; [|reflexivity]. exfalso. apply ND, vd_view. destruct y; try discriminate. eauto. }
  destruct n as [|c q]; [congruence|]. cbn [tl] in B5. rewrite dir_holds in B5 by apply W2.
  assert (Hn : node_at (top_tree s2) (c :: q) = None).
  { rewrite <- at_top by apply W2. destruct (at_ s2 0 (c :: q)) as [w|] eqn:Ew; [|reflexivity]. assert (Vw := view_top s2 _ w W2 Ew). rewrite (grown_none _ s s2 _ W B3 Vn) in Vw. discriminate. }
  assert (T : err_opt (t_link o (c :: q) s2) = None).
  { unfold t_link. rewrite at_top in B4 by apply W2. rewrite B4. destruct x; try discriminate; unfold t_add; rewrite Hn, B5; reflexivity. }
  rewrite bind_opt by exact T. unfold unmask. destruct (topi whb _ _); reflexivity.
Qed.
Lemma link_of_dir be s o n : inv s -> reached be s o -> reached be s n -> visible_dir s o ->
  (shown s n -> hardlink be o n s = ([], s, Some EExist)) /\
  (missing s n -> err_opt (hardlink be o n s) = Some EOther /\ copied_on (fun a => under a o \/ above_of n a) s (end_of (hardlink be o n s))).
Proof.
  intros I Ro Rn D. assert (W := proj1 I). assert (Lo := look be s o W Ro). assert (Ln := look be s n W Rn). assert (D' := D). apply vd_view in D' as [j [m Vo]]. rewrite Vo in Lo.
  split; intros Hn.
  - unfold shown in Hn. destruct (view s 0 n) as [[k z]|]; [|congruence]. unfold hardlink. rewrite Lo, Ln. reflexivity.
  - unfold missing in Hn. rewrite Hn in Ln. assert (Nn : n <> []) by (intros ->; exact (view_root_some s W Hn)).
    assert (NS : ~ stuck s o) by (intros [i [m' E]]; congruence). destruct (both_ready be s o n I Ro Rn Nn (dir_shown _ _ D) NS) as [B1 B2 B3 [x B4] B5].
    unfold hardlink. rewrite Lo, Ln. rewrite bind_opt, bind_end by exact B1. rewrite bind_opt, bind_end by exact B2.
    set (s2 := end_of (ensure_parent be n (end_of (copy_up be o s)))) in *. clearbody s2. assert (W2 := grown_wf _ _ _ B3).
    destruct (copied_kind s s2 _ o x W B3 B4) as [j' [y' [E1 E2]]]. rewrite Vo in E1. inversion E1; subst j' y'. cbn [is_dir] in E2. destruct x; try discriminate.
    rewrite at_top in B4 by apply W2. unfold t_link. rewrite B4. split; [reflexivity|]. exact (grown_copied _ _ s s2 W B3 (link_way_of o n)).
Qed.

(* --- rename --- *)
Lemma lstat_at be s i l p : wf s -> answers be s p -> straight s p -> nth_error s i = Some l ->
  match lstat be i (l_tree l) p with AFound x => at_ s i p = Some x | AErr => False | _ => at_ s i p = None end.
Proof.
  intros W A St El. assert (Hi : i < length s) by (apply nth_error_Some; congruence). unfold lstat. rewrite (A i p Hi (under_refl p)).
  assert (Wl := wf_at s i l W El). assert (Sp := walk_spec (l_tree l) p Wl). unfold at_. rewrite El. destruct (walk (l_tree l) p) as [x| | |]; [exact Sp|apply Sp|apply Sp|].
  exfalso. destruct Sp as [_ [a [g [Ha Hg]]]]. apply (St i a g Ha). unfold at_. rewrite El. exact Hg.
Qed.
Lemma dir_check_spec be s p is : wf s -> answers be s p -> straight s p -> (forall i, In i is -> i < length s) ->
  (dir_check be s p is = Some EXDev /\ exists i x, In i is /\ at_ s i p = Some x) \/ (dir_check be s p is = None /\ forall i, In i is -> at_ s i p = None).
Proof.
  intros W A St. induction is as [|i r IH]; intros Hl; [right; split; [reflexivity|intros i []]|]. cbn [dir_check].
  destruct (nth_error s i) as [l|] eqn:El; [|exfalso; apply nth_error_None in El; specialize (Hl i (or_introl eq_refl)); lia].
  assert (L := lstat_at be s i l p W A St El). specialize (IH (fun k Hk => Hl k (or_intror Hk))).
  destruct (lstat be i (l_tree l) p) as [x| | |]; [left; split; [reflexivity|]; exists i, x; split; [left; reflexivity|exact L]| | |contradiction].
  all: destruct IH as [[E [k [x [Hk Hx]]]]|[E N]]; [left; split; [exact E|]; exists k, x; split; [right; exact Hk|exact Hx]|right; split; [exact E|]; intros k [<- | Hk]; auto].
Qed.
Lemma rename_dir_check_spec be s o : wf s -> reached be s o ->
  (rename_dir_check be s o = Some EXDev /\ spans s o) \/ (rename_dir_check be s o = None /\ ~ spans s o).
Proof.
  intros W [A [St _]]. assert (Hl := wf_len s W). unfold rename_dir_check.
  assert (Hb : forall i, In i (upto 1 (child_cut s o)) -> i < length s) by (intros i Hi; apply in_upto in Hi; apply (child_cut_spec s o i Hl); lia).
  destruct (dir_check_spec be s o (upto 1 (child_cut s o)) W A St Hb) as [[E [i [x [Hi Hx]]]]|[E N]]; [left|right]; (split; [exact E|]).
  - apply in_upto in Hi as [H1 H2]. destruct i as [|i]; [lia|]. exists i, x. split; [exact Hx|]. apply (child_cut_spec s o _ Hl) in H2 as [_ H2].
    intros k a Hk Ha. apply H2; [lia|exact Ha].
  - intros [i [x [Hx Hm]]]. assert (Hi : In (S i) (upto 1 (child_cut s o))).
    { apply in_upto. split; [lia|]. apply (child_cut_spec s o _ Hl). split; [exact (at_len _ _ _ _ Hx)|]. intros k a Hk Ha. apply Hm; [lia|exact Ha]. }
    rewrite (N _ Hi) in Hx. discriminate.
Qed.
Lemma target_check_spec be s n d : wf s -> reached be s n ->
  (rename_target_check be s n d = Some EIsDir /\ visible_dir s n /\ d = false) \/
  (rename_target_check be s n d = Some ENotDir /\ other s n /\ d = true) \/
  (rename_target_check be s n d = Some ENotEmpty /\ visible_dir s n /\ full s n /\ d = true) \/
  (rename_target_check be s n d = None /\ ((d = true /\ ~ other s n /\ ~ full s n) \/ (d = false /\ ~ visible_dir s n))).
Proof.
  intros W R. assert (L := look be s n W R). unfold rename_target_check. destruct (three s n) as [M|[D|O]].
  - right. right. right. rewrite L, M. split; [reflexivity|]. destruct d; [left|right]; (split; [reflexivity|]).
    + split; [intros O; exact (other_shown _ _ O M)|]. intros F. exact (dir_shown _ _ (full_dir s n W F) M).
    + intros D. exact (dir_shown _ _ D M).
  - assert (D' := D). apply vd_view in D' as [j [m V]]. rewrite L, V. cbn [is_dir]. destruct d; [|left; auto]. right. right.
    destruct (listing be s n W R D) as [[Ls F]|[x [es [Ls F]]]]; rewrite Ls; [right|left; auto]. split; [reflexivity|]. left. split; [reflexivity|]. split; [exact (dir_not_other _ _ D)|exact F].
  - assert (O' := O). apply other_view in O' as [j [y [V Dy]]]. rewrite L, V, Dy. destruct d; [right; left; auto|]. right. right. right. split; [reflexivity|]. right. split; [reflexivity|].
    intros D. exact (dir_not_other _ _ D O).
Qed.
Lemma from_below be s p : wf s -> reached be s p -> p <> [] -> exists r, lookup_from be s p 1 = r /\ r <> LErr /\ r <> LNotDir.
Proof.
  intros W [A [St P]] Hp. exists (lookup_from be s p 1). split; [reflexivity|]. split.
  - assert (G := lookup_from_good be s p 1 W). intros E. rewrite E in G. destruct G as [[i [a [H1 [H2 H3]]]]|G]; [|exact (straight_linked s p 1 St G)].
    rewrite (A i a H1 H2) in H3. discriminate.
  - destruct p as [|c q]; [congruence|]. unfold lookup_from. assert (Rq := reached_tl be s (c :: q) W (conj A (conj St P))). cbn [tl] in Rq.
    specialize (P Hp). cbn [tl] in P. apply vd_view in P as [j [m V]]. rewrite (look be s q W Rq), V. cbn [blocked_err is_dir]. apply loop_not_notdir.
Qed.
Lemma rename_subtree_ok o n s : err_opt (rename_subtree o n s) = None.
Proof.
  unfold rename_subtree. cbn zeta. rewrite bind_opt by (apply no_err_for_each; reflexivity). rewrite bind_opt by (apply no_err_for_each; reflexivity).
  rewrite bind_opt by (apply no_err_for_each; reflexivity). apply no_err_for_each. reflexivity.
Qed.
Lemma tail_ok be o n d s : wf s -> reached be s o -> o <> [] -> err_opt (t_rename o n s) = None -> err_opt (rename_tail be o n d s) = None.
Proof.
  intros W R Ho T. unfold rename_tail. destruct (from_below be s o W R Ho) as [r [E [N1 N2]]]. rewrite E.
  assert (K : forall f, (forall s', err_opt (f s') = None) -> err_opt (s0 <- t_rename o n s ;; s1 <- clear_subtree n s0 ;; s2 <- rename_subtree o n s1 ;; s3 <- (if d then set_opaque n s2 else ret s2) ;; f s3) = None).
  { intros f Hf. rewrite bind_opt by exact T. rewrite bind_opt by apply clear_subtree_ok. rewrite bind_opt by apply rename_subtree_ok.
    rewrite bind_opt by (destruct d; reflexivity). apply Hf. }
  destruct r; try congruence; apply K; intros s'; [reflexivity|apply clear_subtree_ok].
Qed.
Lemma rename_answers be s o n : inv s -> usable be s (CRename o n) -> exists e, owes s (CRename o n) e /\ answered s (rename be o n s) e.
Proof.
  intros I [Ro Rn]. assert (W := proj1 I). assert (Lo := look be s o W Ro).
  destruct o as [|co qo]; [exists (Some EInval); split; [left; reflexivity|reflexivity]|].
  destruct n as [|cn qn]; [exists (Some EInval); split; [right; left; reflexivity|reflexivity]|].
  set (o := co :: qo) in *. set (n := cn :: qn) in *. assert (Ho : o <> []) by discriminate. assert (Hn : n <> []) by discriminate.
  assert (Rd : forall e, lookup be s o = e -> rename be o n s = match e with
    | LFound _ x => if path_eqb o n then ret s else if within o n then fail s EInval else
        match (if is_dir x then rename_dir_check be s o else None) with
        | Some e => fail s e
        | None => match rename_target_check be s n (is_dir x) with
                  | Some e => fail s e
                  | None => s1 <- copy_up be o s ;; s2 <- ensure_parent be n s1 ;; rename_tail be o n (is_dir x) s2
                  end
        end
    | r => fail s (err_of r) end) by (intros e <-; unfold rename, o, n; cbn [is_nil orb]; destruct (lookup be s (co :: qo)); reflexivity).
  specialize (Rd _ eq_refl). rewrite Lo in Rd. clear Lo. rewrite Rd. clear Rd. clearbody o n. clear co qo cn qn.
  destruct (view s 0 o) as [[j x]|] eqn:Vo; [|exists (Some ENotExist); split; [split; [exact Ho|]; split; [exact Hn|exact Vo]|reflexivity]].
  assert (So : shown s o) by (unfold shown; congruence).
  destruct (path_eqb o n) eqn:Eq; [apply path_eqb_eq in Eq; exists None; split; [left; auto|reflexivity]|]. apply path_eqb_neq in Eq.
  destruct (within o n) eqn:Wi.
  { apply within_under in Wi. exists (Some EInval). split; [right; right; split; [exact So|apply strictly_under_iff; auto]|reflexivity]. }
  apply within_false in Wi. assert (M : moves s o n) by (unfold moves; auto).
  assert (Kind : (is_dir x = true /\ visible_dir s o) \/ (is_dir x = false /\ other s o)).
  { destruct (is_dir x) eqn:D; [left|right]; (split; [reflexivity|]); [apply vd_view; destruct x; try discriminate; eauto|apply other_view; eauto]. }
  destruct (if is_dir x then rename_dir_check be s o else None) as [e1|] eqn:C1.
  { destruct (is_dir x); [|discriminate]. destruct (rename_dir_check_spec be s o W Ro) as [[E Sp]|[E _]]; rewrite E in C1; [|discriminate].
    assert (e1 = EXDev) by congruence. subst e1. exists (Some EXDev). split; [|reflexivity]. destruct Kind as [[_ D]|[K _]]; [|discriminate]. split; [exact M|]. split; [exact D|exact Sp]. }
  assert (NSp : visible_dir s o -> ~ spans s o).
  { intros D. destruct Kind as [[K _]|[_ O]]; [|exfalso; exact (dir_not_other _ _ D O)]. rewrite K in C1. destruct (rename_dir_check_spec be s o W Ro) as [[E _]|[_ E]]; [congruence|exact E]. }
  destruct (target_check_spec be s n (is_dir x) W Rn) as [[C2 [D Dx]]|[[C2 [O Dx]]|[[C2 [D [F Dx]]]|[C2 T]]]]; rewrite C2.
  - exists (Some EIsDir). split; [|reflexivity]. split; [exact M|]. split; [|exact D]. destruct Kind as [[K _]|[_ K]]; [congruence|exact K].
  - exists (Some ENotDir). split; [|reflexivity]. destruct Kind as [[_ K]|[K _]]; [|congruence]. split; [exact M|]. split; [exact K|]. split; [exact (NSp K)|exact O].
  - exists (Some ENotEmpty). split; [|reflexivity]. destruct Kind as [[_ K]|[K _]]; [|congruence]. split; [exact M|]. split; [exact K|]. split; [exact (NSp K)|]. auto.
  - destruct (stuck_dec s o) as [St|NS].
    + exists (Some EUnsupported). split; [|apply answered_bind; exact (stuck_copy be s o W Ro St)]. split; [exact M|]. split; [exact St|].
      destruct T as [[Dx _]|[_ T]]; [|exact T]. exfalso. destruct Kind as [[_ K]|[K _]]; [|congruence]. exact (dir_not_other _ _ K (stuck_other _ _ St)).
    + exists None. split.
      { right. split; [exact M|]. destruct T as [[Dx T]|[Dx T]]; destruct Kind as [[K1 K2]|[K1 K2]]; try congruence; [left; split; [exact K2|]; split; [exact (NSp K2)|exact T]|right; auto]. }
      destruct (both_ready be s o n I Ro Rn Hn So NS) as [B1 B2 B3 [x2 B4] B5]. cbn [answered]. rewrite bind_opt by exact B1. rewrite bind_opt by exact B2.
      set (s2 := end_of (ensure_parent be n (end_of (copy_up be o s)))) in *. clearbody s2. assert (W2 := grown_wf _ _ _ B3).
      apply tail_ok; [exact W2|exact (reached_grown _ be s s2 o W B3 Ro)|exact Ho|].
      destruct (copied_kind s s2 _ o x2 W B3 B4) as [j' [y' [E1 E2]]]. rewrite Vo in E1. inversion E1; subst j' y'. clear E1.
      unfold t_rename. cbn zeta. rewrite at_top in B4 by apply W2. rewrite B4. apply within_false in Wi. rewrite Wi. rewrite dir_holds in B5 by apply W2. rewrite B5. cbn [negb].
      destruct (node_at (top_tree s2) n) as [y|] eqn:Ey; [|reflexivity]. rewrite <- at_top in Ey by apply W2.
      destruct (copied_kind s s2 _ n y W B3 Ey) as [k [z [Vn Dz]]]. rewrite <- E2. destruct T as [[Dx [T1 T2]]|[Dx T]]; rewrite Dx.
      * assert (Dy : is_dir y = true). { destruct (is_dir y) eqn:Dy; [reflexivity|]. exfalso. apply T1, other_view. exists k, z. auto. }
        rewrite Dy. cbn [negb]. destruct (children (top_tree s2) n) as [|c r] eqn:Ec; [reflexivity|]. exfalso. apply T2. exists c. unfold shown. intros Vc.
        assert (Hc : In c (children (top_tree s2) n)) by (rewrite Ec; left; reflexivity). apply in_children in Hc. destruct (tget (top_tree s2) (c :: n)) as [w|] eqn:Ew; [|congruence].
        assert (Hw : at_ s2 0 (c :: n) = Some w) by (rewrite at_top by apply W2; exact Ew). assert (Vw := view_top s2 _ w W2 Hw). rewrite (grown_none _ s s2 _ W B3 Vc) in Vw. discriminate.
      * assert (Dy : is_dir y = false). { destruct (is_dir y) eqn:Dy; [|reflexivity]. exfalso. apply T, vd_view. exists k. destruct z; try discriminate. eauto. }
        rewrite Dy. reflexivity.
Qed.

Theorem call_answers be s c : inv s -> usable be s c -> exists e, owes s c e /\ answered s (run_call be c s) e.
Proof.
  intros I U. destruct c; cbn [run_call].
  - exact (remove_answers be s p I U).
  - exact (remove_all_answers be s p I U).
  - exact (mkdir_answers be s p m I U).
  - exact (mkdir_all_answers be s p m I U).
  - exact (open_answers be s p creating excl trunc m I U).
  - exact (write_answers s p d).
  - exact (symlink_answers be s target p I U).
  - exact (link_answers be s o n I U).
  - exact (chmod_answers be s p m I (proj1 U)).
  - exact (rename_answers be s o n I U).
Qed.

Lemma none_other s p : missing s p -> ~ other s p.
Proof. intros M O. exact (other_shown _ _ O M). Qed.
Lemma none_dir s p : missing s p -> ~ visible_dir s p.
Proof. intros M D. exact (dir_shown _ _ D M). Qed.
Lemma none_stuck s p : missing s p -> ~ stuck s p.
Proof. intros M D. exact (none_other _ _ M (stuck_other _ _ D)). Qed.
Lemma root_shown s : wf s -> ~ missing s [].
Proof. intros W M. exact (view_root_some s W M). Qed.

(* No call is owed two answers. *)
Theorem one_answer s c e e' : wf s -> owes s c e -> owes s c e' -> e = e'.
Proof.
  intros W H H'.
  assert (Fx : forall p, full s p -> shown s p) by (intros p F; exact (dir_shown _ _ (full_dir s p W F))).
  assert (Ms : forall p, missing s p -> shown s p -> False) by (intros p M S; exact (S M)).
  assert (Su : forall a b, strictly_under a b -> under a b) by (intros a b S; apply strictly_under_iff in S; tauto).
  destruct c; cbn [owes] in *.
  - destruct e as [[]|], e' as [[]|]; try reflexivity; try contradiction; exfalso.
    all: try (subst p; solve [exact (root_shown s W H)|exact (root_shown s W H')|tauto|destruct H as [H _]; congruence|destruct H' as [H' _]; congruence]).
    all: try (destruct H as [H1 H2]; solve [tauto|exact (Ms _ H' (Fx _ H2))|exact (Ms _ H' (proj1 H2))|apply (proj2 H2); exact (proj2 H')]).
    all: try (destruct H' as [H1 H2]; solve [tauto|exact (Ms _ H (Fx _ H2))|exact (Ms _ H (proj1 H2))|apply (proj2 H2); exact (proj2 H)]).
  - destruct e as [[]|], e' as [[]|]; try reflexivity; try contradiction; exfalso; auto.
  - destruct e as [[]|], e' as [[]|]; try reflexivity; try contradiction; exfalso; eauto.
  - destruct e as [[]|], e' as [[]|]; try reflexivity; try contradiction; exfalso.
    + destruct H as [a [H1 H2]]. exact (H' a H1 H2).
    + destruct H' as [a [H1 H2]]. exact (H a H1 H2).
  - assert (N1 := none_other s p). assert (N2 := none_dir s p). assert (N3 := none_stuck s p). assert (N4 := dir_not_other s p). assert (N5 := stuck_other s p).
    destruct e as [[]|], e' as [[]|]; try reflexivity; try contradiction; exfalso; try tauto.
    all: destruct creating; try tauto; intuition congruence.
  - congruence.
  - destruct e as [[]|], e' as [[]|]; try reflexivity; try contradiction; exfalso; eauto.
  - assert (N3 := none_stuck s o). destruct e as [[]|], e' as [[]|]; try reflexivity; try contradiction; exfalso; unfold shown, missing in *; intuition congruence.
  - assert (N3 := none_stuck s p). destruct e as [[]|], e' as [[]|]; try reflexivity; try contradiction; exfalso; unfold shown, missing in *; intuition congruence.
  - assert (M1 := dir_not_other s o). assert (M2 := dir_not_other s n). assert (M3 := none_other s o). assert (M4 := stuck_other s o). assert (M5 := full_dir s n W).
    assert (Mv : moves s o n -> o <> [] /\ n <> [] /\ shown s o /\ ~ under o n) by (intros M; exact M). assert (S1 := Su o n).
    assert (S2 : o = n -> strictly_under o n -> False) by (intros -> S; apply strictly_under_iff in S; tauto).
    assert (S3 : o = n -> under o n) by (intros ->; apply under_refl). assert (S4 := Ms o). clear Fx Ms Su.
    destruct e as [[]|], e' as [[]|]; try reflexivity; try contradiction; exfalso; tauto.
Qed.

(* A name whose parent is no directory. *)
Lemma astray_lookup be s c q : inv s -> answers be s (c :: q) -> straight s (c :: q) -> ~ visible_dir s q ->
  view s 0 (c :: q) = None /\ (lookup be s (c :: q) = LMissing \/ lookup be s (c :: q) = LNotDir).
Proof.
  intros I A St N. assert (W := proj1 I). assert (V : view s 0 (c :: q) = None).
  { destruct (view s 0 (c :: q)) as [[j n]|] eqn:V; [|reflexivity]. exfalso. apply N. destruct (visible_ancestor s q (c :: q) j n W) as [i [m [_ Vq]]]; [apply strictly_cons, under_refl|exact V|]. apply vd_view. eauto. }
  split; [exact V|]. assert (L := lookup_answers be s (c :: q) W (or_introl (straight_un _ _ St)) A). destruct (lookup be s (c :: q)); try contradiction; auto. congruence.
Qed.
Lemma astray_parent be s c q : inv s -> answers be s (c :: q) -> straight s (c :: q) -> ~ visible_dir s q ->
  ensure_parent be (c :: q) s = ([], s, Some ENotExist) \/ ensure_parent be (c :: q) s = ([], s, Some ENotDir).
Proof.
  intros I A St N. assert (W := proj1 I). unfold ensure_parent. cbn [tl].
  assert (Aq := answers_up be s _ q A (tl_under (c :: q))). assert (Sq := straight_up s _ q St (tl_under (c :: q))).
  assert (L := lookup_answers be s q W (or_introl (straight_un _ _ Sq)) Aq). destruct (lookup be s q) as [j n| | |]; try contradiction; [|left; reflexivity|right; reflexivity].
  destruct (is_dir n) eqn:D; [|right; reflexivity]. exfalso. apply N, vd_view. destruct n; try discriminate. eauto.
Qed.
Lemma refused_bind s a f : refused s a -> refused s (bind a f).
Proof. intros [-> | ->]; [left|right]; reflexivity. Qed.
Theorem astray be s c k q : inv s -> name_of c = Some (k :: q) -> answers be s (k :: q) -> straight s (k :: q) -> ~ visible_dir s q ->
  match c with
  | CMkdirAll _ _ => True
  | CRemoveAll _ => remove_all be (k :: q) s = ret s \/ refused s (run_call be c s)
  | _ => refused s (run_call be c s)
  end.
Proof.
  intros I E A St N. destruct (astray_lookup be s k q I A St N) as [V L]. assert (P := astray_parent be s k q I A St N). fold (refused s (ensure_parent be (k :: q) s)) in P.
  destruct c; cbn [name_of] in E; try discriminate; cbn [run_call]; try exact Logic.I; apply some_inj in E; subst p.
  - unfold remove. cbn [is_nil]. destruct L as [-> | ->]; [left|right]; reflexivity.
  - unfold remove_all. cbn [is_nil]. destruct L as [-> | ->]; [left; reflexivity|right; right; reflexivity].
  - unfold mkdir. destruct L as [-> | ->]; [apply refused_bind, P|right; reflexivity].
  - unfold open_write. destruct L as [-> | ->]; [|right; reflexivity]. destruct creating; [apply refused_bind, P|left; reflexivity].
  - unfold symlink. destruct L as [-> | ->]; [apply refused_bind, P|right; reflexivity].
  - unfold chmod, copy_up. destruct L as [-> | ->]; [|right; reflexivity]. left. unfold ret. cbn [bind].
    assert (T : node_at (top_tree s) (k :: q) = None).
    { rewrite <- at_top by apply I. destruct (at_ s 0 (k :: q)) as [x|] eqn:Ex; [|reflexivity]. rewrite (view_top s _ x (proj1 I) Ex) in V. discriminate. }
    rewrite T. reflexivity.
Qed.
