(* Rename, and the marks every call leaves. *)
From Verif Require Import Common ContentRange_Model ContentRange_Proofs Overlay_Model Overlay_Spec Overlay_Proofs OverlayOps_Proofs OverlayGrow_Proofs OverlayNew_Proofs.
Open Scope nat_scope.

(* Only marks differ, and none of the kind given appears. *)
Definition unmarked (s s' : stack) : Prop :=
  exists l l' r, s = l :: r /\ s' = l' :: r /\ l_tree l' = l_tree l /\
  (forall a, whb l' a = true -> whb l a = true) /\ (forall a, opb l' a = true -> opb l a = true).
Lemma unmarked_refl s : s <> [] -> unmarked s s.
Proof. destruct s as [|l r]; [congruence|]. intros _. exists l, l, r. auto 6. Qed.
Lemma unmarked_trans s1 s2 s3 : unmarked s1 s2 -> unmarked s2 s3 -> unmarked s1 s3.
Proof.
  intros [l [l' [r [-> [-> [H1 [H2 H3]]]]]]] [l2 [l3 [r2 [E [-> [H4 [H5 H6]]]]]]]. inversion E; subst l2 r2.
  exists l, l3, r. split; [reflexivity|]. split; [reflexivity|]. split; [congruence|]. split; auto.
Qed.
Lemma unmarked_ne s s' : unmarked s s' -> s' <> [].
Proof. intros [l [l' [r [_ [-> _]]]]]. discriminate. Qed.
Lemma unmarked_held s s' : unmarked s s' -> held s -> held s'.
Proof.
  intros [l [l' [r [-> [-> [H1 [H2 H3]]]]]]] H a Ha. specialize (H a (H3 a Ha)). unfold dir_at, at_ in *. cbn in *. rewrite H1. exact H.
Qed.
Lemma unmarked_clear_wh q s : s <> [] -> unmarked s (on_top (m_clear_wh q) s).
Proof.
  destruct s as [|l r]; [congruence|]. intros _. exists l, (m_clear_wh q l), r. split; [reflexivity|]. split; [reflexivity|]. split; [reflexivity|]. split; [|auto].
  intros a. rewrite whb_clear_wh. intros H. apply andb_true_iff in H. tauto.
Qed.
Lemma unmarked_clear_op q s : s <> [] -> unmarked s (on_top (m_clear_op q) s).
Proof.
  destruct s as [|l r]; [congruence|]. intros _. exists l, (m_clear_op q l), r. split; [reflexivity|]. split; [reflexivity|]. split; [reflexivity|]. split; [auto|].
  intros a. rewrite opb_clear_op. intros H. apply andb_true_iff in H. tauto.
Qed.
Definition drop_wh (q : path) (s : stack) : eff := if topi whb s q then clear_whiteout q s else ret s.
Definition drop_op (q : path) (s : stack) : eff := if topi opb s q then clear_opaque q s else ret s.
Lemma drop_wh_whi q s a : whi (end_of (drop_wh q s)) 0 a = whi s 0 a && negb (path_eqb q a) /\ opi (end_of (drop_wh q s)) 0 a = opi s 0 a.
Proof.
  unfold drop_wh. rewrite topi_whi. destruct (whi s 0 q) eqn:E.
  - cbn. rewrite whi_clear_wh, opi_clear_wh. auto.
  - cbn. split; [|reflexivity]. destruct (path_eqb q a) eqn:E2; [apply path_eqb_eq in E2; subst; rewrite E; reflexivity|]. rewrite andb_true_r. reflexivity.
Qed.
Lemma topi_opi s p : topi opb s p = opi s 0 p.
Proof. destruct s; reflexivity. Qed.
Lemma opi_clear_op p s a : opi (on_top (m_clear_op p) s) 0 a = opi s 0 a && negb (path_eqb p a).
Proof. destruct s as [|l r]; [reflexivity|]. apply opb_clear_op. Qed.
Lemma drop_op_opi q s a : opi (end_of (drop_op q s)) 0 a = opi s 0 a && negb (path_eqb q a) /\ whi (end_of (drop_op q s)) 0 a = whi s 0 a.
Proof.
  unfold drop_op. rewrite topi_opi. destruct (opi s 0 q) eqn:E.
  - cbn. rewrite opi_clear_op. split; [reflexivity|]. destruct s; reflexivity.
  - cbn. split; [|reflexivity]. destruct (path_eqb q a) eqn:E2; [apply path_eqb_eq in E2; subst; rewrite E; reflexivity|]. rewrite andb_true_r. reflexivity.
Qed.
Lemma err_drop_wh q s : err_opt (drop_wh q s) = None.
Proof. unfold drop_wh. destruct (topi whb s q); reflexivity. Qed.
Lemma err_drop_op q s : err_opt (drop_op q s) = None.
Proof. unfold drop_op. destruct (topi opb s q); reflexivity. Qed.
Lemma for_each_end f x xs s : err_opt (f x s) = None -> end_of (for_each f (x :: xs) s) = end_of (for_each f xs (end_of (f x s))).
Proof. cbn [for_each]. destruct (f x s) as [[tr s1] e]. cbn. intros ->. destruct (for_each f xs s1) as [[tr2 s2] e2]. reflexivity. Qed.
Lemma drops_wh ps s a : whi (end_of (for_each drop_wh ps s)) 0 a = whi s 0 a && negb (memp a ps) /\ opi (end_of (for_each drop_wh ps s)) 0 a = opi s 0 a.
Proof.
  revert s. induction ps as [|p ps IH]; intros s; [cbn; rewrite andb_true_r; auto|]. rewrite for_each_end by apply err_drop_wh.
  destruct (IH (end_of (drop_wh p s))) as [-> ->]. destruct (drop_wh_whi p s a) as [-> ->]. split; [|reflexivity].
  unfold memp. cbn [existsb]. assert (path_eqb p a = path_eqb a p) as ->.
  { destruct (path_eqb p a) eqn:E; [apply path_eqb_eq in E; subst; rewrite path_eqb_refl; reflexivity|]. destruct (path_eqb a p) eqn:E2; [apply path_eqb_eq in E2; subst; rewrite path_eqb_refl in E; discriminate|reflexivity]. }
  rewrite negb_orb, andb_assoc. reflexivity.
Qed.
Lemma drops_op ps s a : opi (end_of (for_each drop_op ps s)) 0 a = opi s 0 a && negb (memp a ps) /\ whi (end_of (for_each drop_op ps s)) 0 a = whi s 0 a.
Proof.
  revert s. induction ps as [|p ps IH]; intros s; [cbn; rewrite andb_true_r; auto|]. rewrite for_each_end by apply err_drop_op.
  destruct (IH (end_of (drop_op p s))) as [-> ->]. destruct (drop_op_opi p s a) as [-> ->]. split; [|reflexivity].
  unfold memp. cbn [existsb]. assert (path_eqb p a = path_eqb a p) as ->.
  { destruct (path_eqb p a) eqn:E; [apply path_eqb_eq in E; subst; rewrite path_eqb_refl; reflexivity|]. destruct (path_eqb a p) eqn:E2; [apply path_eqb_eq in E2; subst; rewrite path_eqb_refl in E; discriminate|reflexivity]. }
  rewrite negb_orb, andb_assoc. reflexivity.
Qed.
Lemma drops_unmarked (f : path -> stack -> eff) ps s : (f = drop_wh \/ f = drop_op) -> s <> [] -> keeps (unmarked s) (for_each f ps s).
Proof.
  intros Hf Hs. apply keeps_for_each; [|apply unmarked_refl, Hs]. intros q s' _ U. destruct Hf as [-> | ->].
  - unfold drop_wh. destruct (topi whb s' q); [|apply keeps_ret, U]. apply keeps_step. eapply unmarked_trans; [exact U|]. apply unmarked_clear_wh, (unmarked_ne _ _ U).
  - unfold drop_op. destruct (topi opb s' q); [|apply keeps_ret, U]. apply keeps_step. eapply unmarked_trans; [exact U|]. apply unmarked_clear_op, (unmarked_ne _ _ U).
Qed.
Lemma clear_subtree_eq p s : clear_subtree p s =
  (s1 <- for_each drop_wh (marks_below p (top_wh s) ++ [p]) s ;; for_each drop_op (marks_below p (top_op s1) ++ [p]) s1).
Proof. reflexivity. Qed.
Lemma drops_ok f ps s : (f = drop_wh \/ f = drop_op) -> err_opt (for_each f ps s) = None.
Proof. intros [-> | ->]; apply no_err_for_each; intros; [apply err_drop_wh|apply err_drop_op]. Qed.
Lemma bind_end a f : err_opt a = None -> end_of (bind a f) = end_of (f (end_of a)).
Proof. destruct a as [[tr s] e]. cbn. intros ->. destruct (f s) as [[tr' s'] e']. reflexivity. Qed.
Lemma bind_opt a f : err_opt a = None -> err_opt (bind a f) = err_opt (f (end_of a)).
Proof. destruct a as [[tr s] e]. cbn. intros ->. destruct (f s) as [[tr' s'] e']. reflexivity. Qed.
Lemma bind_err a f : err_opt a <> None -> end_of (bind a f) = end_of a.
Proof. destruct a as [[tr s] [e|]]; intros H; [reflexivity|]. exfalso. apply H. reflexivity. Qed.
Lemma clear_subtree_unmarked p s : s <> [] -> keeps (unmarked s) (clear_subtree p s).
Proof.
  intros Hs. rewrite clear_subtree_eq. assert (K := drops_unmarked drop_wh (marks_below p (top_wh s) ++ [p]) s (or_introl eq_refl) Hs).
  apply keeps_bind; [exact K|]. intros _. eapply keeps_weaken; [|apply drops_unmarked; [right; reflexivity|exact (unmarked_ne _ _ (proj2 K))]].
  intros s' U. eapply unmarked_trans; [exact (proj2 K)|exact U].
Qed.
Lemma top_wh_memp s a : memp a (top_wh s) = whi s 0 a.
Proof. destruct s; reflexivity. Qed.
Lemma top_op_memp s a : memp a (top_op s) = opi s 0 a.
Proof. destruct s; reflexivity. Qed.
Lemma marks_all p l a : under p a -> memp a l = true -> memp a (marks_below p l ++ [p]) = true.
Proof.
  intros Hu Hm. apply memp_in. apply in_app_iff. destruct (path_dec p a) as [<- | Hn]; [right; left; reflexivity|left].
  apply marks_below_in. split; [apply memp_in, Hm|]. apply strictly_under_iff. auto.
Qed.
Lemma clear_subtree_end p s a : under p a -> whi (end_of (clear_subtree p s)) 0 a = false /\ opi (end_of (clear_subtree p s)) 0 a = false.
Proof.
  intros Hu. rewrite clear_subtree_eq, bind_end by (apply drops_ok; auto). set (s1 := end_of (for_each drop_wh (marks_below p (top_wh s) ++ [p]) s)).
  destruct (drops_op (marks_below p (top_op s1) ++ [p]) s1 a) as [-> ->].
  split.
  - unfold s1. destruct (drops_wh (marks_below p (top_wh s) ++ [p]) s a) as [-> _]. destruct (whi s 0 a) eqn:E; [|reflexivity].
    rewrite (marks_all p (top_wh s) a Hu); [reflexivity|]. rewrite top_wh_memp. exact E.
  - destruct (opi s1 0 a) eqn:E; [|reflexivity]. rewrite (marks_all p (top_op s1) a Hu); [reflexivity|]. rewrite top_op_memp. exact E.
Qed.

(* Removals keep the invariant. *)
Lemma trimmed_held p s s' : trimmed p s s' -> (forall a, under p a -> opi s 0 a = false) -> held s -> held s'.
Proof.
  intros T N H a Ha. destruct (trimmed_marks p s s' a T) as [_ E]. rewrite E in Ha. assert (Hn : ~ under p a) by (intros Hu; rewrite (N a Hu) in Ha; discriminate).
  specialize (H a Ha). unfold dir_at in *. rewrite <- (proj1 (proj2 (trimmed_agree p s s' T) 0 a Hn)). exact H.
Qed.
Lemma unlink_held be p rm s : wf s -> held s -> empties p rm -> keeps held (unlink be p rm s).
Proof.
  intros W H [K1 _]. assert (Hs : s <> []) by apply W. unfold unlink. destruct (lookup_from be s p 1); try (apply keeps_fail; exact H).
  - assert (H1 : held (on_top (m_set_wh p) s)).
    { apply (held_less s); [destruct s; [congruence|discriminate]|destruct s; reflexivity| |exact H]. intros a. destruct s as [|l r]; [congruence|].
      change (opb (m_set_wh p l) a = true -> opb l a = true). rewrite opb_set_wh. intros Ha. apply andb_true_iff in Ha. tauto. }
    apply keeps_bind; [apply keeps_step, H1|]. intros _. cbn [set_whiteout step end_of fst snd]. apply keeps_ignore.
    eapply keeps_weaken; [|apply K1; destruct s; [congruence|discriminate]]. intros s' T. apply (trimmed_held p _ s' T); [|exact H1].
    intros a Ha. destruct s as [|l r]; [congruence|]. change (opb (m_set_wh p l) a = false). rewrite opb_set_wh. apply within_under in Ha. rewrite Ha, andb_false_r. reflexivity.
  - assert (K := clear_subtree_unmarked p s Hs). apply keeps_bind; [eapply keeps_weaken; [|exact K]; intros s' U; exact (unmarked_held _ _ U H)|].
    intros _. apply keeps_ignore. eapply keeps_weaken; [|apply K1; exact (unmarked_ne _ _ (proj2 K))]. intros s' T. apply (trimmed_held p _ s' T).
    + intros a Ha. apply clear_subtree_end, Ha.
    + exact (unmarked_held _ _ (proj2 K) H).
Qed.
Lemma unlink_inv be p rm s : inv s -> empties p rm -> keeps inv (unlink be p rm s).
Proof.
  intros [W H] E. destruct (unlink_held be p rm s W H E) as [A B]. destruct (proj1 (unlink_spec be p rm s W E)) as [C D].
  split; [|split; [destruct D as [-> | D]; [exact W|exact (erasing_wf p s _ W D)]|exact B]].
  rewrite Forall_forall in *. intros s' Hs'. split; [destruct (C s' Hs') as [-> | C']; [exact W|exact (erasing_wf p s _ W C')]|exact (A s' Hs')].
Qed.
Theorem remove_inv be p s : inv s -> keeps inv (remove be p s).
Proof.
  intros I. unfold remove. destruct (is_nil p) eqn:Hp; [apply keeps_fail, I|]. apply nil_neq in Hp.
  assert (U := unlink_inv be p (t_remove p) s I (t_remove_empties p Hp)).
  destruct (lookup be s p) as [i n| | |]; try (apply keeps_fail, I). destruct (is_dir n); [|exact U].
  destruct (read_dir be s p) as [[|]|e]; [exact U| |]; apply keeps_fail, I.
Qed.
Theorem remove_all_inv be p s : inv s -> keeps inv (remove_all be p s).
Proof.
  intros I. unfold remove_all. destruct (is_nil p) eqn:Hp; [apply keeps_fail, I|]. apply nil_neq in Hp.
  destruct (lookup be s p) as [i n| | |]; try (apply keeps_fail, I); [|apply keeps_ret, I].
  exact (unlink_inv be p (t_remove_all be p) s I (t_remove_all_empties be p Hp)).
Qed.

(* --- moving a subtree of the top --- *)
Lemma rebase_app o n z : rebase o n (z ++ o) = z ++ n.
Proof.
  unfold rebase. rewrite app_length. replace (length z + length o - length o) with (length z) by lia.
  rewrite firstn_app, Nat.sub_diag, firstn_all. cbn. rewrite app_nil_r. reflexivity.
Qed.
Lemma rebase_under o n q : under o q -> under n (rebase o n q).
Proof. intros [z ->]. rewrite rebase_app. exists z. reflexivity. Qed.
Lemma rebase_back o n q : under o q -> rebase n o (rebase o n q) = q.
Proof. intros [z ->]. rewrite !rebase_app. reflexivity. Qed.
Lemma rebase_self o n : rebase o n o = n.
Proof. apply (rebase_app o n []). Qed.
Lemma rebase_strict o n q : strictly_under o q -> strictly_under n (rebase o n q).
Proof. intros [c [z ->]]. change (c :: z ++ o) with ((c :: z) ++ o). rewrite (rebase_app o n (c :: z)). exists c, z. reflexivity. Qed.
Definition apart (o n : path) : Prop := ~ under o n /\ ~ under n o.
Lemma apart_both o n q : apart o n -> under o q -> under n q -> False.
Proof. intros [H1 H2] Ho Hn. destruct (under_cmp o n q Ho Hn); contradiction. Qed.
Lemma tget_trebase o n t q : apart o n -> tget (trebase o n t) q = if within n q then tget t (rebase n o q) else if within o q then None else tget t q.
Proof.
  intros Ap. unfold trebase, tdrop. induction t as [|[a y] t IH].
  - cbn. destruct (within n q), (within o q); reflexivity.
  - cbn [filter fst]. destruct (within n a) eqn:Ena; cbn [negb].
    + rewrite IH. apply within_under in Ena. destruct (within n q) eqn:Enq.
      * cbn [tget]. apply within_under in Enq. destruct (path_eqb (rebase n o q) a) eqn:E; [|reflexivity].
        apply path_eqb_eq in E. exfalso. apply (apart_both o n a Ap); [rewrite <- E; apply rebase_under, Enq|exact Ena].
      * destruct (within o q); [reflexivity|]. cbn [tget]. destruct (path_eqb q a) eqn:E; [|reflexivity].
        apply path_eqb_eq in E. subst a. apply within_false in Enq. contradiction.
    + cbn [map fst snd tget]. rewrite IH. clear IH. apply within_false in Ena. destruct (within o a) eqn:Eoa.
      * apply within_under in Eoa. destruct (path_eqb q (rebase o n a)) eqn:E.
        -- apply path_eqb_eq in E. subst q. assert (Hu := rebase_under o n a Eoa). assert (Hw := proj2 (within_under _ _) Hu). rewrite Hw.
           cbn [tget]. rewrite (rebase_back o n a Eoa), path_eqb_refl. reflexivity.
        -- destruct (within n q) eqn:Enq.
           ++ cbn [tget]. apply within_under in Enq. destruct (path_eqb (rebase n o q) a) eqn:E2; [|reflexivity].
              apply path_eqb_eq in E2. subst a. rewrite (rebase_back n o q Enq), path_eqb_refl in E. discriminate.
           ++ destruct (within o q) eqn:Eoq; [reflexivity|]. cbn [tget]. destruct (path_eqb q a) eqn:E2; [|reflexivity].
              apply path_eqb_eq in E2. subst a. apply within_false in Eoq. contradiction.
      * apply within_false in Eoa. destruct (path_eqb q a) eqn:E.
        -- apply path_eqb_eq in E. subst a. apply within_false in Ena, Eoa. rewrite Ena, Eoa. reflexivity.
        -- destruct (within n q) eqn:Enq; [|reflexivity]. destruct (path_eqb (rebase n o q) a) eqn:E2; [|reflexivity].
           apply path_eqb_eq in E2. subst a. apply within_under in Enq. exfalso. apply Eoa, rebase_under, Enq.
Qed.
Lemma node_trebase o n t q : apart o n -> o <> [] -> n <> [] ->
  node_at (trebase o n t) q = if within n q then node_at t (rebase n o q) else if within o q then None else node_at t q.
Proof.
  intros Ap Ho Hn. destruct q as [|c q].
  - assert (within n [] = false) as E1 by (apply within_false; intros H; apply under_nil_r in H; contradiction).
    assert (within o [] = false) as E2 by (apply within_false; intros H; apply under_nil_r in H; contradiction).
    cbn [node_at]. rewrite (tget_trebase o n t [] Ap), E1, E2. reflexivity.
  - cbn [node_at]. rewrite (tget_trebase o n t (c :: q) Ap). destruct (within n (c :: q)) eqn:E; [|reflexivity].
    apply within_under in E. apply (rebase_under n o) in E. destruct (rebase n o (c :: q)) as [|c' q']; [apply under_nil_r in E; contradiction|reflexivity].
Qed.
Lemma wf_trebase o n t : apart o n -> o <> [] -> n <> [] -> wf_tree t -> holds_dir t (tl n) = true -> wf_tree (trebase o n t).
Proof.
  intros Ap Ho Hn W Hd c q y H. change (node_at (trebase o n t) (c :: q) = Some y) in H. rewrite (node_trebase o n t _ Ap Ho Hn) in H.
  rewrite (node_trebase o n t q Ap Ho Hn). destruct (within n (c :: q)) eqn:E.
  - apply within_under in E. apply under_inv in E as [E|E].
    + subst n. cbn [tl] in Hd. assert (within (c :: q) q = false) as -> by (apply within_false; intros Hu; apply under_len in Hu; cbn in Hu; lia).
      assert (within o q = false) as -> by (apply within_false; intros Hu; apply (proj1 Ap), under_cons, Hu).
      unfold holds_dir in Hd. destruct (node_at t q) as [[m| | |]|]; try discriminate. eauto.
    + assert (Ew := proj2 (within_under _ _) E). rewrite Ew. destruct E as [z ->]. change (c :: z ++ n) with ((c :: z) ++ n) in H. rewrite rebase_app in H |- *.
      exact (wf_parent t c (z ++ o) y W H).
  - apply within_false in E. assert (within n q = false) as -> by (apply within_false; intros Hu; apply E, under_cons, Hu).
    destruct (within o (c :: q)) eqn:E2; [discriminate|]. apply within_false in E2.
    assert (within o q = false) as -> by (apply within_false; intros Hu; apply E2, under_cons, Hu). exact (wf_parent t c q y W H).
Qed.

(* Marks changed only where P allows. *)
Definition remarkedP (P : path -> Prop) (s s' : stack) : Prop :=
  exists l l' r, s = l :: r /\ s' = l' :: r /\ l_tree l' = l_tree l /\ forall a, ~ P a -> whb l' a = whb l a /\ opb l' a = opb l a.
Lemma remarkedP_of (P : path -> Prop) p s s' : (forall a, under p a -> P a) -> remarked p s s' -> remarkedP P s s'.
Proof. intros HP [l [l' [r [H1 [H2 [H3 H4]]]]]]. exists l, l', r. do 3 (split; [assumption|]). intros a Ha. apply H4. intros Hu. apply Ha, HP, Hu. Qed.
Lemma remarkedP_refl P s : s <> [] -> remarkedP P s s.
Proof. destruct s as [|l r]; [congruence|]. intros _. exists l, l, r. auto. Qed.
Lemma remarkedP_trans P s1 s2 s3 : remarkedP P s1 s2 -> remarkedP P s2 s3 -> remarkedP P s1 s3.
Proof.
  intros [l [l' [r [-> [-> [H1 H2]]]]]] [l2 [l3 [r2 [E [-> [H3 H4]]]]]]. inversion E; subst l2 r2.
  exists l, l3, r. split; [reflexivity|]. split; [reflexivity|]. split; [congruence|].
  intros a Ha. destruct (H2 a Ha) as [A B]. destruct (H4 a Ha) as [A' B']. split; congruence.
Qed.
Lemma remarkedP_ne P s s' : remarkedP P s s' -> s' <> [].
Proof. intros [l [l' [r [_ [-> _]]]]]. discriminate. Qed.
Lemma remarkedP_at P s s' i a : remarkedP P s s' -> at_ s' i a = at_ s i a.
Proof. intros [l [l' [r [-> [-> [H1 _]]]]]]. destruct i; [unfold at_; cbn; rewrite H1; reflexivity|reflexivity]. Qed.
Lemma remarkedP_wf P s s' : remarkedP P s s' -> wf s -> wf s'.
Proof. intros [l [l' [r [-> [-> [H1 _]]]]]] W. apply wf_cons in W as [W1 W2]. apply wf_cons. rewrite H1. auto. Qed.
Lemma remarkedP_tl P s s' : remarkedP P s s' -> tl s' = tl s.
Proof. intros [l [l' [r [-> [-> _]]]]]. reflexivity. Qed.
Lemma remarkedP_marks P s s' i a : remarkedP P s s' -> ~ P a -> whi s' i a = whi s i a /\ opi s' i a = opi s i a.
Proof. intros [l [l' [r [-> [-> [_ H]]]]]] Ha. destruct i; [exact (H a Ha)|auto]. Qed.

(* renameSubtree touches only names below the two, and adds opaque marks only by moving them. *)
Lemma rename_subtree_keeps o n s : s <> [] ->
  keeps (fun s' => remarkedP (fun a => under o a \/ under n a) s s' /\
                   forall a, opi s' 0 a = true -> opi s 0 a = true \/ exists q, opi s 0 q = true /\ strictly_under o q /\ a = rebase o n q)
        (rename_subtree o n s) /\ err_opt (rename_subtree o n s) = None.
Proof.
  intros Hs. set (P := fun s' => _ s' /\ _). unfold rename_subtree.
  set (ws := marks_below o (top_wh s)). set (os := marks_below o (top_op s)).
  assert (Hw : forall q, In q ws -> under o q) by (intros q Hq; apply marks_below_in in Hq as [_ Hq]; apply strictly_under_iff in Hq; tauto).
  assert (Ho : forall q, In q os -> opi s 0 q = true /\ strictly_under o q).
  { intros q Hq. apply marks_below_in in Hq as [Hq1 Hq2]. split; [rewrite <- top_op_memp; apply memp_in, Hq1|exact Hq2]. }
  assert (P0 : P s) by (split; [apply remarkedP_refl, Hs|auto]).
  assert (Step : forall s1 s2 p, P s1 -> remarked p s1 s2 -> (under o p \/ under n p) -> (forall a, opi s2 0 a = true -> opi s1 0 a = true) -> P s2).
  { intros s1 s2 p [R O] R2 Hp HO. split; [|intros a Ha; apply O, HO, Ha]. eapply remarkedP_trans; [exact R|]. apply (remarkedP_of _ p); [|exact R2].
    intros a Ha. destruct Hp as [Hp|Hp]; [left|right]; exact (under_trans _ _ _ Hp Ha). }
  assert (F1 : forall s1, P s1 -> keeps P (for_each (fun q => set_whiteout (rebase o n q)) ws s1)).
  { intros s1 P1. apply keeps_for_each; [|exact P1]. intros q s2 Hq P2. apply keeps_step. assert (Hs2 : s2 <> []) by (apply (remarkedP_ne _ _ _ (proj1 P2))).
    apply (Step s2 _ (rebase o n q) P2); [apply remarked_set_wh; [exact Hs2|apply under_refl]|right; apply rebase_under, Hw, Hq|].
    intros a. destruct s2 as [|l r]; [congruence|]. change (opb (m_set_wh (rebase o n q) l) a = true -> opb l a = true). rewrite opb_set_wh. intros Ha. apply andb_true_iff in Ha. tauto. }
  assert (F2 : forall s1, P s1 -> keeps P (for_each (fun q => set_opaque (rebase o n q)) os s1)).
  { intros s1 P1. apply keeps_for_each; [|exact P1]. intros q s2 Hq P2. apply keeps_step. assert (Hs2 : s2 <> []) by (apply (remarkedP_ne _ _ _ (proj1 P2))).
    destruct (Ho q Hq) as [Ho1 Ho2]. destruct P2 as [R O]. split.
    - eapply remarkedP_trans; [exact R|]. apply (remarkedP_of _ (rebase o n q)); [|apply remarked_set_op; [exact Hs2|apply under_refl]].
      intros a Ha. right. apply strictly_under_iff in Ho2 as [Ho2 _]. exact (under_trans _ _ _ (rebase_under o n q Ho2) Ha).
    - intros a. rewrite opi_set_op by exact Hs2. intros Ha. apply orb_true_iff in Ha as [Ha|Ha]; [|exact (O a Ha)].
      apply path_eqb_eq in Ha. right. exists q. auto. }
  assert (F3 : forall s1, P s1 -> keeps P (for_each clear_whiteout ws s1)).
  { intros s1 P1. apply keeps_for_each; [|exact P1]. intros q s2 Hq P2. apply keeps_step. assert (Hs2 : s2 <> []) by (apply (remarkedP_ne _ _ _ (proj1 P2))).
    apply (Step s2 _ q P2); [apply remarked_clear_wh; [exact Hs2|apply under_refl]|left; exact (Hw q Hq)|intros a; rewrite opi_clear_wh; auto]. }
  assert (F4 : forall s1, P s1 -> keeps P (for_each clear_opaque os s1)).
  { intros s1 P1. apply keeps_for_each; [|exact P1]. intros q s2 Hq P2. apply keeps_step. assert (Hs2 : s2 <> []) by (apply (remarkedP_ne _ _ _ (proj1 P2))).
    apply (Step s2 _ q P2); [apply remarked_clear_op; [exact Hs2|apply under_refl]|left|].
    - destruct (Ho q Hq) as [_ H]. apply strictly_under_iff in H. tauto.
    - intros a. rewrite opi_clear_op. intros Ha. apply andb_true_iff in Ha. tauto. }
  set (a1 := for_each (fun q => set_whiteout (rebase o n q)) ws s). assert (K1 := F1 s P0). fold a1 in K1.
  assert (E1 : err_opt a1 = None) by (apply no_err_for_each; reflexivity).
  set (a2 := for_each (fun q => set_opaque (rebase o n q)) os (end_of a1)). assert (K2 := F2 (end_of a1) (proj2 K1)). fold a2 in K2.
  assert (E2 : err_opt a2 = None) by (apply no_err_for_each; reflexivity).
  set (a3 := for_each clear_whiteout ws (end_of a2)). assert (K3 := F3 (end_of a2) (proj2 K2)). fold a3 in K3.
  assert (E3 : err_opt a3 = None) by (apply no_err_for_each; reflexivity).
  split.
  - apply keeps_bind; [exact K1|]. intros _. apply (keeps_bind P a2); [exact K2|]. intros _. apply (keeps_bind P a3); [exact K3|]. intros _. apply F4, K3.
  - assert (E4 : err_opt (for_each clear_opaque os (end_of a3)) = None) by (apply no_err_for_each; reflexivity).
    assert (B : forall a f, err_opt a = None -> err_opt (f (end_of a)) = None -> err_opt (bind a f) = None).
    { intros [[tr s'] e] f. cbn. intros ->. destruct (f s') as [[tr' s''] e']. cbn. auto. }
    apply B; [exact E1|]. apply B; [exact E2|]. apply B; [exact E3|]. exact E4.
Qed.

(* --- what the checks of rename establish --- *)
Lemma no_children_none s n : wf s -> (forall c, view s 0 (c :: n) = None) -> forall q, strictly_under n q -> view s 0 q = None.
Proof.
  intros W H q [c [z ->]]. destruct (@exists_last _ (c :: z) ltac:(discriminate)) as [z' [c' E]].
  change (c :: z ++ n) with ((c :: z) ++ n). rewrite E, <- app_assoc. apply (below_missing s (c' :: n)); [exact W|apply H|]. exists z'. reflexivity.
Qed.
Lemma dir_check_none be ls p is : wf ls -> dir_check be ls p is = None -> forall i, In i is -> (forall k, In k is -> k < length ls) -> at_ ls i p = None.
Proof.
  intros W. induction is as [|k is IH]; [intros _ i []|]. cbn [dir_check]. intros H i Hi Hl.
  assert (Hk : k < length ls) by (apply Hl; left; reflexivity). destruct (nth_error ls k) as [l|] eqn:El; [|apply nth_error_None in El; lia].
  assert (Hk0 : at_ ls k p = None /\ dir_check be ls p is = None).
  { unfold at_. rewrite El. destruct (node_at (l_tree l) p) as [x|] eqn:Ex.
    - unfold lstat in H. rewrite (walk_found _ _ _ (wf_at ls k l W El) Ex) in H. destruct (broken be k p); discriminate.
    - split; [reflexivity|]. destruct (lstat be k (l_tree l) p); congruence. }
  destruct Hi as [<- | Hi]; [apply Hk0|]. apply (IH (proj2 Hk0) i Hi). intros j Hj. apply Hl. right. exact Hj.
Qed.
Lemma rename_source be o s i x : wf s -> view s 0 o = Some (i, x) -> (if is_dir x then rename_dir_check be s o else None) = None ->
  forall q, strictly_under o q -> view s 0 q = match at_ s 0 q with Some y => Some (0, y) | None => None end.
Proof.
  intros W V H q Hq. destruct (at_ s 0 q) as [y|] eqn:E; [exact (view_top s q y W E)|].
  destruct (view s 0 q) as [[[|j] y]|] eqn:Vq; [apply (view_zero s q y W) in Vq; congruence|exfalso|reflexivity].
  destruct (is_dir x) eqn:D; [|rewrite (below_nondir s o q i x W V D Hq) in Vq; discriminate].
  assert (Vs := Vq). apply (view_some' _ _ _ _ _ W (wf_len s W)) in Vs as [_ [At [_ Hh]]]. assert (Hj := at_len s (S j) q y At).
  assert (Hc : S j <= child_cut s o).
  { apply child_cut_spec; [exact (wf_len s W)|]. split; [lia|]. intros k a Hk Ha. destruct (Hh k ltac:(lia)) as [Hh' _].
    assert (Has : strictly_under a q).
    { apply strictly_under_iff in Hq as [Hq1 Hq2]. apply strictly_under_iff. split; [exact (under_trans _ _ _ Ha Hq1)|]. intros ->. apply Hq2, under_antisym; assumption. }
    split; [destruct (whi s k a) eqn:Em|destruct (opi s k a) eqn:Em]; try reflexivity; exfalso; apply Hh'; right; exists a; auto. }
  unfold rename_dir_check in H.
  assert (N : at_ s (S j) o = None).
  { apply (dir_check_none be s o _ W H); [apply in_upto; lia|]. intros k Hk. apply in_upto in Hk. apply (child_cut_spec s o k (wf_len s W)). lia. }
  assert (Dj := at_ancestor s (S j) o q y W At Hq). unfold dir_at in Dj. rewrite N in Dj. discriminate.
Qed.
Lemma rename_target be n s d : wf s -> unlinked s n -> rename_target_check be s n d = None ->
  (forall q, strictly_under n q -> view s 0 q = None) /\ (view s 0 n = None \/ exists j y, view s 0 n = Some (j, y) /\ is_dir y = d).
Proof.
  intros W U H. unfold rename_target_check in H. assert (L := lookup_true be s n W U). destruct (lookup be s n) as [j y| | |]; try discriminate.
  - destruct (is_dir y) eqn:D.
    + destruct d; [|discriminate]. assert (R := read_dir_view be s n W U). destruct (read_dir be s n) as [[|]|e]; try discriminate.
      destruct R as [_ [R _]]. split.
      * apply (no_children_none s n W). intros c. destruct (view s 0 (c :: n)) as [[k z]|] eqn:E; [|reflexivity]. exfalso. apply (R c k). eauto.
      * right. eauto.
    + destruct d; [discriminate|]. split; [intros q Hq; exact (below_nondir s n q j y W L D Hq)|right; eauto].
  - split; [|left; exact L]. intros q Hq. apply (below_missing s n q W L). apply strictly_under_iff in Hq. tauto.
Qed.

(* --- the tail of rename, once the source is in the top --- *)
Definition rename_tail (be : backend) (o n : path) (dir : bool) (s : stack) : eff :=
  match lookup_from be s o 1 with
  | LErr => fail s EOther
  | LNotDir => fail s ENotDir
  | below_ =>
      s <- t_rename o n s ;;
      s <- clear_subtree n s ;;
      s <- rename_subtree o n s ;;
      s <- (if dir then set_opaque n s else ret s) ;;
      match below_ with LFound _ _ => set_whiteout o s | _ => clear_subtree o s end
  end.
Definition moved (o n : path) (s s' : stack) : Prop :=
  exists s3, s3 = set_top_tree (trebase o n (top_tree s)) s /\ wf s3 /\ remarkedP (fun a => under o a \/ under n a) s3 s'.
Lemma keeps_and (P Q : stack -> Prop) a : keeps P a -> keeps Q a -> keeps (fun s => P s /\ Q s) a.
Proof. intros [A B] [C D]. split; [|auto]. rewrite Forall_forall in *. intros s Hs. auto. Qed.
Lemma set_whiteout_facts o s : s <> [] -> remarked o s (on_top (m_set_wh o) s) /\ whi (on_top (m_set_wh o) s) 0 o = true /\
  (forall a, under o a -> opi (on_top (m_set_wh o) s) 0 a = false) /\ (forall a, opi (on_top (m_set_wh o) s) 0 a = true -> opi s 0 a = true).
Proof.
  intros Hs. split; [apply remarked_set_wh; [exact Hs|apply under_refl]|]. destruct s as [|l r]; [congruence|].
  split; [change (whb (m_set_wh o l) o = true); rewrite whb_set_wh, path_eqb_refl; reflexivity|]. split.
  - intros a Ha. change (opb (m_set_wh o l) a = false). rewrite opb_set_wh. apply within_under in Ha. rewrite Ha, andb_false_r. reflexivity.
  - intros a. change (opb (m_set_wh o l) a = true -> opb l a = true). rewrite opb_set_wh. intros H. apply andb_true_iff in H. tauto.
Qed.
Theorem rename_tail_spec be o n dir s x : inv s -> o <> [] -> n <> [] -> apart o n -> at_ s 0 o = Some x -> is_dir x = dir ->
  (forall q, under o q -> view s 0 q = match at_ s 0 q with Some y => Some (0, y) | None => None end) ->
  keeps (fun s' => s' = s \/ moved o n s s') (rename_tail be o n dir s) /\
  (err_opt (rename_tail be o n dir s) <> None -> end_of (rename_tail be o n dir s) = s) /\
  (err_opt (rename_tail be o n dir s) = None -> moved o n s (end_of (rename_tail be o n dir s)) /\ inv (end_of (rename_tail be o n dir s)) /\
     cut_off (end_of (rename_tail be o n dir s)) o /\ (dir = true -> opi (end_of (rename_tail be o n dir s)) 0 n = true)).
Proof.
  intros [W H] Ho Hn Ap Hx Hd Only. assert (Hs : s <> []) by apply W. unfold rename_tail.
  set (P := fun a => under o a \/ under n a).
  assert (G : forall (fin : stack -> eff),
    (forall s6, wf s6 -> tl s6 = tl s -> keeps (remarked o s6) (fin s6) /\ err_opt (fin s6) = None /\ cut_off (end_of (fin s6)) o /\
       (forall a, under o a -> opi (end_of (fin s6)) 0 a = false) /\ (forall a, opi (end_of (fin s6)) 0 a = true -> opi s6 0 a = true)) ->
    let act := (s <- t_rename o n s ;; s <- clear_subtree n s ;; s <- rename_subtree o n s ;; s <- (if dir then set_opaque n s else ret s) ;; fin s) in
    keeps (fun s' => s' = s \/ moved o n s s') act /\ (err_opt act <> None -> end_of act = s) /\
    (err_opt act = None -> moved o n s (end_of act) /\ inv (end_of act) /\ cut_off (end_of act) o /\ (dir = true -> opi (end_of act) 0 n = true))).
  { intros fin Hfin act.
    assert (T : (exists e, t_rename o n s = fail s e) \/ (holds_dir (top_tree s) (tl n) = true /\ t_rename o n s = step (set_top_tree (trebase o n (top_tree s)) s))).
    { unfold t_rename. destruct (node_at (top_tree s) o); [|left; eauto]. destruct (within o n); [left; eauto|].
      destruct (holds_dir (top_tree s) (tl n)); cbn [negb]; [|left; eauto]. destruct (node_at (top_tree s) n) as [y|]; [|right; auto].
      destruct (is_dir n0), (is_dir y); cbn [negb]; try (solve [left; eexists; reflexivity]); [destruct (is_nil _); [right; auto|left; eauto]|right; auto]. }
    destruct T as [[e T]|[Hpar T]].
    { unfold act. rewrite T. split; [apply (keeps_fail _ s); left; reflexivity|]. split; [reflexivity|discriminate]. }
    set (s3 := set_top_tree (trebase o n (top_tree s)) s) in *.
    assert (At3 : forall q, at_ s3 0 q = if within n q then at_ s 0 (rebase n o q) else if within o q then None else at_ s 0 q).
    { intros q. unfold s3. rewrite at_set_top by exact Hs. rewrite (node_trebase o n _ q Ap Ho Hn). rewrite !at_top by exact Hs. reflexivity. }
    assert (W3 : wf s3).
    { unfold s3. destruct s as [|l r]; [congruence|]. assert (W0 := W). apply wf_cons in W0 as [W1 W2]. apply wf_cons. split; [|exact W2].
      exact (wf_trebase o n (l_tree l) Ap Ho Hn W1 Hpar). }
    assert (Hs3 : s3 <> []) by apply W3.
    assert (M3 : forall a, whi s3 0 a = whi s 0 a /\ opi s3 0 a = opi s 0 a) by (intros a; unfold s3; destruct s; auto).
    assert (T3 : tl s3 = tl s) by (unfold s3; destruct s; reflexivity).
    assert (Mv : forall s', remarkedP P s3 s' -> s' = s \/ moved o n s s') by (intros s' R; right; exists s3; auto).
    (* the mark steps *)
    assert (K4 := clear_subtree_keeps n s3 Hs3). assert (U4 := clear_subtree_unmarked n s3 Hs3). assert (E4 := clear_subtree_ok n s3). set (a4 := clear_subtree n s3) in *.
    set (s4 := end_of a4) in *. assert (R4 : remarkedP P s3 s4) by (apply (remarkedP_of P n); [intros a Ha; right; exact Ha|apply K4]).
    assert (Hs4 : s4 <> []) by exact (remarkedP_ne _ _ _ R4).
    destruct (rename_subtree_keeps o n s4 Hs4) as [K5 E5]. set (a5 := rename_subtree o n s4) in *. set (s5 := end_of a5) in *.
    assert (R5 : remarkedP P s3 s5) by (eapply remarkedP_trans; [exact R4|apply K5]). assert (Hs5 : s5 <> []) by exact (remarkedP_ne _ _ _ R5).
    set (a6 := if dir then set_opaque n s5 else ret s5). set (s6 := end_of a6).
    assert (E6 : err_opt a6 = None) by (unfold a6; destruct dir; reflexivity).
    assert (R6 : remarkedP P s3 s6).
    { unfold s6, a6. destruct dir; [|exact R5]. eapply remarkedP_trans; [exact R5|]. cbn. apply (remarkedP_of P n); [intros a Ha; right; exact Ha|].
      apply remarked_set_op; [exact Hs5|apply under_refl]. }
    assert (K6 : keeps (remarkedP P s3) a6) by (unfold s6, a6 in *; destruct dir; [apply keeps_step; exact R6|apply keeps_ret; exact R5]).
    assert (W6 : wf s6) by exact (remarkedP_wf _ _ _ R6 W3). assert (T6 : tl s6 = tl s) by (rewrite (remarkedP_tl _ _ _ R6); exact T3).
    destruct (Hfin s6 W6 T6) as [K7 [E7 [C7 [N7 O7]]]].
    assert (K7' : keeps (remarkedP P s3) (fin s6)).
    { eapply keeps_weaken; [|exact K7]. intros s' R. eapply remarkedP_trans; [exact R6|]. apply (remarkedP_of P o); [intros a Ha; left; exact Ha|exact R]. }
    assert (Keep : forall a, keeps (remarkedP P s3) a -> keeps (fun s' => s' = s \/ moved o n s s') a) by (intros a; apply keeps_weaken, Mv).
    assert (Keq : keeps (remarkedP P s3) (s <- clear_subtree n s3 ;; s <- rename_subtree o n s ;; s <- (if dir then set_opaque n s else ret s) ;; fin s)).
    { apply keeps_bind; [eapply keeps_weaken; [|exact K4]; intros s' R; apply (remarkedP_of P n); [intros a Ha; right; exact Ha|exact R]|]. intros _.
      apply (keeps_bind _ a5); [eapply keeps_weaken; [|exact K5]; intros s' [R _]; eapply remarkedP_trans; [exact R4|exact R]|]. intros _.
      apply (keeps_bind _ a6); [exact K6|]. intros _. exact K7'. }
    assert (End : end_of act = end_of (fin s6)).
    { unfold act. rewrite T. rewrite bind_end by reflexivity. cbn [step end_of fst snd].
      rewrite (bind_end (clear_subtree n s3)) by exact E4. fold a4. fold s4. rewrite (bind_end (rename_subtree o n s4)) by exact E5. fold a5. fold s5.
      rewrite (bind_end (if dir then set_opaque n s5 else ret s5)) by exact E6. reflexivity. }
    assert (B : forall a f, err_opt a = None -> err_opt (bind a f) = err_opt (f (end_of a))).
    { intros [[tr s'] e] f. cbn. intros ->. destruct (f s') as [[tr' s''] e']. reflexivity. }
    assert (Err : err_opt act = None).
    { unfold act. rewrite T. rewrite B by reflexivity. cbn [step end_of fst snd].
      rewrite (B (clear_subtree n s3)) by exact E4. fold a4. fold s4. rewrite (B (rename_subtree o n s4)) by exact E5. fold a5. fold s5.
      rewrite (B (if dir then set_opaque n s5 else ret s5)) by exact E6. exact E7. }
    split; [|split; [congruence|]].
    - unfold act. rewrite T. apply keeps_bind; [apply keeps_step, Mv, remarkedP_refl, Hs3|]. intros _. apply Keep. exact Keq.
    - intros _. rewrite End. set (s7 := end_of (fin s6)) in *. assert (R7 : remarkedP P s3 s7) by apply K7'.
      assert (Rn : ~ under o n) by apply Ap.
      split; [exists s3; auto|]. split; [|split; [exact C7|]].
      + split; [exact (remarkedP_wf _ _ _ R7 W3)|]. intros a Ha.
        assert (Hno : ~ under o a) by (intros Hu; rewrite (N7 a Hu) in Ha; discriminate). apply O7 in Ha.
        unfold dir_at. rewrite (remarkedP_at _ _ _ _ _ R7), At3. destruct (within n a) eqn:Ew.
        * apply within_under in Ew.
          assert (C : a = n /\ dir = true \/ opi s5 0 a = true).
          { unfold s6, a6 in Ha. destruct dir; cbn in Ha; [|right; exact Ha]. rewrite opi_set_op in Ha by exact Hs5.
            apply orb_true_iff in Ha as [Ha|Ha]; [left; apply path_eqb_eq in Ha; auto|right; exact Ha]. }
          destruct C as [[-> C]|C].
          -- rewrite rebase_self, Hx, Hd. exact C.
          -- destruct (proj2 (proj2 K5) a C) as [C'|[q [Hq1 [Hq2 ->]]]].
             ++ exfalso. unfold s4, a4 in C'. rewrite (proj2 (clear_subtree_end n s3 a Ew)) in C'. discriminate.
             ++ assert (Hq3 : under o q) by (apply strictly_under_iff in Hq2; tauto). rewrite (rebase_back o n q Hq3).
                assert (Oq : opi s3 0 q = true).
                { destruct (proj2 U4) as [l [l' [r [E1 [E2 [_ [_ HO]]]]]]]. change (end_of a4) with s4 in E2. rewrite E1. rewrite E2 in Hq1. exact (HO q Hq1). }
                rewrite (proj2 (M3 q)) in Oq. exact (H q Oq).
        * apply within_false in Ew. assert (within o a = false) as -> by (apply within_false, Hno).
          assert (Oa : opi s3 0 a = true).
          { rewrite <- (proj2 (remarkedP_marks _ _ _ 0 a R6 ltac:(intros [Hu|Hu]; contradiction))). exact Ha. }
          rewrite (proj2 (M3 a)) in Oa. exact (H a Oa).
      + intros Hdir. assert (R67 : remarked o s6 s7) by apply K7. destruct R67 as [l [l' [r [E1 [E2 [_ HM]]]]]].
        assert (O6 : opi s6 0 n = true).
        { unfold s6, a6. rewrite Hdir. cbn. rewrite opi_set_op by exact Hs5. rewrite path_eqb_refl. reflexivity. }
        rewrite E1 in O6. rewrite E2. change (opb l' n = true). rewrite (proj2 (HM n Rn)). exact O6. }
  assert (L := lookup_from_good be s o 1 W). destruct (lookup_from be s o 1) as [j y| | |] eqn:EL.
  - apply (G (set_whiteout o)). intros s6 W6 _. assert (Hs6 : s6 <> []) by apply W6. destruct (set_whiteout_facts o s6 Hs6) as [A1 [A2 [A3 A4]]].
    split; [apply keeps_step, A1|]. split; [reflexivity|]. split; [left; exact A2|]. split; [exact A3|exact A4].
  - assert (V := unlink_cut be o s W EL). apply (G (clear_subtree o)). intros s6 W6 T6. assert (Hs6 : s6 <> []) by apply W6.
    assert (K := clear_subtree_keeps o s6 Hs6). assert (U := clear_subtree_unmarked o s6 Hs6). split; [exact K|]. split; [apply clear_subtree_ok|].
    split; [right; rewrite (remarked_tl _ _ _ (proj2 K)), T6; exact V|]. split; [intros a Ha; exact (proj2 (clear_subtree_end o s6 a Ha))|].
    intros a Ha. destruct (proj2 U) as [l [l' [r [E1 [E2 [_ [_ HO]]]]]]]. rewrite E1. rewrite E2 in Ha. exact (HO a Ha).
  - split; [apply (keeps_fail _ s); left; reflexivity|]. split; [reflexivity|discriminate].
  - split; [apply (keeps_fail _ s); left; reflexivity|]. split; [reflexivity|discriminate].
Qed.

(* --- rename --- *)
Lemma rename_eq be o n s i x : o <> [] -> n <> [] -> lookup be s o = LFound i x -> o <> n -> within o n = false ->
  (if is_dir x then rename_dir_check be s o else None) = None -> rename_target_check be s n (is_dir x) = None ->
  rename be o n s = (s1 <- copy_up be o s ;; s2 <- ensure_parent be n s1 ;; rename_tail be o n (is_dir x) s2).
Proof.
  intros Ho Hn L Hne Hw C1 C2. unfold rename. destruct o as [|c o]; [congruence|]. destruct n as [|c' n]; [congruence|].
  cbn [is_nil orb]. rewrite L. apply path_eqb_neq in Hne. rewrite Hne, Hw, C1, C2. reflexivity.
Qed.
(* The states a rename passes through. *)
Definition renaming (o n : path) (s s' : stack) : Prop :=
  exists s2, grown (link_way o n) s s2 /\ held s2 /\ (s' = s2 \/ (o <> [] /\ n <> [] /\ apart o n /\ (forall q j y, under o q -> view s2 0 q <> Some (S j, y)) /\ moved o n s2 s')).
(* The tree after it. *)
Definition renamed (o n : path) (s s' : stack) : Prop :=
  forall q, view s' 0 q = if within n q then view s 0 (rebase n o q) else if within o q then None else view s 0 q.
Lemma moved_outside o n s s' q : o <> [] -> n <> [] -> apart o n -> s <> [] -> moved o n s s' -> ~ under o q -> ~ under n q -> view s' 0 q = view s 0 q.
Proof.
  intros Ho Hn Ap Hs [s3 [-> [_ R]]] H1 H2. symmetry. destruct R as [l [l' [r [E1 [E2 [E3 HM]]]]]]. destruct s as [|l0 r0]; [congruence|].
  inversion E1; subst l r. subst s'. apply view_ext; [reflexivity|]. intros [|i] a Ha; [|auto].
  assert (A1 : ~ under o a) by (intros Hu; apply H1; exact (under_trans _ _ _ Hu Ha)). assert (A2 : ~ under n a) by (intros Hu; apply H2; exact (under_trans _ _ _ Hu Ha)).
  destruct (HM a ltac:(intros [?|?]; contradiction)) as [M1 M2]. unfold at_, whi, opi. cbn [nth_error].
  split; [|split; [symmetry; exact M1|symmetry; exact M2]]. rewrite E3. cbn [with_tree l_tree top_tree]. rewrite (node_trebase o n _ a Ap Ho Hn).
  apply within_false in A1, A2. rewrite A1, A2. reflexivity.
Qed.
Lemma moved_at o n s s' q : o <> [] -> n <> [] -> apart o n -> s <> [] -> moved o n s s' ->
  at_ s' 0 q = if within n q then at_ s 0 (rebase n o q) else if within o q then None else at_ s 0 q.
Proof.
  intros Ho Hn Ap Hs [s3 [-> [_ R]]]. rewrite (remarkedP_at _ _ _ _ _ R), at_set_top by exact Hs. rewrite (node_trebase o n _ q Ap Ho Hn), !at_top by exact Hs. reflexivity.
Qed.
Lemma moved_tl o n s s' : moved o n s s' -> tl s' = tl s.
Proof. intros [s3 [-> [_ R]]]. rewrite (remarkedP_tl _ _ _ R). destruct s; reflexivity. Qed.
Lemma moved_wf o n s s' : moved o n s s' -> wf s'.
Proof. intros [s3 [_ [W R]]]. exact (remarkedP_wf _ _ _ R W). Qed.
Theorem rename_spec be o n s : inv s -> plain_at s o -> unlinked s n -> plain_at s (tl n) ->
  keeps (renaming o n s) (rename be o n s) /\ inv (end_of (rename be o n s)) /\
  (err_opt (rename be o n s) <> None -> grown (link_way o n) s (end_of (rename be o n s))) /\
  (err_opt (rename be o n s) = None ->
     (o = n /\ end_of (rename be o n s) = s) \/
     (apart o n /\ exists s2, grown (link_way o n) s s2 /\ (forall q j y, under o q -> view s2 0 q <> Some (S j, y)) /\
      tl (end_of (rename be o n s)) = tl s /\ renamed o n s2 (end_of (rename be o n s)))).
Proof.
  intros [W H] Uo Un Ut. assert (I : inv s) by (split; assumption).
  assert (G0 : renaming o n s s) by (exists s; split; [apply grown_refl, W|auto]).
  assert (F : forall e, keeps (renaming o n s) (fail s e) /\ inv (end_of (fail s e)) /\ (err_opt (fail s e) <> None -> grown (link_way o n) s (end_of (fail s e))) /\ (err_opt (fail s e) = None ->
     (o = n /\ end_of (fail s e) = s) \/ (apart o n /\ exists s2, grown (link_way o n) s s2 /\ (forall q j y, under o q -> view s2 0 q <> Some (S j, y)) /\ tl (end_of (fail s e)) = tl s /\ renamed o n s2 (end_of (fail s e))))).
  { intros e. split; [apply keeps_fail, G0|]. split; [exact I|]. split; [intros _; apply grown_refl, W|discriminate]. }
  destruct (list_eq_dec (list_eq_dec N.eq_dec) o []) as [Eo|Ho]; [subst o; unfold rename; cbn [is_nil orb]; apply F|].
  destruct (list_eq_dec (list_eq_dec N.eq_dec) n []) as [En|Hn]; [subst n; unfold rename; destruct o; cbn [is_nil orb]; apply F|].
  assert (Lo := lookup_plain be s o W Uo). destruct (lookup be s o) as [i x| | |] eqn:EL.
  2-4: unfold rename; rewrite EL; destruct o, n; cbn [is_nil orb]; apply F.
  destruct (path_dec o n) as [-> | Hne].
  { unfold rename. rewrite EL, path_eqb_refl. destruct n; [exfalso; apply Hn; reflexivity|]. cbn [is_nil orb]. split; [apply keeps_ret, G0|]. split; [exact I|]. split; [intros C; exfalso; apply C; reflexivity|]. intros _. left. auto. }
  destruct (within o n) eqn:Hw.
  { unfold rename. rewrite EL, Hw. apply path_eqb_neq in Hne. rewrite Hne. destruct o, n; cbn [is_nil orb]; apply F. }
  destruct (if is_dir x then rename_dir_check be s o else None) as [e|] eqn:C1.
  { unfold rename. rewrite EL, Hw, C1. apply path_eqb_neq in Hne. rewrite Hne. destruct o, n; cbn [is_nil orb]; apply F. }
  destruct (rename_target_check be s n (is_dir x)) as [e|] eqn:C2.
  { unfold rename. rewrite EL, Hw, C1, C2. apply path_eqb_neq in Hne. rewrite Hne. destruct o, n; cbn [is_nil orb]; apply F. }
  rewrite (rename_eq be o n s i x Ho Hn EL Hne Hw C1 C2). clear F. apply within_false in Hw.
  destruct (rename_target be n s (is_dir x) W Un C2) as [Nn _]. assert (So := rename_source be o s i x W Lo C1).
  assert (Ap : apart o n).
  { split; [exact Hw|]. intros Hu. assert (Hs : strictly_under n o) by (apply strictly_under_iff; auto). rewrite (Nn o Hs) in Lo. discriminate. }
  (* copy-up *)
  destruct (copy_up_grows be o s W H Uo) as [K1 E1]. set (a1 := copy_up be o s) in *.
  assert (K1' : keeps (grown (link_way o n) s) a1) by (eapply keeps_weaken; [|exact K1]; intros s'; apply grown_mono; intros a z Hz; left; exact Hz).
  assert (G1' : grown (copy_way o) s (end_of a1)) by apply K1. assert (G1 : grown (link_way o n) s (end_of a1)) by apply K1'. set (s1 := end_of a1) in *.
  assert (W1 := grown_wf _ _ _ G1). assert (H1 := grown_held _ _ _ G1 H).
  destruct n as [|c nq]; [exfalso; apply Hn; reflexivity|]. cbn [tl] in Ut.
  assert (Ut1 : plain_at s1 nq).
  { apply (grown_plain _ s s1 nq G1'); [|exact Ut]. intros a z [_ [-> | Hz]] Hs; [|exact Hz]. exfalso. apply Hw, under_cons. apply strictly_under_iff in Hs. tauto. }
  destruct (ensure_parent_grows be c nq s1 W1 H1 Ut1) as [K2 E2]. set (a2 := ensure_parent be (c :: nq) s1) in *.
  assert (K2' : keeps (grown (link_way o (c :: nq)) s) a2).
  { eapply keeps_weaken; [|exact K2]. intros s' G'. eapply grown_trans; [exact W|exact G1|]. eapply grown_mono; [|exact G']. intros a z Hz. right. exact Hz. }
  assert (G2 : grown (link_way o (c :: nq)) s (end_of a2)) by apply K2'. assert (G2' : grown (fun a x => under a nq /\ is_dir x = true) s1 (end_of a2)) by apply K2.
  set (s2 := end_of a2) in *. assert (H2 := grown_held _ _ _ G2 H). assert (W2 := grown_wf _ _ _ G2).
  assert (KM : forall a, keeps (grown (link_way o (c :: nq)) s) a -> keeps (renaming o (c :: nq) s) a).
  { intros a. apply keeps_weaken. intros s' G'. exists s'. split; [exact G'|]. split; [exact (grown_held _ _ _ G' H)|left; reflexivity]. }
  (* the source in the top *)
  assert (Tl : err_opt a1 = None -> exists x2, at_ s2 0 o = Some x2 /\ is_dir x2 = is_dir x /\
    forall q, under o q -> view s2 0 q = match at_ s2 0 q with Some y => Some (0, y) | None => None end).
  { intros Hok. assert (N1 : at_ s1 0 o <> None) by (apply E1; [exact Hok|congruence]). destruct (at_ s1 0 o) as [x1|] eqn:Ex1; [|congruence].
    assert (Ex2 : at_ s2 0 o = Some x1) by (destruct G2' as [_ [_ [_ [_ [_ [G' _]]]]]]; exact (G' o x1 Ex1)).
    assert (Dk : is_dir x1 = is_dir x).
    { assert (V2 := view_top s2 o x1 W2 Ex2). destruct (grown_view _ s s2 o W G2) as [Eq|[j [n' [x' [A1 [A2 [A3 _]]]]]]].
      - rewrite Eq, Lo in V2. inversion V2. reflexivity.
      - rewrite Lo in A1. inversion A1; subst. rewrite V2 in A2. inversion A2; subst. exact (stands_dir _ _ A3). }
    exists x1. split; [exact Ex2|]. split; [exact Dk|]. intros q Hq. destruct (path_dec o q) as [<- | Hnq]; [rewrite Ex2; exact (view_top s2 o x1 W2 Ex2)|].
    assert (Hs : strictly_under o q) by (apply strictly_under_iff; auto).
    assert (Same : at_ s2 0 q = at_ s 0 q).
    { destruct (at_ s 0 q) as [y|] eqn:Ey; [destruct G2 as [_ [_ [_ [_ [_ [G' _]]]]]]; exact (G' q y Ey)|].
      destruct (at_ s2 0 q) as [y|] eqn:Ey2; [|reflexivity]. exfalso. destruct G2 as [_ [_ [_ [_ [_ [_ G']]]]]]. destruct (G' q y Ey Ey2) as [[[Hu _]|[Hu _]] _].
      - apply Hnq, under_antisym; assumption.
      - cbn [tl] in Hu. apply Hw, under_cons. exact (under_trans _ _ _ Hq Hu). }
    rewrite (grown_same _ s s2 q W G2 Same), Same. apply So, Hs. }
  set (tail := rename_tail be o (c :: nq) (is_dir x)).
  assert (Tail : err_opt a1 = None -> keeps (renaming o (c :: nq) s) (tail s2) /\ inv (end_of (tail s2)) /\ (err_opt (tail s2) <> None -> end_of (tail s2) = s2) /\
    (err_opt (tail s2) = None -> (forall q j y, under o q -> view s2 0 q <> Some (S j, y)) /\ tl (end_of (tail s2)) = tl s /\ renamed o (c :: nq) s2 (end_of (tail s2)))).
  { intros Hok. destruct (Tl Hok) as [x2 [Ex2 [Dk Only]]]. assert (I2 : inv s2) by (split; assumption).
    destruct (rename_tail_spec be o (c :: nq) (is_dir x) s2 x2 I2 Ho Hn Ap Ex2 Dk Only) as [T1 [T2 T3]]. fold tail in T1, T2, T3.
    split; [|split; [|split; [exact T2|]]].
    - eapply keeps_weaken; [|exact T1]. intros s' [-> | M]; exists s2; (split; [exact G2|]; split; [exact H2|]); [left; reflexivity|right].
      do 3 (split; [assumption|]). split; [|exact M]. intros q j y Hq. rewrite (Only q Hq). destruct (at_ s2 0 q); discriminate.
    - destruct (err_opt (tail s2)) eqn:Ee; [rewrite T2 by discriminate; exact I2|]. apply T3. reflexivity.
    - intros Hok2. destruct (T3 Hok2) as [M [I7 [C7 O7]]]. set (s7 := end_of (tail s2)) in *. assert (Hs2 : s2 <> []) by apply W2.
      split; [intros q j y Hq; rewrite (Only q Hq); destruct (at_ s2 0 q); discriminate|]. split; [rewrite (moved_tl _ _ _ _ M); apply G2|]. assert (At := fun q => moved_at o (c :: nq) s2 s7 q Ho Hn Ap Hs2 M).
      intros q. destruct (within (c :: nq) q) eqn:Ew.
      + assert (Hu := proj1 (within_under _ _) Ew). assert (Hr := rebase_under (c :: nq) o q Hu). rewrite (Only _ Hr). assert (Atq := At q). rewrite Ew in Atq.
        destruct (at_ s2 0 (rebase (c :: nq) o q)) as [y|] eqn:Ey; [exact (view_top s7 q y (proj1 I7) Atq)|].
        destruct (path_dec (c :: nq) q) as [<- | Hnq]; [rewrite rebase_self in Ey; congruence|].
        assert (Hs : strictly_under (c :: nq) q) by (apply strictly_under_iff; auto). destruct (is_dir x) eqn:Dx.
        * rewrite (hidden_strict s7 (c :: nq) q (proj1 I7)); [rewrite Atq; reflexivity|right; apply O7; reflexivity|exact Hs].
        * apply (below_nondir s7 (c :: nq) q 0 x2 (proj1 I7)); [|exact Dk|exact Hs]. apply view_top; [apply I7|]. rewrite At, within_refl, rebase_self. exact Ex2.
      + destruct (within o q) eqn:Ew2.
        * assert (Hu := proj1 (within_under _ _) Ew2). rewrite (hidden_below s7 o q (proj1 I7) C7 Hu), At, Ew, Ew2. reflexivity.
        * apply within_false in Ew, Ew2. exact (moved_outside o (c :: nq) s2 s7 q Ho Hn Ap Hs2 M Ew2 Ew). }
  assert (I1 : inv s1) by (split; assumption). assert (I2 : inv s2) by (split; assumption).
  assert (End1 : err_opt a1 <> None -> end_of (bind a1 (fun s1 => s2 <- ensure_parent be (c :: nq) s1 ;; tail s2)) = s1).
  { apply bind_err. }
  assert (End2 : err_opt a2 <> None -> end_of (bind a2 tail) = s2).
  { apply bind_err. }
  split; [|split; [|split]].
  - apply keeps_bind; [apply KM, K1'|]. intros Hok. apply (keeps_bind _ a2 tail); [apply KM, K2'|]. intros _. apply Tail, Hok.
  - change (inv (end_of (bind a1 (fun s1 => s2 <- ensure_parent be (c :: nq) s1 ;; tail s2)))). destruct (err_opt a1) eqn:Ee1; [rewrite End1 by discriminate; exact I1|]. rewrite bind_end by exact Ee1. fold s1. change (inv (end_of (bind a2 tail))).
    destruct (err_opt a2) eqn:Ee2; [rewrite End2 by discriminate; exact I2|]. rewrite bind_end by exact Ee2. apply Tail. reflexivity.
  - intros Hne'. change (grown (link_way o (c :: nq)) s (end_of (bind a1 (fun s1 => s2 <- ensure_parent be (c :: nq) s1 ;; tail s2)))).
    change (err_opt (bind a1 (fun s1 => s2 <- ensure_parent be (c :: nq) s1 ;; tail s2)) <> None) in Hne'.
    destruct (err_opt a1) eqn:Ee1; [rewrite End1 by discriminate; exact G1|]. rewrite bind_end by exact Ee1. rewrite bind_opt in Hne' by exact Ee1. fold s1 in Hne' |- *.
    change (err_opt (bind a2 tail) <> None) in Hne'. change (grown (link_way o (c :: nq)) s (end_of (bind a2 tail))).
    destruct (err_opt a2) eqn:Ee2; [rewrite End2 by discriminate; exact G2|]. rewrite bind_end by exact Ee2. rewrite bind_opt in Hne' by exact Ee2. fold s2 in Hne' |- *.
    rewrite (proj1 (proj2 (proj2 (Tail eq_refl))) Hne'). exact G2.
  - intros Hok. right. split; [exact Ap|]. apply bind_ok' in Hok as [Ha [Hb Hc]]. fold s1 in Hb, Hc. apply (bind_ok' a2 tail) in Hb as [Hb1 [Hb2 Hb3]].
    exists s2. split; [exact G2|]. assert (Eq := eq_trans Hc Hb3). rewrite Eq. exact (proj2 (proj2 (proj2 (Tail Ha))) Hb2).
Qed.
