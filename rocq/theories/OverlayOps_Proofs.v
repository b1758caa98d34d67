(* What changing the top layer does to the merged tree. *)
From Verif Require Import Common ContentRange_Model ContentRange_Proofs Overlay_Model Overlay_Spec Overlay_Proofs.
Open Scope nat_scope.

(* --- shifting to the lowers --- *)
Lemma merged_shift l r j p : merged (l :: r) 1 (S j) p = merged r 0 j p.
Proof.
  assert (F : forall (f g : nat -> bool) n from, (forall k, f (S k) = g k) -> forallb f (seq (S from) n) = forallb g (seq from n)).
  { intros f g n. induction n as [|n IH]; intros from H; cbn; [reflexivity|]. rewrite H, (IH (S from) H). reflexivity. }
  induction p as [|c q IH].
  - cbn [merged]. replace (S j - 1) with (j - 0) by lia. rewrite (F _ (fun k => negb (whi r k []) && negb (opi r k []) && negb (nondir_at r k []))) by reflexivity.
    reflexivity.
  - cbn [merged]. rewrite IH. replace (S j - 1) with (j - 0) by lia.
    rewrite (F _ (fun k => negb (whi r k (c :: q)) && negb (opi r k (c :: q)) && negb (nondir_at r k (c :: q)))) by reflexivity. reflexivity.
Qed.
Lemma forallb_map {A B} (f : B -> bool) (g : A -> B) l : forallb f (map g l) = forallb (fun x => f (g x)) l.
Proof. induction l as [|x l IH]; cbn; [reflexivity|]. rewrite IH. reflexivity. Qed.
Lemma find_map {A B} (f : B -> bool) (g : A -> B) l : find f (map g l) = option_map g (find (fun x => f (g x)) l).
Proof. induction l as [|x l IH]; cbn; [reflexivity|]. destruct (f (g x)); [reflexivity|exact IH]. Qed.
Lemma find_ext {A} (f g : A -> bool) l : (forall x, f x = g x) -> find f l = find g l.
Proof. intros H. induction l as [|x l IH]; cbn; [reflexivity|]. rewrite H, IH. reflexivity. Qed.
Lemma view_lowers l r p : view (l :: r) 1 p = option_map (fun e => (S (fst e), snd e)) (view r 0 p).
Proof.
  assert (O : forall j, offers (l :: r) 1 p (S j) = offers r 0 p j).
  { intros j. destruct p as [|c q].
    - cbn. destruct j; reflexivity.
    - unfold offers. rewrite merged_shift. f_equal. replace (S j - 1) with (j - 0) by lia. rewrite <- seq_shift, forallb_map. reflexivity. }
  unfold view. cbn [length]. replace (S (length r) - 1) with (length r - 0) by lia. rewrite <- seq_shift, find_map.
  rewrite (find_ext _ (offers r 0 p)) by exact O.
  destruct (find (offers r 0 p) (seq 0 (length r - 0))) as [j|]; [|reflexivity]. cbn.
  change (at_ (l :: r) (S j) p) with (at_ r j p). destruct (at_ r j p); reflexivity.
Qed.
Lemma wf_cons l r : wf (l :: r) <-> wf_tree (l_tree l) /\ (r = [] \/ wf r).
Proof.
  split.
  - intros [_ W]. inversion W; subst. split; [assumption|]. destruct r as [|x r]; [left; reflexivity|right]. split; [discriminate|assumption].
  - intros [W1 W2]. split; [discriminate|]. constructor; [exact W1|]. destruct W2 as [-> | [_ W2]]; [constructor|exact W2].
Qed.
Lemma wf_split s : wf s -> exists l r, s = l :: r.
Proof. intros [H _]. destruct s as [|l r]; [congruence|eauto]. Qed.

(* --- what the top holds is visible --- *)
Lemma view_top s p n : wf s -> at_ s 0 p = Some n -> view s 0 p = Some (0, n).
Proof.
  intros W H. apply view_some'; [exact W|exact (wf_len s W)|]. split; [lia|]. split; [exact H|]. split; intros k Hk; lia.
Qed.
Lemma view_zero s p n : wf s -> view s 0 p = Some (0, n) -> at_ s 0 p = Some n.
Proof. intros W H. apply (view_some' _ _ _ _ _ W (wf_len s W)) in H. tauto. Qed.
Lemma view_at s p j n : wf s -> view s 0 p = Some (j, n) -> at_ s j p = Some n.
Proof. intros W H. apply (view_some' _ _ _ _ _ W (wf_len s W)) in H. tauto. Qed.
Lemma view_above s p j n : wf s -> view s 0 p = Some (S j, n) -> at_ s 0 p = None.
Proof. intros W H. apply (view_some' _ _ _ _ _ W (wf_len s W)) in H as [_ [_ [H _]]]. apply H. lia. Qed.
Lemma view_fun s p e1 e2 : view s 0 p = Some e1 -> view s 0 p = Some e2 -> e1 = e2.
Proof. congruence. Qed.

(* Names shown from a lower show the lower through the top. *)
Lemma view_lower s p j n : wf s -> (view s 0 p = Some (S j, n) <->
  at_ s 0 p = None /\ view (tl s) 0 p = Some (j, n) /\ ~ hides s 0 p /\ forall a, strictly_under a p -> nondir_at s 0 a = false).
Proof.
  intros W. destruct (wf_split s W) as [l [r ->]]. cbn [tl].
  assert (Wr : view r 0 p <> None \/ (exists n', at_ r j p = Some n') -> wf r /\ 0 < length r).
  { intros H. apply wf_cons in W as [_ [-> | Wr]]; [|split; [exact Wr|exact (wf_len r Wr)]].
    exfalso. destruct H as [H|[n' H]]; [apply H; reflexivity|destruct j; discriminate]. }
  rewrite (view_some' _ _ _ _ _ W (wf_len _ W)). split.
  - intros [_ [H2 [H3 H4]]]. change (at_ (l :: r) (S j) p) with (at_ r j p) in H2.
    destruct (Wr (or_intror (ex_intro _ n H2))) as [Wr' Hr]. split; [apply H3; lia|]. split; [|apply H4; lia].
    apply view_some'; [exact Wr'|exact Hr|]. split; [lia|]. split; [exact H2|]. split.
    + intros k Hk. apply (H3 (S k)). lia.
    + intros k Hk. destruct (H4 (S k) ltac:(lia)) as [A B]. split; [exact A|exact B].
  - intros [H1 [H2 [H3 H4]]]. destruct Wr as [Wr' Hr]; [left; congruence|].
    apply (view_some' _ _ _ _ _ Wr' Hr) in H2 as [_ [H5 [H6 H7]]]. split; [lia|]. split; [exact H5|]. split.
    + intros [|k] Hk; [exact H1|]. apply (H6 k). lia.
    + intros [|k] Hk; [split; assumption|]. destruct (H7 k ltac:(lia)) as [A B]. split; [exact A|exact B].
Qed.
Lemma hides_zero l r p : hides (l :: r) 0 p <-> whb l p = true \/ exists a, strictly_under a p /\ (whb l a = true \/ opb l a = true).
Proof. reflexivity. Qed.

(* Below a name the lowers do not reach, only the top shows anything. *)
Definition cut_off (s : stack) (p : path) : Prop := whi s 0 p = true \/ view (tl s) 0 p = None.
Lemma hidden_below s p q : wf s -> cut_off s p -> under p q ->
  view s 0 q = match at_ s 0 q with Some n => Some (0, n) | None => None end.
Proof.
  intros W H Hu. destruct (at_ s 0 q) as [n|] eqn:E; [exact (view_top s q n W E)|].
  destruct (view s 0 q) as [[[|j] n]|] eqn:V; [|exfalso|reflexivity].
  - apply (view_zero s q n W) in V. congruence.
  - apply (view_lower s q j n W) in V as [_ [V [Hh _]]]. destruct H as [H|H].
    + apply Hh. destruct (path_dec p q) as [<- | Hn]; [left; exact H|]. right. exists p. split; [apply strictly_under_iff; auto|left; exact H].
    + destruct (path_dec p q) as [<- | Hn]; [congruence|].
      destruct (wf_split s W) as [l [r ->]]. cbn [tl] in *. apply wf_cons in W as [_ [-> | Wr]]; [discriminate|].
      assert (Hs : strictly_under p q) by (apply strictly_under_iff; auto).
      destruct (visible_ancestor r p q j n Wr Hs V) as [i [m [_ Hv]]]. congruence.
Qed.
Lemma hidden_strict s p q : wf s -> cut_off s p \/ opi s 0 p = true -> strictly_under p q ->
  view s 0 q = match at_ s 0 q with Some n => Some (0, n) | None => None end.
Proof.
  intros W [H|H] Hu.
  - apply (hidden_below s p q W H). apply strictly_under_iff in Hu. tauto.
  - destruct (at_ s 0 q) as [n|] eqn:E; [exact (view_top s q n W E)|].
    destruct (view s 0 q) as [[[|j] n]|] eqn:V; [|exfalso|reflexivity].
    + apply (view_zero s q n W) in V. congruence.
    + apply (view_lower s q j n W) in V as [_ [_ [Hh _]]]. apply Hh. right. exists p. auto.
Qed.
(* Nothing is visible below a non-directory. *)
Lemma below_nondir s p q j n : wf s -> view s 0 p = Some (j, n) -> is_dir n = false -> strictly_under p q -> view s 0 q = None.
Proof.
  intros W V D Hs. destruct (view s 0 q) as [[k x]|] eqn:E; [|reflexivity]. exfalso.
  destruct (visible_ancestor s p q k x W Hs E) as [i [m [_ H]]]. rewrite V in H. inversion H; subst. discriminate.
Qed.
Lemma below_missing s p q : wf s -> view s 0 p = None -> under p q -> view s 0 q = None.
Proof.
  intros W V Hu. destruct (view s 0 q) as [[k x]|] eqn:E; [|reflexivity]. exfalso.
  destruct (path_dec p q) as [<- | Hn]; [congruence|]. assert (Hs : strictly_under p q) by (apply strictly_under_iff; auto).
  destruct (visible_ancestor s p q k x W Hs E) as [i [m [_ H]]]. congruence.
Qed.

(* --- frames --- *)
Definition agree_outside (p : path) (s s' : stack) : Prop :=
  length s = length s' /\ forall i a, ~ under p a -> at_ s i a = at_ s' i a /\ whi s i a = whi s' i a /\ opi s i a = opi s' i a.
Lemma forallb_ext {A} (f g : A -> bool) l : (forall x, f x = g x) -> forallb f l = forallb g l.
Proof. intros H. induction l as [|x l IH]; cbn; [reflexivity|]. rewrite H, IH. reflexivity. Qed.
Lemma merged_ext s s' from j p : (forall i a, under a p -> at_ s i a = at_ s' i a /\ whi s i a = whi s' i a /\ opi s i a = opi s' i a) ->
  merged s from j p = merged s' from j p.
Proof.
  assert (Step : forall a, (forall i, at_ s i a = at_ s' i a /\ whi s i a = whi s' i a /\ opi s i a = opi s' i a) ->
    (from <=? j) && dir_at s j a && forallb (fun k => negb (whi s k a) && negb (opi s k a) && negb (nondir_at s k a)) (seq from (j - from)) =
    (from <=? j) && dir_at s' j a && forallb (fun k => negb (whi s' k a) && negb (opi s' k a) && negb (nondir_at s' k a)) (seq from (j - from))).
  { intros a H. assert (dir_at s j a = dir_at s' j a) as -> by (unfold dir_at; rewrite (proj1 (H j)); reflexivity).
    f_equal. apply forallb_ext. intros k. destruct (H k) as [H1 [-> ->]]. unfold nondir_at. rewrite H1. reflexivity. }
  induction p as [|c q IH]; intros H; cbn [merged].
  - rewrite (Step [] (fun i => H i [] (under_refl []))). reflexivity.
  - rewrite (Step (c :: q) (fun i => H i _ (under_refl _))). rewrite IH; [reflexivity|]. intros i a Ha. apply H, under_cons, Ha.
Qed.
Lemma view_ext s s' from p : length s = length s' ->
  (forall i a, under a p -> at_ s i a = at_ s' i a /\ whi s i a = whi s' i a /\ opi s i a = opi s' i a) -> view s from p = view s' from p.
Proof.
  intros Hl H. unfold view. rewrite Hl. rewrite (find_ext (offers s from p) (offers s' from p)).
  - destruct (find _ _) as [j|]; [|reflexivity]. rewrite (proj1 (H j p (under_refl p))). reflexivity.
  - intros j. destruct p as [|c q]; [cbn; rewrite Hl; reflexivity|]. unfold offers. rewrite (proj1 (H j _ (under_refl _))).
    rewrite (merged_ext s s' from j q) by (intros i a Ha; apply H, under_cons, Ha). f_equal. apply forallb_ext. intros k.
    rewrite (proj1 (proj2 (H k _ (under_refl _)))). reflexivity.
Qed.
Lemma view_outside p s s' q : agree_outside p s s' -> ~ under p q -> view s 0 q = view s' 0 q.
Proof.
  intros [Hl H] Hq. apply view_ext; [exact Hl|]. intros i a Ha. apply H. intros Hp. apply Hq. exact (under_trans _ _ _ Hp Ha).
Qed.
Lemma agree_refl p s : agree_outside p s s.
Proof. split; [reflexivity|]. intros. auto. Qed.
Lemma agree_sym p s s' : agree_outside p s s' -> agree_outside p s' s.
Proof. intros [H1 H2]. split; [auto|]. intros i a Ha. destruct (H2 i a Ha) as [A [B C]]. auto. Qed.
Lemma agree_trans p s1 s2 s3 : agree_outside p s1 s2 -> agree_outside p s2 s3 -> agree_outside p s1 s3.
Proof.
  intros [H1 H2] [H3 H4]. split; [congruence|]. intros i a Ha. destruct (H2 i a Ha) as [A [B C]]. destruct (H4 i a Ha) as [A' [B' C']].
  repeat split; congruence.
Qed.

(* --- effects --- *)
Definition keeps (P : stack -> Prop) (a : eff) : Prop := Forall P (states_of a) /\ P (end_of a).
Lemma keeps_ret (P : stack -> Prop) s : P s -> keeps P (ret s).
Proof. intros H. split; [constructor|exact H]. Qed.
Lemma keeps_fail (P : stack -> Prop) s e : P s -> keeps P (fail s e).
Proof. intros H. split; [constructor|exact H]. Qed.
Lemma keeps_step (P : stack -> Prop) s : P s -> keeps P (step s).
Proof. intros H. split; [repeat constructor; exact H|exact H]. Qed.
Lemma keeps_bind (P : stack -> Prop) a f : keeps P a -> (err_opt a = None -> keeps P (f (end_of a))) -> keeps P (bind a f).
Proof.
  destruct a as [[tr s] [e|]]; intros [H1 H2] Hf; [split; assumption|]. cbn in *. specialize (Hf eq_refl).
  destruct (f s) as [[tr' s'] e']. destruct Hf as [H3 H4]. split; cbn in *; [apply Forall_app; auto|exact H4].
Qed.
Lemma keeps_weaken (P Q : stack -> Prop) a : (forall s, P s -> Q s) -> keeps P a -> keeps Q a.
Proof. intros H [H1 H2]. split; [eapply Forall_impl; [exact H|exact H1]|apply H, H2]. Qed.
Lemma keeps_for_each (P : stack -> Prop) f ps s : (forall p s, In p ps -> P s -> keeps P (f p s)) -> P s -> keeps P (for_each f ps s).
Proof.
  revert s. induction ps as [|p r IH]; intros s Hf Hs; cbn [for_each]; [apply keeps_ret, Hs|].
  apply keeps_bind; [apply Hf; [left; reflexivity|exact Hs]|]. intros _. apply IH; [intros q s' Hq; apply Hf; right; exact Hq|].
  apply (Hf p s (or_introl eq_refl) Hs).
Qed.
Lemma bind_ok a f s' : err_opt (bind a f) = None -> end_of (bind a f) = s' -> err_opt a = None /\ err_opt (f (end_of a)) = None /\ end_of (f (end_of a)) = s'.
Proof.
  destruct a as [[tr s] [e|]]; cbn; [discriminate|]. destruct (f s) as [[tr' s2] e']. cbn. auto.
Qed.
Lemma bind_ok' a f : err_opt (bind a f) = None -> err_opt a = None /\ err_opt (f (end_of a)) = None /\ end_of (bind a f) = end_of (f (end_of a)).
Proof.
  destruct a as [[tr s] [e|]]; cbn; [discriminate|]. destruct (f s) as [[tr' s2] e']. cbn. auto.
Qed.
Lemma keeps_ignore (P : stack -> Prop) a : keeps P a -> keeps P (ignore_missing a).
Proof. destruct a as [[tr s] [[]|]]; auto. Qed.

(* --- changing marks of the top --- *)
Lemma memp_in p l : memp p l = true <-> In p l.
Proof.
  unfold memp. rewrite existsb_exists. split; [intros [x [H1 H2]]; apply path_eqb_eq in H2; congruence|].
  intros H. exists p. split; [exact H|apply path_eqb_refl].
Qed.
Lemma memp_filter p f l : memp p (filter f l) = memp p l && f p.
Proof.
  unfold memp. induction l as [|x l IH]; cbn; [reflexivity|]. destruct (f x) eqn:E; cbn.
  - destruct (path_eqb p x) eqn:Ep; cbn; [apply path_eqb_eq in Ep; subst x; rewrite E; reflexivity|exact IH].
  - destruct (path_eqb p x) eqn:Ep; cbn; [apply path_eqb_eq in Ep; subst x; rewrite IH, E, andb_false_r; reflexivity|exact IH].
Qed.
Lemma whb_set_wh p l q : whb (m_set_wh p l) q = path_eqb q p || (whb l q && negb (within p q)).
Proof. unfold whb. rewrite <- (memp_filter q (fun x => negb (within p x)) (l_wh l)). reflexivity. Qed.
Lemma opb_set_wh p l q : opb (m_set_wh p l) q = opb l q && negb (within p q).
Proof. exact (memp_filter q (fun x => negb (within p x)) (l_op l)). Qed.
Lemma whb_clear_wh p l q : whb (m_clear_wh p l) q = whb l q && negb (path_eqb p q).
Proof. exact (memp_filter q (fun x => negb (path_eqb p x)) (l_wh l)). Qed.
Lemma opb_set_op p l q : opb (m_set_op p l) q = path_eqb q p || (opb l q && negb (path_eqb p q)).
Proof. unfold opb. rewrite <- (memp_filter q (fun x => negb (path_eqb p x)) (l_op l)). reflexivity. Qed.
Lemma opb_clear_op p l q : opb (m_clear_op p l) q = opb l q && negb (path_eqb p q).
Proof. exact (memp_filter q (fun x => negb (path_eqb p x)) (l_op l)). Qed.

(* Same content everywhere and the same marks outside p. *)
Definition remarked (p : path) (s s' : stack) : Prop :=
  exists l l' r, s = l :: r /\ s' = l' :: r /\ l_tree l' = l_tree l /\
  forall a, ~ under p a -> whb l' a = whb l a /\ opb l' a = opb l a.
Lemma remarked_refl p s : s <> [] -> remarked p s s.
Proof. destruct s as [|l r]; [congruence|]. intros _. exists l, l, r. auto. Qed.
Lemma remarked_trans p s1 s2 s3 : remarked p s1 s2 -> remarked p s2 s3 -> remarked p s1 s3.
Proof.
  intros [l [l' [r [-> [-> [H1 H2]]]]]] [l2 [l3 [r2 [E [-> [H3 H4]]]]]]. inversion E; subst l2 r2.
  exists l, l3, r. split; [reflexivity|]. split; [reflexivity|]. split; [congruence|].
  intros a Ha. destruct (H2 a Ha) as [A B]. destruct (H4 a Ha) as [A' B']. split; congruence.
Qed.
Lemma remarked_agree p s s' : remarked p s s' -> agree_outside p s s'.
Proof.
  intros [l [l' [r [-> [-> [H1 H2]]]]]]. split; [reflexivity|]. intros [|i] a Ha; [|auto].
  destruct (H2 a Ha) as [A B]. cbn. unfold at_, whi, opi. cbn. rewrite H1. auto.
Qed.
Lemma remarked_at p s s' i a : remarked p s s' -> at_ s' i a = at_ s i a.
Proof. intros [l [l' [r [-> [-> [H1 _]]]]]]. destruct i; [unfold at_; cbn; rewrite H1; reflexivity|reflexivity]. Qed.
Lemma remarked_wf p s s' : remarked p s s' -> wf s -> wf s'.
Proof. intros [l [l' [r [-> [-> [H1 _]]]]]] W. apply wf_cons in W as [W1 W2]. apply wf_cons. rewrite H1. auto. Qed.
Lemma remarked_tl p s s' : remarked p s s' -> tl s' = tl s.
Proof. intros [l [l' [r [-> [-> _]]]]]. reflexivity. Qed.
Lemma remarked_set_wh p q s : s <> [] -> under p q -> remarked p s (on_top (m_set_wh q) s).
Proof.
  destruct s as [|l r]; [congruence|]. intros _ Hu. exists l, (m_set_wh q l), r. split; [reflexivity|]. split; [reflexivity|]. split; [reflexivity|]. intros a Ha.
  rewrite whb_set_wh, opb_set_wh. assert (within q a = false) as Hw by (apply within_false; intros H; apply Ha; exact (under_trans _ _ _ Hu H)).
  assert (path_eqb a q = false) as He by (apply path_eqb_neq; intros ->; contradiction). rewrite Hw, He. cbn. rewrite !andb_true_r. auto.
Qed.
Lemma remarked_clear_wh p q s : s <> [] -> under p q -> remarked p s (on_top (m_clear_wh q) s).
Proof.
  destruct s as [|l r]; [congruence|]. intros _ Hu. exists l, (m_clear_wh q l), r. split; [reflexivity|]. split; [reflexivity|]. split; [reflexivity|]. intros a Ha.
  rewrite whb_clear_wh. assert (path_eqb q a = false) as He by (apply path_eqb_neq; intros ->; contradiction). rewrite He. cbn. rewrite andb_true_r. auto.
Qed.
Lemma remarked_set_op p q s : s <> [] -> under p q -> remarked p s (on_top (m_set_op q) s).
Proof.
  destruct s as [|l r]; [congruence|]. intros _ Hu. exists l, (m_set_op q l), r. split; [reflexivity|]. split; [reflexivity|]. split; [reflexivity|]. intros a Ha.
  rewrite opb_set_op. assert (path_eqb q a = false) as He by (apply path_eqb_neq; intros ->; contradiction).
  assert (path_eqb a q = false) as He' by (apply path_eqb_neq; intros ->; contradiction). rewrite He, He'. cbn. rewrite andb_true_r. auto.
Qed.
Lemma remarked_clear_op p q s : s <> [] -> under p q -> remarked p s (on_top (m_clear_op q) s).
Proof.
  destruct s as [|l r]; [congruence|]. intros _ Hu. exists l, (m_clear_op q l), r. split; [reflexivity|]. split; [reflexivity|]. split; [reflexivity|]. intros a Ha.
  rewrite opb_clear_op. assert (path_eqb q a = false) as He by (apply path_eqb_neq; intros ->; contradiction). rewrite He. cbn. rewrite andb_true_r. auto.
Qed.
Lemma remarked_ne p s s' : remarked p s s' -> s' <> [].
Proof. intros [l [l' [r [_ [-> _]]]]]. discriminate. Qed.

Lemma marks_below_in p l q : In q (marks_below p l) <-> In q l /\ strictly_under p q.
Proof. unfold marks_below. rewrite isort_in, filter_In, below_strict. reflexivity. Qed.
Lemma under_of_marks p l q : In q (marks_below p l ++ [p]) -> under p q.
Proof.
  rewrite in_app_iff, marks_below_in. cbn. intros [[_ H]|[<- | []]]; [apply strictly_under_iff in H; tauto|apply under_refl].
Qed.

(* clearSubtree only clears marks at and under the name, and never fails. *)
Lemma no_err_for_each f ps s : (forall p s, err_opt (f p s) = None) -> err_opt (for_each f ps s) = None.
Proof.
  intros H. revert s. induction ps as [|p r IH]; intros s; cbn [for_each]; [reflexivity|].
  specialize (H p s). destruct (f p s) as [[tr s1] [e|]]; cbn in *; [discriminate|]. specialize (IH s1). destruct (for_each f r s1) as [[tr2 s2] e2]. exact IH.
Qed.
Lemma clear_subtree_keeps p s : s <> [] -> keeps (remarked p s) (clear_subtree p s).
Proof.
  intros Hs. unfold clear_subtree. apply keeps_bind.
  - apply keeps_for_each; [|apply remarked_refl, Hs]. intros q s' Hq H. apply under_of_marks in Hq.
    destruct (topi whb s' q); [|apply keeps_ret, H]. apply keeps_step. eapply remarked_trans; [exact H|].
    apply remarked_clear_wh; [exact (remarked_ne _ _ _ H)|exact Hq].
  - intros _. apply keeps_for_each.
    + intros q s' Hq H. apply under_of_marks in Hq. destruct (topi opb s' q); [|apply keeps_ret, H]. apply keeps_step. eapply remarked_trans; [exact H|].
      apply remarked_clear_op; [exact (remarked_ne _ _ _ H)|exact Hq].
    + apply (keeps_for_each (remarked p s)); [|apply remarked_refl, Hs]. intros q s' Hq H. apply under_of_marks in Hq.
      destruct (topi whb s' q); [|apply keeps_ret, H]. apply keeps_step. eapply remarked_trans; [exact H|].
      apply remarked_clear_wh; [exact (remarked_ne _ _ _ H)|exact Hq].
Qed.
Lemma clear_subtree_ok p s : err_opt (clear_subtree p s) = None.
Proof.
  unfold clear_subtree.
  assert (A : forall f ps s, (forall p s, err_opt (f p s) = None) -> err_opt (for_each f ps s) = None) by (intros; apply no_err_for_each; assumption).
  assert (E1 := A (fun q s => if topi whb s q then clear_whiteout q s else ret s) (marks_below p (top_wh s) ++ [p]) s).
  destruct (for_each _ _ s) as [[tr s1] e1]. cbn in E1. rewrite E1 by (intros q s'; destruct (topi whb s' q); reflexivity). cbn.
  assert (E2 := A (fun q s => if topi opb s q then clear_opaque q s else ret s) (marks_below p (top_op s1) ++ [p]) s1).
  destruct (for_each _ _ s1) as [[tr2 s2] e2]. cbn in *. apply E2. intros q s'; destruct (topi opb s' q); reflexivity.
Qed.

(* --- taking names out of the top --- *)
Lemma tget_sub_node t t' a n : (forall a n, a <> [] -> tget t' a = Some n -> tget t a = Some n) -> a <> [] -> node_at t' a = Some n -> node_at t a = Some n.
Proof. intros H Ha. destruct a as [|c a]; [congruence|]. cbn [node_at]. apply H. discriminate. Qed.
Lemma node_tdrop t p q : p <> [] -> node_at (tdrop t p) q = if within p q then None else node_at t q.
Proof.
  intros Hp. destruct q as [|c q].
  - assert (within p [] = false) as E by (apply within_false; intros H; apply under_nil_r in H; contradiction). rewrite E.
    cbn [node_at]. rewrite tget_tdrop, E. reflexivity.
  - cbn [node_at]. apply tget_tdrop.
Qed.
Lemma wf_tdrop t p : p <> [] -> wf_tree t -> wf_tree (tdrop t p).
Proof.
  intros Hp W c q n H. rewrite tget_tdrop in H. destruct (within p (c :: q)) eqn:E; [discriminate|].
  destruct (W c q n H) as [m Hm]. exists m. rewrite (node_tdrop t p q Hp).
  assert (within p q = false) as E2; [|rewrite E2; exact Hm]. apply within_false. intros Hu. apply within_false in E. apply E, under_cons, Hu.
Qed.
Definition trimmed (p : path) (s s' : stack) : Prop :=
  exists l t' r, s = l :: r /\ s' = with_tree t' l :: r /\ (wf_tree (l_tree l) -> wf_tree t') /\
  (forall a, ~ under p a -> node_at t' a = node_at (l_tree l) a) /\ (forall a n, node_at t' a = Some n -> node_at (l_tree l) a = Some n).
Lemma trimmed_refl p s : s <> [] -> trimmed p s s.
Proof. destruct s as [|l r]; [congruence|]. intros _. exists l, (l_tree l), r. destruct l. cbn. auto 7. Qed.
Lemma trimmed_trans p s1 s2 s3 : trimmed p s1 s2 -> trimmed p s2 s3 -> trimmed p s1 s3.
Proof.
  intros [l [t [r [-> [-> [W1 [A1 B1]]]]]]] [l2 [t2 [r2 [E [-> [W2 [A2 B2]]]]]]]. inversion E; subst l2 r2. cbn [l_tree with_tree] in *.
  exists l, t2, r. split; [reflexivity|]. split; [reflexivity|]. split; [auto|]. split; [|auto].
  intros a Ha. rewrite A2, A1 by exact Ha. reflexivity.
Qed.
Lemma trimmed_drop p q s : p <> [] -> s <> [] -> under p q -> trimmed p s (set_top_tree (tdrop (top_tree s) q) s).
Proof.
  intros Hp Hs Hu. destruct s as [|l r]; [congruence|].
  assert (Hq : q <> []) by (intros ->; apply under_nil_r in Hu; contradiction).
  exists l, (tdrop (l_tree l) q), r. split; [reflexivity|]. split; [reflexivity|]. split; [apply wf_tdrop, Hq|]. split.
  - intros a Ha. rewrite node_tdrop by exact Hq. assert (within q a = false) as -> ; [|reflexivity].
    apply within_false. intros H. apply Ha. exact (under_trans _ _ _ Hu H).
  - intros a n. rewrite node_tdrop by exact Hq. destruct (within q a); [discriminate|auto].
Qed.
Lemma trimmed_ne p s s' : trimmed p s s' -> s' <> [].
Proof. intros [l [t [r [_ [-> _]]]]]. discriminate. Qed.
Lemma trimmed_wf p s s' : trimmed p s s' -> wf s -> wf s'.
Proof. intros [l [t [r [-> [-> [W _]]]]]] H. apply wf_cons in H as [H1 H2]. apply wf_cons. cbn. auto. Qed.
Lemma trimmed_agree p s s' : trimmed p s s' -> agree_outside p s s'.
Proof.
  intros [l [t [r [-> [-> [_ [A _]]]]]]]. split; [reflexivity|]. intros [|i] a Ha; [|auto]. unfold at_, whi, opi. cbn. rewrite A by exact Ha. auto.
Qed.
Lemma trimmed_tl p s s' : trimmed p s s' -> tl s' = tl s.
Proof. intros [l [t [r [-> [-> _]]]]]. reflexivity. Qed.
Lemma trimmed_at p s s' a n : trimmed p s s' -> at_ s' 0 a = Some n -> at_ s 0 a = Some n.
Proof. intros [l [t [r [-> [-> [_ [_ B]]]]]]]. apply B. Qed.
Lemma trimmed_marks p s s' a : trimmed p s s' -> whi s' 0 a = whi s 0 a /\ opi s' 0 a = opi s 0 a.
Proof. intros [l [t [r [-> [-> _]]]]]. split; reflexivity. Qed.
Lemma trimmed_cut p s s' : trimmed p s s' -> cut_off s p -> cut_off s' p.
Proof. intros H [C|C]; [left; rewrite (proj1 (trimmed_marks p s s' p H)); exact C|right; rewrite (trimmed_tl _ _ _ H); exact C]. Qed.

(* The states between the first step of unlink and its end. *)
Definition erasing (p : path) (s s' : stack) : Prop := exists m, remarked p s m /\ cut_off m p /\ trimmed p m s'.
Lemma erasing_outside p s s' q : erasing p s s' -> ~ under p q -> view s' 0 q = view s 0 q.
Proof.
  intros [m [R [_ T]]] Hq. symmetry. rewrite (view_outside p s m q (remarked_agree _ _ _ R) Hq).
  exact (view_outside p m s' q (trimmed_agree _ _ _ T) Hq).
Qed.
Lemma erasing_wf p s s' : wf s -> erasing p s s' -> wf s'.
Proof. intros W [m [R [_ T]]]. exact (trimmed_wf _ _ _ T (remarked_wf _ _ _ R W)). Qed.
Lemma erasing_inside p s s' q : wf s -> erasing p s s' -> under p q -> view s' 0 q = None \/ exists n, view s' 0 q = Some (0, n) /\ view s 0 q = Some (0, n).
Proof.
  intros W E Hu. assert (W' := erasing_wf p s s' W E). destruct E as [m [R [C T]]].
  rewrite (hidden_below s' p q W' (trimmed_cut _ _ _ T C) Hu). destruct (at_ s' 0 q) as [n|] eqn:A; [right|left; reflexivity].
  exists n. split; [reflexivity|]. apply (trimmed_at _ _ _ _ _ T) in A. rewrite (remarked_at _ _ _ _ _ R) in A. exact (view_top s q n W A).
Qed.
Lemma t_remove_keeps p s : p <> [] -> s <> [] -> keeps (trimmed p s) (t_remove p s).
Proof.
  intros Hp Hs. unfold t_remove. destruct (node_at (top_tree s) p); [|apply keeps_fail, trimmed_refl, Hs].
  destruct (is_nil _); [|apply keeps_fail, trimmed_refl, Hs]. apply keeps_step, trimmed_drop; auto. apply under_refl.
Qed.
Lemma t_remove_all_keeps be p s : p <> [] -> s <> [] -> keeps (trimmed p s) (t_remove_all be p s).
Proof.
  intros Hp Hs. unfold t_remove_all.
  assert (K : keeps (trimmed p s) (for_each (fun q s => if below p q then step (set_top_tree (tdrop (top_tree s) q) s) else ret s) (rmorder be) s)).
  { apply keeps_for_each; [|apply trimmed_refl, Hs]. intros q s' _ T. destruct (below p q) eqn:B; [|apply keeps_ret, T].
    apply keeps_step. eapply trimmed_trans; [exact T|]. apply trimmed_drop; [exact Hp|exact (trimmed_ne _ _ _ T)|].
    apply below_strict, strictly_under_iff in B. tauto. }
  apply keeps_bind; [exact K|]. intros _. apply keeps_step. destruct K as [_ T]. eapply trimmed_trans; [exact T|].
  apply trimmed_drop; [exact Hp|exact (trimmed_ne _ _ _ T)|apply under_refl].
Qed.
Definition empties (p : path) (rm : stack -> eff) : Prop :=
  (forall s, s <> [] -> keeps (trimmed p s) (rm s)) /\
  (forall s, wf s -> err_opt (ignore_missing (rm s)) = None -> forall q, under p q -> at_ (end_of (rm s)) 0 q = None).
Lemma at_top s p : s <> [] -> at_ s 0 p = node_at (top_tree s) p.
Proof. destruct s; [congruence|reflexivity]. Qed.
Lemma at_set_top t s p : s <> [] -> at_ (set_top_tree t s) 0 p = node_at t p.
Proof. destruct s; [congruence|reflexivity]. Qed.
Lemma missing_below s p q : wf s -> at_ s 0 p = None -> under p q -> at_ s 0 q = None.
Proof.
  intros W H Hu. destruct (path_dec p q) as [<- | Hn]; [exact H|]. destruct (at_ s 0 q) as [n|] eqn:E; [|reflexivity].
  assert (Hs : strictly_under p q) by (apply strictly_under_iff; auto).
  assert (D := at_ancestor s 0 p q n W E Hs). unfold dir_at in D. rewrite H in D. discriminate.
Qed.
Lemma t_remove_empties p : p <> [] -> empties p (t_remove p).
Proof.
  intros Hp. split; [intros s Hs; apply t_remove_keeps; assumption|]. intros s W He q Hu. assert (Hs : s <> []) by apply W. unfold t_remove in *.
  destruct (node_at (top_tree s) p) eqn:E.
  - destruct (is_nil _); [|discriminate]. cbn [step end_of fst snd]. rewrite at_set_top, node_tdrop by assumption.
    apply within_under in Hu. rewrite Hu. reflexivity.
  - cbn [fail end_of fst snd]. apply (missing_below s p q W); [|exact Hu]. rewrite at_top by exact Hs. exact E.
Qed.
Lemma t_remove_all_empties be p : p <> [] -> empties p (t_remove_all be p).
Proof.
  intros Hp. split; [intros s Hs; apply t_remove_all_keeps; assumption|]. intros s W He q Hu. assert (Hs : s <> []) by apply W.
  assert (K := t_remove_all_keeps be p s Hp Hs). unfold t_remove_all in *.
  assert (K1 : keeps (trimmed p s) (for_each (fun q s => if below p q then step (set_top_tree (tdrop (top_tree s) q) s) else ret s) (rmorder be) s)).
  { apply keeps_for_each; [|apply trimmed_refl, Hs]. intros q' s' _ T. destruct (below p q') eqn:B; [|apply keeps_ret, T].
    apply keeps_step. eapply trimmed_trans; [exact T|]. apply trimmed_drop; [exact Hp|exact (trimmed_ne _ _ _ T)|].
    apply below_strict, strictly_under_iff in B. tauto. }
  assert (E : err_opt (for_each (fun q s => if below p q then step (set_top_tree (tdrop (top_tree s) q) s) else ret s) (rmorder be) s) = None).
  { apply no_err_for_each. intros q' s'. destruct (below p q'); reflexivity. }
  destruct (for_each _ _ s) as [[tr s1] e1]. cbn in E. subst e1. cbn. destruct K1 as [_ T]. cbn in T.
  rewrite at_set_top, node_tdrop by first [exact (trimmed_ne _ _ _ T)|exact Hp]. apply within_under in Hu. rewrite Hu. reflexivity.
Qed.
Lemma ignore_end a : end_of (ignore_missing a) = end_of a.
Proof. destruct a as [[tr s] [[]|]]; reflexivity. Qed.
Lemma unlink_cut be p s : wf s -> lookup_from be s p 1 = LMissing -> view (tl s) 0 p = None.
Proof.
  intros W H. destruct (wf_split s W) as [l [r ->]]. cbn [tl]. assert (G := lookup_from_good be (l :: r) p 1 W). rewrite H in G. cbn in G.
  rewrite view_lowers in G. destruct (view r 0 p); [discriminate|reflexivity].
Qed.
Lemma set_wh_erasing p s : wf s -> erasing p s (on_top (m_set_wh p) s).
Proof.
  intros W. exists (on_top (m_set_wh p) s). assert (Hs : s <> []) by apply W. split; [apply remarked_set_wh; [exact Hs|apply under_refl]|]. split.
  - left. destruct s as [|l r]; [congruence|]. unfold whi. cbn [on_top nth_error]. rewrite whb_set_wh, path_eqb_refl. reflexivity.
  - apply trimmed_refl. destruct s; [congruence|discriminate].
Qed.
Lemma unlink_spec be p rm s : wf s -> empties p rm ->
  keeps (fun s' => s' = s \/ erasing p s s') (unlink be p rm s) /\
  (err_opt (unlink be p rm s) = None -> erasing p s (end_of (unlink be p rm s)) /\ forall q, under p q -> at_ (end_of (unlink be p rm s)) 0 q = None).
Proof.
  intros W [K1 K2]. assert (Hs : s <> []) by apply W. unfold unlink.
  assert (F : forall e, keeps (fun s' => s' = s \/ erasing p s s') (fail s e) /\ (err_opt (fail s e) = None -> erasing p s (end_of (fail s e)) /\ forall q, under p q -> at_ (end_of (fail s e)) 0 q = None)).
  { intros e. split; [apply keeps_fail; left; reflexivity|discriminate]. }
  assert (Go : forall a, keeps (remarked p s) a -> Forall (fun s' => erasing p s s') (states_of a) -> erasing p s (end_of a) -> cut_off (end_of a) p -> err_opt a = None ->
    keeps (fun s' => s' = s \/ erasing p s s') (bind a (fun s => ignore_missing (rm s))) /\
    (err_opt (bind a (fun s => ignore_missing (rm s))) = None -> erasing p s (end_of (bind a (fun s => ignore_missing (rm s)))) /\
      forall q, under p q -> at_ (end_of (bind a (fun s => ignore_missing (rm s)))) 0 q = None)).
  { intros a [_ R] HF HE HC HN.
    assert (Kr : keeps (erasing p s) (ignore_missing (rm (end_of a)))).
    { apply keeps_ignore. eapply keeps_weaken; [|apply K1; exact (remarked_ne _ _ _ R)]. intros s' T. exists (end_of a). auto. }
    split.
    - apply keeps_bind; [split; [eapply Forall_impl; [|exact HF]; intros; right; assumption|right; exact HE]|]. intros _.
      eapply keeps_weaken; [|exact Kr]. intros; right; assumption.
    - intros He. apply bind_ok' in He as [_ [He Hend]]. rewrite Hend. split; [exact (proj2 Kr)|].
      intros q Hq. rewrite ignore_end. apply K2; [exact (remarked_wf _ _ _ R W)|exact He|exact Hq]. }
  destruct (lookup_from be s p 1) eqn:L; try (apply F).
  - apply Go.
    + apply keeps_step. apply remarked_set_wh; [exact Hs|apply under_refl].
    + repeat constructor. apply set_wh_erasing, W.
    + apply set_wh_erasing, W.
    + left. destruct s as [|l r]; [congruence|]. change (whb (m_set_wh p l) p = true). rewrite whb_set_wh, path_eqb_refl. reflexivity.
    + reflexivity.
  - assert (V := unlink_cut be p s W L). assert (K := clear_subtree_keeps p s Hs).
    assert (Er : forall s', remarked p s s' -> erasing p s s').
    { intros s' R. exists s'. split; [exact R|]. split; [right; rewrite (remarked_tl _ _ _ R); exact V|]. apply trimmed_refl, (remarked_ne _ _ _ R). }
    apply Go; [exact K| | | |apply clear_subtree_ok].
    + eapply Forall_impl; [|apply K]. exact Er.
    + apply Er, K.
    + right. rewrite (remarked_tl _ _ _ (proj2 K)). exact V.
Qed.

(* Remove and RemoveAll. *)
Lemma erasing_going p s s' : wf s -> (s' = s \/ erasing p s s') -> going p s s'.
Proof.
  intros W [-> | E]; [split; auto|]. split; [intros q; apply (erasing_outside p s s' q E)|].
  intros q Hq. destruct (erasing_inside p s s' q W E Hq) as [H|[n [H1 H2]]]; [right; exact H|left; congruence].
Qed.
Lemma erased_gone p s s' : wf s -> erasing p s s' -> (forall q, under p q -> at_ s' 0 q = None) -> gone p s s'.
Proof.
  intros W E H q. destruct (within p q) eqn:Hw.
  - apply within_under in Hw. destruct (erasing_inside p s s' q W E Hw) as [V|[n [V _]]]; [exact V|].
    apply (view_zero s' q n (erasing_wf p s s' W E)) in V. rewrite (H q Hw) in V. discriminate.
  - apply within_false in Hw. exact (erasing_outside p s s' q E Hw).
Qed.
Lemma nil_neq {A} (p : list A) : is_nil p = false -> p <> [].
Proof. destruct p; [discriminate|congruence]. Qed.
Theorem remove_states be p s : wf s -> Forall (going p s) (states s (remove be p s)) /\ going p s (end_of (remove be p s)).
Proof.
  intros W. assert (K : keeps (fun s' => s' = s \/ erasing p s s') (remove be p s)).
  { unfold remove. destruct (is_nil p) eqn:Hp; [apply keeps_fail; auto|]. apply nil_neq in Hp.
    destruct (lookup be s p) as [i n| | |]; try (apply keeps_fail; auto).
    assert (U := proj1 (unlink_spec be p (t_remove p) s W (t_remove_empties p Hp))).
    destruct (is_dir n); [|exact U]. destruct (read_dir be s p) as [[|]|e]; [exact U| |]; apply keeps_fail; auto. }
  destruct K as [K1 K2]. split; [|apply erasing_going; assumption]. constructor; [apply erasing_going; auto|].
  eapply Forall_impl; [|exact K1]. intros s'. apply erasing_going, W.
Qed.
Theorem remove_all_states be p s : wf s -> Forall (going p s) (states s (remove_all be p s)) /\ going p s (end_of (remove_all be p s)).
Proof.
  intros W. assert (K : keeps (fun s' => s' = s \/ erasing p s s') (remove_all be p s)).
  { unfold remove_all. destruct (is_nil p) eqn:Hp; [apply keeps_fail; auto|]. apply nil_neq in Hp.
    destruct (lookup be s p) as [i n| | |]; try (apply keeps_fail; auto); [|apply keeps_ret; auto].
    exact (proj1 (unlink_spec be p (t_remove_all be p) s W (t_remove_all_empties be p Hp))). }
  destruct K as [K1 K2]. split; [|apply erasing_going; assumption]. constructor; [apply erasing_going; auto|].
  eapply Forall_impl; [|exact K1]. intros s'. apply erasing_going, W.
Qed.
Theorem remove_gone be p s : wf s -> err_opt (remove be p s) = None -> gone p s (end_of (remove be p s)).
Proof.
  intros W. unfold remove. destruct (is_nil p) eqn:Hp; [discriminate|]. apply nil_neq in Hp.
  destruct (lookup be s p) as [i n| | |]; try discriminate.
  assert (U := proj2 (unlink_spec be p (t_remove p) s W (t_remove_empties p Hp))).
  destruct (is_dir n).
  - destruct (read_dir be s p) as [[|]|e]; [|discriminate|discriminate]. intros H. destruct (U H) as [E N]. exact (erased_gone p s _ W E N).
  - intros H. destruct (U H) as [E N]. exact (erased_gone p s _ W E N).
Qed.
Theorem remove_all_gone be p s : wf s -> err_opt (remove_all be p s) = None -> gone p s (end_of (remove_all be p s)).
Proof.
  intros W. unfold remove_all. destruct (is_nil p) eqn:Hp; [discriminate|]. apply nil_neq in Hp.
  destruct (lookup be s p) as [i n| | |] eqn:L; try discriminate.
  - intros H. destruct (proj2 (unlink_spec be p (t_remove_all be p) s W (t_remove_all_empties be p Hp)) H) as [E N]. exact (erased_gone p s _ W E N).
  - intros _ q. cbn. destruct (within p q) eqn:Hw; [|reflexivity]. apply within_under in Hw. apply (below_missing s p q W); [|exact Hw].
    assert (G := lookup_from_good be s p 0 W). rewrite <- lookup_is, L in G. exact G.
Qed.
