From Verif Require Import Common CommonLemmas ContentRange_Model ContentRange_Proofs PathLex_Model PathLex_Proofs TempName_Model TempName_Spec TempName_Proofs Cleanup_Model Cleanup_Spec.
Open Scope nat_scope.

(* The walk over paths of names. *)
Definition path_of (q : list (list byte)) : list byte := render false q.

Lemma proper_normal q : Forall proper q -> normal false q.
Proof. intros H. exists 0, q. split; [reflexivity|]. split; [exact H|discriminate]. Qed.

Lemma join_path q c : Forall proper q -> proper c -> join2 (path_of q) c = path_of (q ++ [c]).
Proof. intros Hq Hc. apply join2_child; [apply proper_normal; exact Hq|exact Hc]. Qed.

Lemma tree_ind' (P : tree -> Prop) : P Leaf -> (forall es, Forall (fun e => P (snd e)) es -> P (Node es)) -> forall t, P t.
Proof.
  intros H1 H2. fix IH 1. intros [|es]; [exact H1|]. apply H2. induction es as [|[c x] es IHes]; constructor; [apply IH|exact IHes].
Qed.

Section Walk.
Variable fn : list byte -> bool -> walk_act.
Variable rm : list byte -> tree -> option tree.
Variable lists : list byte -> bool.
Variable own : list (list byte) -> Prop.

(* The loop of walkDir. *)
Definition each (p : list byte) := (fix each (es : list (list byte * tree)) : list (list byte * tree) * wres :=
  match es with
  | [] => ([], WOk)
  | (c, x) :: rest =>
      let '(x', r) := walk_dir fn rm lists (join2 p c) x in
      let keep l := match x' with Some y => (c, y) :: l | None => l end in
      match r with
      | WOk => let '(l, r') := each rest in (keep l, r')
      | WSkip => (keep rest, WOk)
      | WErr => (keep rest, WErr)
      end
  end).
Lemma walk_node p es : walk_dir fn rm lists p (Node es) =
  match fn p true with
  | Remove => match rm p (Node es) with None => (None, WOk) | Some t' => (Some t', WErr) end
  | SkipDir => (Some (Node es), WOk)
  | Continue => if negb (lists p) then (Some (Node es), WErr) else let '(es', r) := each p es in (Some (Node es'), r)
  end.
Proof. reflexivity. Qed.

(* A path the walk comes to: every directory above was entered. *)
Definition reached (q : list (list byte)) : Prop := forall a c b, q = a ++ c :: b -> fn (path_of a) true = Continue.

Hypothesis fn_remove : forall q d, Forall proper q -> reached q -> (fn (path_of q) d = Remove <-> own q).
Hypothesis fn_skip : forall q, Forall proper q -> reached q -> fn (path_of q) true = SkipDir -> forall r, ~ own (q ++ r).
Hypothesis fn_file : forall q, Forall proper q -> reached q -> fn (path_of q) false <> SkipDir.

Lemma reached_child q c : reached q -> fn (path_of q) true = Continue -> reached (q ++ [c]).
Proof.
  intros H Hc a x b E. destruct (list_eq_dec (list_eq_dec N.eq_dec) a q) as [->|Hne]; [exact Hc|].
  destruct b as [|y b _] using rev_ind.
  - change (a ++ [x]) with (a ++ [x]) in E. apply app_inj_tail in E. destruct E as [E _]. symmetry in E. contradiction.
  - replace (a ++ x :: b ++ [y]) with ((a ++ x :: b) ++ [y]) in E by (rewrite <- app_assoc; reflexivity).
    apply app_inj_tail in E. destruct E as [E _]. apply (H a x b E).
Qed.

(* What is left at [ps] below [q], against what was there. *)
Definition fine (q : list (list byte)) (was : list (list byte) -> option bool) (now : list (list byte) -> option bool) (ok : bool) : Prop :=
  (forall ps, (forall a b, ps = a ++ b -> ~ own (q ++ a)) -> now ps = was ps) /\
  (ok = true -> forall a b, own (q ++ a) -> now (a ++ b) = None).

Lemma walk_fine : forall t q, Forall proper q -> reached q -> well t ->
  let res := walk_dir fn rm lists (path_of q) t in
  snd res <> WSkip /\ fine q (there t) (there_opt (fst res)) (match snd res with WErr => false | _ => true end) /\
  ((forall p x, rm p x = None) -> (forall p, lists p = true) -> snd res = WOk).
Proof.
  induction t as [|es IH] using tree_ind'; intros q Hq Hre Hw; cbv zeta.
  - cbn [walk_dir is_node]. destruct (fn (path_of q) false) eqn:E.
    + split; [discriminate|]. split; [|reflexivity]. split; [reflexivity|]. cbn [fst snd there_opt].
      intros _ a b Ho. destruct a as [|c a]; [|reflexivity]. rewrite app_nil_r in Ho. apply (fn_remove q false Hq Hre) in Ho. congruence.
    + destruct (fn_file q Hq Hre E).
    + apply (fn_remove q false Hq Hre) in E. destruct (rm (path_of q) Leaf) as [t'|] eqn:Er; (split; [discriminate|]).
      * split; [|intros Hrm; rewrite Hrm in Er; discriminate]. split; [|discriminate]. intros ps Hps. exfalso. apply (Hps [] ps eq_refl). rewrite app_nil_r. exact E.
      * split; [|reflexivity]. split; [|reflexivity]. intros ps Hps. exfalso. apply (Hps [] ps eq_refl). rewrite app_nil_r. exact E.
  - rewrite walk_node. inversion Hw as [|es' Hnd Hall E']; subst es'. destruct (fn (path_of q) true) eqn:E.
    2:{ split; [discriminate|]. split; [|reflexivity]. split; [reflexivity|]. intros _ a b Ho. destruct (fn_skip q Hq Hre E a Ho). }
    2:{ apply (fn_remove q true Hq Hre) in E. destruct (rm (path_of q) (Node es)) as [t'|] eqn:Er; (split; [discriminate|]).
      * split; [|intros Hrm; rewrite Hrm in Er; discriminate]. split; [|discriminate]. intros ps Hps. exfalso. apply (Hps [] ps eq_refl). rewrite app_nil_r. exact E.
      * split; [|reflexivity]. split; [|reflexivity]. intros ps Hps. exfalso. apply (Hps [] ps eq_refl). rewrite app_nil_r. exact E. }
    assert (~ own q) as Hnq by (intros Ho; apply (fn_remove q true Hq Hre) in Ho; congruence).
    destruct (lists (path_of q)) eqn:El; cbn [negb].
    2:{ split; [discriminate|]. split; [|intros _ Hl; rewrite Hl in El; discriminate]. split; [reflexivity|discriminate]. }
    assert (snd (each (path_of q) es) <> WSkip /\
      (forall c ps, (forall a b, ps = a ++ b -> ~ own (q ++ c :: a)) -> match entry_of (fst (each (path_of q) es)) c with Some x => there x ps | None => None end = match entry_of es c with Some x => there x ps | None => None end) /\
      (snd (each (path_of q) es) = WOk -> forall c a b, own (q ++ c :: a) -> match entry_of (fst (each (path_of q) es)) c with Some x => there x (a ++ b) | None => None end = None) /\
      (forall c, entry_of es c = None -> entry_of (fst (each (path_of q) es)) c = None) /\
      ((forall p x, rm p x = None) -> (forall p, lists p = true) -> snd (each (path_of q) es) = WOk)) as (He1 & He2 & He3 & _ & He4).
    { clear Hw. induction es as [|[k x] es IHes]; [cbn [each]; repeat split; discriminate|].
      inversion IH as [|? ? IHx IHr]; subst. inversion Hall as [|? ? [Hk Hx] Hallr]; subst. cbn [fst snd] in *. cbn [map fst] in Hnd. inversion Hnd as [|? ? Hnk Hndr]; subst.
      specialize (IHes IHr Hndr Hallr).
      destruct (IHx (q ++ [k]) ltac:(apply Forall_app; auto) (reached_child q k Hre E) Hx) as (W1 & (W2 & W3) & W4).
      rewrite <- (join_path q k Hq Hk) in W1, W2, W3, W4.
      cbn [each]. change ((fix each (es0 : list (list byte * tree)) := _) es) with (each (path_of q) es).
      fold (each (path_of q)).
      destruct (walk_dir fn rm lists (join2 (path_of q) k) x) as [x' r] eqn:Ew. cbn [fst snd] in *.
      assert (forall c, entry_of es c <> None -> bytes_eqb k c = false) as Hdiff.
      { intros c Hc. destruct (bytes_eqb k c) eqn:Ek; [|reflexivity]. apply bytes_eqb_eq in Ek. subst c. exfalso. apply Hnk. clear -Hc. induction es as [|[k' y] es IH]; [contradiction|]. cbn [entry_of] in Hc. destruct (bytes_eqb k' k) eqn:E; [apply bytes_eqb_eq in E; left; exact E|right; apply IH; exact Hc]. }
      assert (entry_of es k = None) as Hek.
      { destruct (entry_of es k) eqn:E0; [|reflexivity]. exfalso. assert (entry_of es k <> None) as H0 by congruence. apply Hdiff in H0. assert (bytes_eqb k k = true) by (apply bytes_eqb_eq; reflexivity). congruence. }
      destruct r; [|contradiction|].
      - destruct (each (path_of q) es) as [l r'] eqn:Ee. cbn [fst snd] in *. destruct IHes as (I1 & I2 & I3 & I5 & I4).
        set (kept := match x' with Some y => (k, y) :: l | None => l end).
        assert (forall c, entry_of kept c = if bytes_eqb k c then x' else entry_of l c) as Hkept.
        { intros c. unfold kept. destruct x' as [y|]; cbn [entry_of]; [reflexivity|]. destruct (bytes_eqb k c) eqn:Ek; [|reflexivity]. apply bytes_eqb_eq in Ek. subst c. apply I5. exact Hek. }
        split; [exact I1|]. split; [|split; [|split; [|intros A B; apply (I4 A B)]]].
        + intros c ps Hps. rewrite Hkept. cbn [entry_of]. destruct (bytes_eqb k c) eqn:Ek; [|apply I2; exact Hps].
          apply bytes_eqb_eq in Ek. subst c. specialize (W2 ps). unfold there_opt in W2. destruct x' as [y|]; apply W2; intros a b Eab; rewrite <- app_assoc; apply (Hps a b Eab).
        + intros Hr c a b Ho. rewrite Hkept. destruct (bytes_eqb k c) eqn:Ek; [|apply (I3 Hr c a b Ho)].
          apply bytes_eqb_eq in Ek. subst c. specialize (W3 eq_refl a b). rewrite <- app_assoc in W3. specialize (W3 Ho). unfold there_opt in W3. destruct x'; assumption.
        + intros c Hc. rewrite Hkept. cbn [entry_of] in Hc. destruct (bytes_eqb k c); [discriminate Hc|apply I5; exact Hc].
      - destruct IHes as (I1 & I2 & I3 & I5 & I4). cbn [fst snd].
        set (kept := match x' with Some y => (k, y) :: es | None => es end).
        assert (forall c, entry_of kept c = if bytes_eqb k c then x' else entry_of es c) as Hkept.
        { intros c. unfold kept. destruct x' as [y|]; cbn [entry_of]; [reflexivity|]. destruct (bytes_eqb k c) eqn:Ek; [|reflexivity]. apply bytes_eqb_eq in Ek. subst c. exact Hek. }
        split; [discriminate|]. split; [|split; [discriminate|split]].
        + intros c ps Hps. rewrite Hkept. cbn [entry_of]. destruct (bytes_eqb k c) eqn:Ek; [|reflexivity].
          apply bytes_eqb_eq in Ek. subst c. specialize (W2 ps). unfold there_opt in W2. destruct x' as [y|]; apply W2; intros a b Eab; rewrite <- app_assoc; apply (Hps a b Eab).
        + intros c Hc. rewrite Hkept. cbn [entry_of] in Hc. destruct (bytes_eqb k c); [discriminate Hc|exact Hc].
        + intros A B. discriminate (W4 A B). }
    destruct (each (path_of q) es) as [es' r] eqn:Ee. cbn [fst snd] in *. split; [exact He1|]. split; [|exact He4]. split.
    + intros ps Hps. destruct ps as [|c ps]; [reflexivity|]. cbn [there_opt there]. apply He2. intros a b Eab. apply (Hps (c :: a) b). rewrite Eab. reflexivity.
    + intros Hok a b Ho. destruct r; [|contradiction|discriminate].
      destruct a as [|c a]; [rewrite app_nil_r in Ho; contradiction|]. cbn [app there_opt there]. apply (He3 eq_refl c a b Ho).
Qed.

Lemma clean_up_fine t : well t -> cleaned own t (clean_up fn rm lists t) /\
  ((forall p x, rm p x = None) -> (forall p, lists p = true) -> snd (clean_up fn rm lists t) = true).
Proof.
  intros Hw. assert (reached []) as Hre by (intros a c b E; destruct a; discriminate).
  destruct (walk_fine t [] (Forall_nil _) Hre Hw) as (H1 & (H2 & H3) & H4).
  unfold clean_up. change [dot] with (path_of []). destruct (walk_dir fn rm lists (path_of []) t) as [t' r]. cbn [fst snd app] in *. split.
  - split; [intros ps Hps; apply H2; intros a b E Ho; apply Hps; exists a, b; auto|]. cbn [snd].
    intros Hok ps (a & b & -> & Ho). apply H3; [destruct r; [reflexivity|reflexivity|discriminate]|exact Ho].
  - intros A B. rewrite (H4 A B). reflexivity.
Qed.
End Walk.

(* ---- the two policies ---- *)

Lemma base_path q c : Forall proper q -> proper c -> base (path_of (q ++ [c])) = c.
Proof. intros Hq Hc. apply base_child; [apply proper_normal; exact Hq|exact Hc]. Qed.

Lemma form_long (b : list byte) : random_temp_form b \/ dir_temp_form b -> 14 <= length b.
Proof.
  intros [(pre & ds & Hp & [Hl _] & ->)|(ds & [Hl _] & ->)]; rewrite !app_length; cbn [length]; rewrite ?app_length; cbn [dot_tmp length]; lia.
Qed.

Lemma random_remove q d : Forall proper q -> (random_walk (path_of q) d = Remove <-> random_own q).
Proof.
  intros Hq. unfold random_walk. destruct q as [|c q _] using rev_ind.
  - change (path_of []) with [dot]. destruct (random_match [dot]) eqn:E; [vm_compute in E; discriminate|]. split; [discriminate|]. intros (q & c & E' & _). destruct q; discriminate.
  - apply Forall_app in Hq. destruct Hq as [Hq Hc]. inversion Hc as [|? ? Hc' _]; subst.
    transitivity (random_match (path_of (q ++ [c])) = true); [destruct (random_match _); split; first [discriminate|reflexivity]|].
    rewrite random_match_iff, (base_path q c Hq Hc'). split; [intros Hf; exists q, c; auto|].
    intros (q' & c' & E & Hf). apply app_inj_tail in E. destruct E as [_ ->]. exact Hf.
Qed.

Lemma random_never_skips p d : random_walk p d <> SkipDir.
Proof. unfold random_walk. destruct (random_match p); discriminate. Qed.

Lemma random_cleans rm lists t : well t -> cleaned random_own t (clean_up random_walk rm lists t) /\
  ((forall p x, rm p x = None) -> (forall p, lists p = true) -> snd (clean_up random_walk rm lists t) = true).
Proof.
  apply clean_up_fine.
  - intros q d Hq _. apply random_remove. exact Hq.
  - intros q _ _ H. destruct (random_never_skips _ _ H).
  - intros q _ _ H. destruct (random_never_skips _ _ H).
Qed.

(* Text of paths against their names. *)
Definition flat (q : list (list byte)) : list byte := concat (map (fun c => c ++ [sep]) q).
Lemma join_flat q : q <> [] -> join_sep q ++ [sep] = flat q.
Proof.
  induction q as [|c q IH]; [contradiction|]. intros _. destruct q as [|d q]; [unfold flat; cbn; rewrite app_nil_r; reflexivity|].
  rewrite join_cons by discriminate. unfold flat in *. cbn [map concat]. rewrite <- app_assoc. cbn [app]. rewrite IH by discriminate. rewrite <- app_assoc. reflexivity.
Qed.

Lemma flat_prefix a : forall b, Forall sepfree a -> Forall sepfree b -> (prefix_of (flat a) (flat b) <-> prefix_of a b).
Proof.
  induction a as [|x a IH]; intros b Ha Hb; [split; [exists b; reflexivity|exists (flat b); reflexivity]|].
  inversion Ha as [|? ? Hx Ha']; subst. unfold flat at 1. cbn [map concat]. fold (flat a). destruct b as [|y b].
  - split; [|intros [r E]; discriminate E]. intros [r E]. unfold flat at 1 in E. cbn in E. destruct x; discriminate E.
  - inversion Hb as [|? ? Hy Hb']; subst. unfold flat at 2. cbn [map concat]. fold (flat b). split.
    + intros [r E]. rewrite <- !app_assoc in E. cbn [app] in E.
      assert (forall u v s t, sepfree u -> sepfree v -> u ++ sep :: s = v ++ sep :: t -> u = v /\ s = t) as Hsplit.
      { clear. induction u as [|p u IH]; intros v s t Hu Hv E.
        - destruct v as [|p v]; [cbn in E; inversion E; auto|]. exfalso. apply Hv. left. inversion E. reflexivity.
        - destruct v as [|p' v]; [exfalso; apply Hu; left; inversion E; reflexivity|]. cbn in E. inversion E as [[E1 E2]]. subst p'.
          destruct (IH v s t) as [-> ->]; [intros Hi; apply Hu; right; exact Hi|intros Hi; apply Hv; right; exact Hi|exact E2|]. auto. }
      destruct (Hsplit y x (flat b) (flat a ++ r) Hy Hx E) as [-> E'].
      destruct (proj1 (IH b Ha' Hb') (ex_intro _ r E')) as [r' ->]. exists r'. reflexivity.
    + intros [r E]. cbn in E. inversion E; subst. destruct (proj2 (IH (a ++ r) Ha' Hb') (ex_intro _ r eq_refl)) as [r' E'].
      exists r'. rewrite E'. rewrite <- !app_assoc. reflexivity.
Qed.

Lemma path_nonempty q : q <> [] -> path_of q = join_sep q.
Proof. intros H. destruct q; [contradiction|reflexivity]. Qed.

Section DirPolicy.
Variable td : list (list byte).
Hypothesis td_proper : Forall proper td.
Hypothesis td_some : td <> [].

Lemma spelled_path : spelled td = path_of td.
Proof. symmetry. apply path_nonempty. exact td_some. Qed.

Lemma path_inj a b : Forall proper a -> Forall proper b -> path_of a = path_of b -> a = b.
Proof. intros Ha Hb. apply render_inj; apply proper_normal; assumption. Qed.

Lemma is_dot_path q : Forall proper q -> is_dot (path_of q) = true <-> q = [].
Proof.
  intros Hq. rewrite is_dot_true. split; [|intros ->; reflexivity]. intros E. apply (path_inj q []); [exact Hq|constructor|exact E].
Qed.

Lemma parent_path q : Forall proper q -> q <> [] -> has_prefix (path_of q ++ [sep]) (path_of td ++ [sep]) = true <-> prefix_of q td.
Proof.
  intros Hq Hne. rewrite has_prefix_iff, !path_nonempty, !join_flat by assumption. apply flat_prefix; apply proper_sepfree; assumption.
Qed.

Lemma below_path q : Forall proper q -> q <> [] -> at_or_below (path_of td) (path_of q) <-> prefix_of td q.
Proof.
  intros Hq Hne. split.
  - intros [E|(r & Hr & E)]; [apply path_inj in E; [subst q; exists []; symmetry; apply app_nil_r|assumption|assumption]|].
    apply flat_prefix; [apply proper_sepfree; assumption|apply proper_sepfree; assumption|].
    rewrite <- !join_flat by assumption. rewrite !path_nonempty in E by assumption. rewrite E. exists (r ++ [sep]). rewrite <- !app_assoc. reflexivity.
  - intros [r ->]. destruct r as [|c r]; [left; rewrite app_nil_r; reflexivity|]. right. exists (join_sep (c :: r)).
    assert (proper c) as Hc by (apply Forall_app in Hq; destruct Hq as [_ Hq]; inversion Hq; assumption).
    split; [destruct r; cbn; destruct c; try discriminate; destruct Hc as [Hc _]; contradiction|].
    rewrite !path_nonempty by (assumption || (destruct td; discriminate)). apply join_app; [assumption|discriminate].
Qed.

Lemma clean_path q : Forall proper q -> clean (path_of q) = path_of q.
Proof. intros Hq. apply clean_render, proper_normal, Hq. Qed.

Lemma dir_match_path q : Forall proper q -> dir_match (spelled td) (path_of q) = true <-> exists q' c, q = q' ++ [c] /\ prefix_of td q /\ dir_temp_form c.
Proof.
  intros Hq. rewrite dir_match_iff, spelled_path, !clean_path by assumption. destruct q as [|c q _] using rev_ind.
  - split; [|intros (q' & c & E & _); destruct q'; discriminate]. intros [_ Hf]. assert (dir_temp_form (base [dot])) as Hf' by exact Hf. pose proof (form_long _ (or_intror Hf')). vm_compute in H. lia.
  - pose proof Hq as Hq'. apply Forall_app in Hq'. destruct Hq' as [Hq1 Hc]. inversion Hc as [|? ? Hc' _]; subst.
    rewrite (base_path q c Hq1 Hc'), (below_path (q ++ [c]) Hq) by (destruct q; discriminate). split.
    + intros [H1 H2]. exists q, c. auto.
    + intros (q' & c' & E & H1 & H2). apply app_inj_tail in E. destruct E as [_ ->]. auto.
Qed.

Lemma dir_walk_at q d : Forall proper q ->
  (dir_walk (spelled td) (path_of q) d = Continue /\ (q = td \/ (d = true /\ prefix_of q td) \/ (d = false /\ ~ exists q' c, q = q' ++ [c] /\ prefix_of td q /\ dir_temp_form c))) \/
  (dir_walk (spelled td) (path_of q) d = Remove /\ q <> td /\ (exists q' c, q = q' ++ [c] /\ prefix_of td q /\ dir_temp_form c)) \/
  (dir_walk (spelled td) (path_of q) d = SkipDir /\ d = true /\ ~ prefix_of q td /\ ~ exists q' c, q = q' ++ [c] /\ prefix_of td q /\ dir_temp_form c).
Proof.
  intros Hq. unfold dir_walk. cbv zeta. rewrite clean_path by exact Hq.
  destruct (bytes_eqb (path_of q) (spelled td)) eqn:E1.
  { left. split; [reflexivity|]. left. apply bytes_eqb_eq in E1. rewrite spelled_path in E1. apply path_inj; assumption. }
  assert (q <> td) as Hne by (intros ->; rewrite spelled_path in E1; assert (bytes_eqb (path_of td) (path_of td) = true) by (apply bytes_eqb_eq; reflexivity); congruence).
  assert ((is_dot (path_of q) || has_prefix (path_of q ++ [sep]) (spelled td ++ [sep]) = true) <-> prefix_of q td) as Hpar.
  { rewrite orb_true_iff, (is_dot_path q Hq), spelled_path. destruct q as [|c q].
    - split; [intros _; exists td; reflexivity|]. intros _. left. reflexivity.
    - rewrite (parent_path (c :: q) Hq) by discriminate. split; [intros [H|H]; [discriminate|exact H]|right; assumption]. }
  destruct d; cbn [andb].
  - destruct (is_dot (path_of q) || has_prefix (path_of q ++ [sep]) (spelled td ++ [sep])) eqn:E2.
    { left. split; [reflexivity|]. right. left. split; [reflexivity|]. apply Hpar. reflexivity. }
    destruct (dir_match (spelled td) (path_of q)) eqn:E3.
    + right. left. split; [reflexivity|]. split; [exact Hne|]. apply (dir_match_path q Hq). exact E3.
    + right. right. split; [reflexivity|]. split; [reflexivity|]. split; [intros H; apply Hpar in H; discriminate|]. intros H. apply (dir_match_path q Hq) in H. congruence.
  - destruct (dir_match (spelled td) (path_of q)) eqn:E3.
    + right. left. split; [reflexivity|]. split; [exact Hne|]. apply (dir_match_path q Hq). exact E3.
    + left. split; [reflexivity|]. right. right. split; [reflexivity|]. intros H. apply (dir_match_path q Hq) in H. congruence.
Qed.

(* The parent of a path that was come to is the directory or above it. *)
Lemma reached_parent q c : Forall proper (q ++ [c]) -> reached (dir_walk (spelled td)) (q ++ [c]) -> prefix_of q td.
Proof.
  intros Hq Hre. apply Forall_app in Hq. destruct Hq as [Hq _]. specialize (Hre q c [] eq_refl).
  destruct (dir_walk_at q true Hq) as [[_ H]|[[E _]|[E _]]]; try congruence.
  destruct H as [->|[[_ H]|[H _]]]; [exists []; symmetry; apply app_nil_r|exact H|discriminate].
Qed.

Lemma dir_remove q d : Forall proper q -> reached (dir_walk (spelled td)) q -> (dir_walk (spelled td) (path_of q) d = Remove <-> dir_own td q).
Proof.
  intros Hq Hre. destruct q as [|c q _] using rev_ind.
  - split.
    + intros E. destruct (dir_walk_at [] d Hq) as [[E' _]|[(_ & _ & q' & c & X & _)|[E' _]]]; try congruence. destruct q'; discriminate.
    + intros (c & E & _). destruct td; discriminate.
  - pose proof (reached_parent q c Hq Hre) as [r Hr]. split.
    + intros E. destruct (dir_walk_at (q ++ [c]) d Hq) as [[E' _]|[(_ & Hne & q' & c' & X & [s Hs] & Hf)|[E' _]]]; try congruence.
      apply app_inj_tail in X. destruct X as [<- <-]. exists c. split; [|exact Hf].
      rewrite Hr in Hs. rewrite <- app_assoc in Hs. apply app_inv_head in Hs. destruct r as [|x r]; [rewrite app_nil_r in Hr; subst; reflexivity|].
      exfalso. cbn in Hs. inversion Hs as [[H1 H2]]. symmetry in H2. apply app_eq_nil in H2. destruct H2 as [-> ->]. apply Hne. rewrite Hr. subst x. reflexivity.
    + intros (c' & E & Hf). apply app_inj_tail in E. destruct E as [-> ->].
      destruct (dir_walk_at (td ++ [c']) d Hq) as [[_ H]|[[E _]|(_ & _ & _ & H)]]; [|exact E|].
      * destruct H as [H|[[_ [s H]]|[_ H]]].
        -- exfalso. apply (f_equal (@length _)) in H. rewrite app_length in H. cbn in H. lia.
        -- exfalso. apply (f_equal (@length _)) in H. rewrite !app_length in H. cbn in H. lia.
        -- exfalso. apply H. exists td, c'. split; [reflexivity|]. split; [exists [c']; reflexivity|exact Hf].
      * exfalso. apply H. exists td, c'. split; [reflexivity|]. split; [exists [c']; reflexivity|exact Hf].
Qed.

Lemma dir_skip q : Forall proper q -> reached (dir_walk (spelled td)) q -> dir_walk (spelled td) (path_of q) true = SkipDir -> forall r, ~ dir_own td (q ++ r).
Proof.
  intros Hq Hre E r (c & Eq & Hf). destruct (dir_walk_at q true Hq) as [[E' _]|[[E' _]|(_ & _ & Hnp & Hno)]]; try congruence.
  destruct r as [|c' r _] using rev_ind.
  - rewrite app_nil_r in Eq. apply Hno. exists td, c. split; [exact Eq|]. split; [rewrite Eq; exists [c]; reflexivity|exact Hf].
  - rewrite app_assoc in Eq. apply app_inj_tail in Eq. destruct Eq as [Eq _]. apply Hnp. exists r. symmetry. exact Eq.
Qed.

Lemma dir_file q : Forall proper q -> reached (dir_walk (spelled td)) q -> dir_walk (spelled td) (path_of q) false <> SkipDir.
Proof. intros Hq _ E. destruct (dir_walk_at q false Hq) as [[E' _]|[[E' _]|(_ & H & _)]]; congruence. Qed.

Lemma dir_cleans rm lists t : well t -> cleaned (dir_own td) t (clean_up (dir_walk (spelled td)) rm lists t) /\
  ((forall p x, rm p x = None) -> (forall p, lists p = true) -> snd (clean_up (dir_walk (spelled td)) rm lists t) = true).
Proof. apply clean_up_fine; [exact dir_remove|exact dir_skip|exact dir_file]. Qed.
End DirPolicy.
