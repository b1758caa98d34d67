(* Facts about lexical paths. *)
From Verif Require Import Common CommonLemmas ContentRange_Model ContentRange_Proofs PathLex_Model.

Definition sepfree (c : list byte) : Prop := ~ In sep c.

(* An ordinary name: not empty, not ".", not "..", no separator. *)
Definition proper (c : list byte) : Prop := c <> [] /\ c <> [dot] /\ c <> [dot; dot] /\ sepfree c.

(* The element lists Clean produces: ordinary names, after some ".." if relative. *)
Definition normal (root : bool) (l : list (list byte)) : Prop :=
  exists k l', l = repeat [dot; dot] k ++ l' /\ Forall proper l' /\ (root = true -> k = 0%nat).

Lemma is_empty_true c : is_empty c = true <-> c = [].
Proof. destruct c; cbn; split; congruence. Qed.
Lemma is_dot_true c : is_dot c = true <-> c = [dot].
Proof. apply bytes_eqb_eq. Qed.
Lemma is_dotdot_true c : is_dotdot c = true <-> c = [dot; dot].
Proof. apply bytes_eqb_eq. Qed.

Lemma bool_false_iff (b : bool) (P : Prop) : (b = true <-> P) -> ~ P -> b = false.
Proof. intros H Hn. destruct b; [exfalso; apply Hn, H; reflexivity|reflexivity]. Qed.

Lemma proper_tests c : proper c -> is_empty c = false /\ is_dot c = false /\ is_dotdot c = false.
Proof.
  intros (H1 & H2 & H3 & _). split; [|split].
  - eapply bool_false_iff; [apply is_empty_true|exact H1].
  - eapply bool_false_iff; [apply is_dot_true|exact H2].
  - eapply bool_false_iff; [apply is_dotdot_true|exact H3].
Qed.

Lemma split_nonempty p : split_sep p <> [].
Proof. destruct p as [|c r]; cbn; [discriminate|]. destruct (N.eqb c sep); [discriminate|]. destruct (split_sep r); discriminate. Qed.

Lemma split_sepfree p : Forall sepfree (split_sep p).
Proof.
  induction p as [|c r IH]; cbn.
  - constructor; [intros []|constructor].
  - destruct (N.eqb_spec c sep) as [E|E].
    + constructor; [intros []|exact IH].
    + pose proof (split_nonempty r). destruct (split_sep r) as [|h t]; [contradiction|].
      inversion IH as [|x y Hh Ht]; subst. constructor; [|exact Ht].
      intros [Hx|Hx]; [congruence|]. apply Hh; exact Hx.
Qed.

Lemma join_cons x l : l <> [] -> join_sep (x :: l) = x ++ sep :: join_sep l.
Proof. destruct l; [contradiction|reflexivity]. Qed.

Lemma join_split p : join_sep (split_sep p) = p.
Proof.
  induction p as [|c r IH]; [reflexivity|]. cbn [split_sep].
  pose proof (split_nonempty r) as Hn. destruct (N.eqb_spec c sep) as [E|E].
  - rewrite join_cons by exact Hn. rewrite IH. subst c. reflexivity.
  - destruct (split_sep r) as [|h t]; [contradiction|]. destruct t as [|h2 t].
    + cbn in *. now rewrite IH.
    + rewrite join_cons in IH |- * by discriminate. rewrite <- app_comm_cons, IH. reflexivity.
Qed.

Lemma split_sep_free c : sepfree c -> split_sep c = [c].
Proof.
  induction c as [|b r IH]; intros H; [reflexivity|]. cbn [split_sep].
  destruct (N.eqb_spec b sep) as [E|E]; [exfalso; apply H; left; auto|].
  rewrite IH; [reflexivity|]. intros Hx. apply H. right; exact Hx.
Qed.

Lemma split_app_sep c r : sepfree c -> split_sep (c ++ sep :: r) = c :: split_sep r.
Proof.
  induction c as [|b c IH]; intros H; cbn [split_sep app].
  - rewrite N.eqb_refl. reflexivity.
  - destruct (N.eqb_spec b sep) as [E|E]; [exfalso; apply H; left; auto|].
    rewrite IH; [reflexivity|]. intros Hx. apply H. right; exact Hx.
Qed.

Lemma split_join l : l <> [] -> Forall sepfree l -> split_sep (join_sep l) = l.
Proof.
  intros Hn Hf. induction Hf as [|x l Hx Hl IH]; [contradiction|].
  destruct l as [|y l]; [apply split_sep_free; exact Hx|].
  rewrite join_cons by discriminate. rewrite split_app_sep by exact Hx. rewrite IH by discriminate. reflexivity.
Qed.

Lemma join_app a b : a <> [] -> b <> [] -> join_sep (a ++ b) = join_sep a ++ sep :: join_sep b.
Proof.
  intros Ha Hb. induction a as [|x a IH]; [contradiction|]. destruct a as [|y a].
  - cbn [app]. apply join_cons. exact Hb.
  - change ((x :: y :: a) ++ b) with (x :: ((y :: a) ++ b)). rewrite join_cons by discriminate.
    rewrite IH by discriminate. rewrite (join_cons x (y :: a)) by discriminate.
    rewrite <- app_assoc. reflexivity.
Qed.

Lemma split_app_gen p q : split_sep (p ++ sep :: q) = split_sep p ++ split_sep q.
Proof.
  induction p as [|b p IH]; cbn [split_sep app].
  - rewrite N.eqb_refl. reflexivity.
  - rewrite IH. destruct (N.eqb b sep); [reflexivity|].
    pose proof (split_nonempty p). destruct (split_sep p); [contradiction|reflexivity].
Qed.

(* ---- clean_comps ---- *)

Lemma proper_sepfree l : Forall proper l -> Forall sepfree l.
Proof. apply Forall_impl. intros c H. apply H. Qed.

Lemma dotdot_sepfree : sepfree [dot; dot].
Proof. intros [H|[H|[]]]; discriminate. Qed.
Lemma dot_sepfree : sepfree [dot].
Proof. intros [H|[]]; discriminate. Qed.

Lemma normal_sepfree root l : normal root l -> Forall sepfree l.
Proof.
  intros (k & l' & -> & Hl & _). apply Forall_app. split; [|apply proper_sepfree; exact Hl].
  clear. induction k as [|k IH]; cbn [repeat]; [constructor|]. constructor; [apply dotdot_sepfree|exact IH].
Qed.

Lemma normal_nil root : normal root [].
Proof. exists 0%nat, []. repeat split; auto. Qed.

Lemma normal_snoc root l c : normal root l -> proper c -> normal root (l ++ [c]).
Proof.
  intros (k & l' & -> & Hl & Hk) Hc. exists k, (l' ++ [c]). split; [now rewrite app_assoc|].
  split; [|exact Hk]. apply Forall_app. auto.
Qed.

Lemma repeat_snoc {A} (x : A) k : repeat x k ++ [x] = repeat x (S k).
Proof. induction k as [|k IH]; [reflexivity|]. cbn [repeat app]. now rewrite IH. Qed.

(* removing the last element, or adding ".." *)
Lemma normal_up root l c : normal root (l ++ [c]) ->
  (c = [dot; dot] /\ root = false /\ normal root ((l ++ [c]) ++ [[dot; dot]])) \/ (c <> [dot; dot] /\ normal root l).
Proof.
  intros (k & l' & E & Hl & Hk). destruct (rev l') as [|x r] eqn:Er.
  - apply (f_equal (@rev _)) in Er. rewrite rev_involutive in Er. cbn in Er. subst l'.
    rewrite app_nil_r in E. destruct k as [|k]; [destruct l; discriminate|].
    rewrite <- repeat_snoc in E. apply app_inj_tail in E. destruct E as [-> ->].
    left. split; [reflexivity|]. split; [destruct root; [specialize (Hk eq_refl); lia|reflexivity]|].
    exists (S (S k)), []. rewrite !repeat_snoc, app_nil_r. split; [reflexivity|]. split; [constructor|].
    intros H. specialize (Hk H). lia.
  - apply (f_equal (@rev _)) in Er. rewrite rev_involutive in Er. cbn in Er. subst l'.
    rewrite app_assoc in E. apply app_inj_tail in E. destruct E as [-> ->].
    apply Forall_app in Hl. destruct Hl as [Hl Hx]. inversion Hx as [|y z Hp _]; subst.
    right. split; [apply Hp|]. exists k, (rev r). auto.
Qed.

Lemma clean_step_normal root st c : sepfree c -> normal root (rev st) -> normal root (rev (clean_step root st c)).
Proof.
  intros Hc Hn. unfold clean_step. destruct (is_empty c) eqn:E1; [exact Hn|].
  destruct (is_dot c) eqn:E2; [exact Hn|]. cbn [orb].
  destruct (is_dotdot c) eqn:E3.
  - apply is_dotdot_true in E3. subst c. destruct st as [|top st].
    + destruct root; [exact Hn|]. exists 1%nat, []. repeat split; auto. discriminate.
    + cbn [rev] in Hn. destruct (normal_up _ _ _ Hn) as [(Ht & _ & Hn')|(Ht & Hn')].
      * subst top. change (is_dotdot [dot; dot]) with true. cbn [rev] in *. exact Hn'.
      * destruct (is_dotdot top) eqn:Et; [apply is_dotdot_true in Et; contradiction|]. exact Hn'.
  - cbn [rev]. apply normal_snoc; [exact Hn|]. split; [|split; [|split; [|exact Hc]]].
    + intros ->. discriminate.
    + intros ->. discriminate.
    + intros ->. discriminate.
Qed.

Lemma clean_fold_normal root l : Forall sepfree l -> forall st, normal root (rev st) ->
  normal root (rev (fold_left (clean_step root) l st)).
Proof.
  induction 1 as [|c l Hc Hl IH]; intros st Hn; cbn [fold_left]; [exact Hn|].
  apply IH. apply clean_step_normal; auto.
Qed.

Lemma clean_comps_normal root l : Forall sepfree l -> normal root (clean_comps root l).
Proof. intros H. apply clean_fold_normal; [exact H|apply normal_nil]. Qed.

Lemma fold_proper root l : Forall proper l -> forall st, fold_left (clean_step root) l st = rev l ++ st.
Proof.
  induction 1 as [|c l Hc Hl IH]; intros st; cbn [fold_left rev]; [reflexivity|].
  rewrite IH. unfold clean_step at 1. destruct (proper_tests c Hc) as (-> & -> & ->). cbn [orb].
  rewrite <- app_assoc. reflexivity.
Qed.

Lemma fold_dotdot k : forall j, fold_left (clean_step false) (repeat [dot; dot] k) (repeat [dot; dot] j) = repeat [dot; dot] (k + j).
Proof.
  induction k as [|k IH]; intros j; cbn [repeat fold_left]; [reflexivity|].
  replace (clean_step false (repeat [dot; dot] j) [dot; dot]) with (repeat [dot; dot] (S j)).
  - rewrite IH. f_equal. lia.
  - destruct j; reflexivity.
Qed.

Lemma rev_repeat' {A} (x : A) k : rev (repeat x k) = repeat x k.
Proof. induction k as [|k IH]; [reflexivity|]. cbn [repeat rev]. rewrite IH. apply (repeat_snoc x k). Qed.

Lemma fold_normal root l : normal root l -> fold_left (clean_step root) l [] = rev l.
Proof.
  intros (k & l' & -> & Hl & Hk). rewrite fold_left_app, rev_app_distr, rev_repeat'.
  destruct root.
  - rewrite (Hk eq_refl). cbn [repeat fold_left app]. rewrite fold_proper by exact Hl. reflexivity.
  - pose proof (fold_dotdot k 0) as Hd. rewrite Nat.add_0_r in Hd. cbn [repeat] in Hd. rewrite Hd. apply fold_proper. exact Hl.
Qed.

Lemma clean_comps_fix root l : normal root l -> clean_comps root l = l.
Proof. intros H. unfold clean_comps. rewrite fold_normal by exact H. apply rev_involutive. Qed.

(* ---- render and clean ---- *)

(* The elements of a cleaned path as split by the separator. *)
Lemma split_render root l : normal root l ->
  split_sep (render root l) =
    if root then [] :: (match l with [] => [[]] | _ => l end) else match l with [] => [[dot]] | _ => l end.
Proof.
  intros Hn. pose proof (normal_sepfree _ _ Hn) as Hf. unfold render. destruct root.
  - cbn [split_sep]. rewrite N.eqb_refl. f_equal. destruct l as [|x l]; [reflexivity|].
    apply split_join; [discriminate|exact Hf].
  - destruct l as [|x l]; [reflexivity|]. apply split_join; [discriminate|exact Hf].
Qed.

Lemma rooted_render root l : normal root l -> rooted (render root l) = root.
Proof.
  intros Hn. pose proof (normal_sepfree _ _ Hn) as Hf. unfold render. destruct root; [reflexivity|].
  destruct l as [|x l]; [reflexivity|].
  assert (x <> []) as Hx.
  { destruct Hn as (k & l' & E & Hl & _). destruct k as [|k]; cbn [repeat app] in E.
    - subst l'. inversion Hl as [|? ? Hp]; subst. apply Hp.
    - injection E as -> _. discriminate. }
  inversion Hf as [|? ? Hs _]; subst. destruct x as [|b x]; [contradiction|].
  assert (b <> sep) as Hb by (intros ->; apply Hs; left; reflexivity).
  destruct l; cbn; destruct (N.eqb_spec b sep); congruence.
Qed.

Lemma comps_render root l : normal root l -> clean_comps root (split_sep (render root l)) = l.
Proof.
  intros Hn. rewrite split_render by exact Hn. destruct root.
  - unfold clean_comps. cbn [fold_left]. change (clean_step true [] []) with (@nil (list byte)).
    destruct l as [|x l]; [reflexivity|]. apply (clean_comps_fix true). exact Hn.
  - destruct l as [|x l]; [reflexivity|]. apply clean_comps_fix. exact Hn.
Qed.

Lemma clean_render root l : normal root l -> clean (render root l) = render root l.
Proof. intros Hn. unfold clean. rewrite rooted_render, comps_render by exact Hn. reflexivity. Qed.

Lemma clean_normal p : normal (rooted p) (clean_comps (rooted p) (split_sep p)).
Proof. apply clean_comps_normal, split_sepfree. Qed.

Lemma clean_idem p : clean (clean p) = clean p.
Proof. unfold clean at 2 3. apply clean_render, clean_normal. Qed.

Lemma rooted_clean p : rooted (clean p) = rooted p.
Proof. unfold clean. apply rooted_render, clean_normal. Qed.

Lemma clean_nonempty p : clean p <> [].
Proof.
  unfold clean, render. destruct (rooted p) eqn:Er; [discriminate|].
  destruct (clean_comps false (split_sep p)) as [|x l] eqn:E; [discriminate|].
  intros H. pose proof (clean_normal p) as Hn. rewrite Er, E in Hn.
  pose proof (split_join (x :: l) ltac:(discriminate) (normal_sepfree _ _ Hn)) as Hs. rewrite H in Hs.
  cbn in Hs. injection Hs as <- <-. destruct Hn as (k & l' & E' & Hl & _). destruct k; cbn in E'.
  - subst l'. inversion Hl as [|? ? Hp _]; subst. destruct Hp as [Hp _]. contradiction.
  - discriminate.
Qed.

Lemma render_inj root l1 l2 : normal root l1 -> normal root l2 -> render root l1 = render root l2 -> l1 = l2.
Proof. intros H1 H2 E. rewrite <- (comps_render root l1 H1), <- (comps_render root l2 H2), E. reflexivity. Qed.

(* A name appended to a cleaned directory. *)
Lemma clean_child root l c : normal root l -> proper c ->
  clean (render root l ++ sep :: c) = render root (l ++ [c]).
Proof.
  intros Hn Hc. assert (Hr : rooted (render root l ++ sep :: c) = root).
  { pose proof (rooted_render root l Hn) as H. destruct (render root l) as [|b r] eqn:E.
    - exfalso. pose proof (clean_render root l Hn) as Hx. rewrite E in Hx. exact (clean_nonempty _ Hx).
    - exact H. }
  unfold clean. rewrite Hr. f_equal. unfold clean_comps. rewrite split_app_gen, fold_left_app.
  pose proof (comps_render root l Hn) as Hcr. unfold clean_comps in Hcr.
  apply (f_equal (@rev _)) in Hcr. rewrite rev_involutive in Hcr. rewrite Hcr.
  rewrite split_sep_free by apply Hc. rewrite fold_proper by (constructor; [exact Hc|constructor]).
  cbn [rev app]. rewrite rev_involutive. reflexivity.
Qed.

Lemma join2_child root l c : normal root l -> proper c -> join2 (render root l) c = render root (l ++ [c]).
Proof.
  intros Hn Hc. rewrite <- (clean_child root l c Hn Hc). unfold join2.
  destruct (render root l) as [|b r] eqn:E.
  - exfalso. pose proof (clean_render root l Hn) as Hx. rewrite E in Hx. exact (clean_nonempty _ Hx).
  - destruct c; reflexivity.
Qed.

(* trim_seps does nothing to a text that does not end in a separator. *)
Lemma trim_seps_id p b : b <> sep -> trim_seps (p ++ [b]) = p ++ [b].
Proof.
  intros H. unfold trim_seps. rewrite rev_app_distr. cbn [rev app].
  destruct (N.eqb_spec b sep); [contradiction|]. change (b :: rev p) with ([b] ++ rev p).
  rewrite rev_app_distr, rev_involutive. reflexivity.
Qed.

Lemma trim_proper p c : proper c -> trim_seps (p ++ c) = p ++ c.
Proof.
  intros (Hn & _ & _ & Hs). destruct (rev c) as [|b r] eqn:E.
  - apply (f_equal (@rev _)) in E. rewrite rev_involutive in E. contradiction.
  - apply (f_equal (@rev _)) in E. rewrite rev_involutive in E. cbn [rev] in E. subst c.
    rewrite app_assoc. apply trim_seps_id. intros ->. apply Hs. apply in_or_app. right; left; reflexivity.
Qed.

Lemma render_snoc_text root l c : normal root l -> proper c ->
  exists t, render root (l ++ [c]) = t ++ c /\ (t = [] \/ exists t', t = t' ++ [sep] /\
     ((t' = [] /\ root = true /\ l = []) \/ (l <> [] /\ t' = render root l))).
Proof.
  intros Hn Hc. unfold render. destruct root.
  - destruct l as [|x l].
    + exists [sep]. split; [reflexivity|]. right. exists []. auto.
    + rewrite join_app by discriminate. exists ((sep :: join_sep (x :: l)) ++ [sep]). split.
      * cbn [join_sep app]. rewrite <- app_assoc. reflexivity.
      * right. eexists. split; [reflexivity|]. right. split; [discriminate|reflexivity].
  - destruct l as [|x l].
    + exists []. auto.
    + destruct ((x :: l) ++ [c]) as [|y z] eqn:E; [discriminate|]. rewrite <- E.
      rewrite join_app by discriminate. exists (join_sep (x :: l) ++ [sep]). split.
      * rewrite <- app_assoc. reflexivity.
      * right. eexists. split; [reflexivity|]. right. split; [discriminate|reflexivity].
Qed.

Lemma base_child root l c : normal root l -> proper c -> base (render root (l ++ [c])) = c.
Proof.
  intros Hn Hc. pose proof (split_render root (l ++ [c]) (normal_snoc _ _ _ Hn Hc)) as Hs.
  destruct (render_snoc_text root l c Hn Hc) as (t & Ht & _).
  unfold base. destruct (render root (l ++ [c])) as [|b r] eqn:E.
  - destruct t; [|discriminate]. cbn in Ht. destruct Hc as [Hc _]. congruence.
  - rewrite Ht, trim_proper by exact Hc. rewrite <- Ht, Hs.
    assert (last (if root then [] :: match l ++ [c] with [] => [[]] | _ => l ++ [c] end
                  else match l ++ [c] with [] => [[dot]] | _ => l ++ [c] end) [] = c) as ->.
    { destruct (l ++ [c]) as [|y z] eqn:Ey; [destruct l; discriminate|]. rewrite <- Ey.
      destruct root.
      - change ([] :: l ++ [c]) with (([] :: l) ++ [c]). apply last_last.
      - apply last_last. }
    destruct Hc as [Hc _]. destruct c; [contradiction|reflexivity].
Qed.

Lemma dir_child root l c : normal root l -> proper c -> dir (render root (l ++ [c])) = render root l.
Proof.
  intros Hn Hc. unfold dir. rewrite split_render by (apply normal_snoc; auto).
  assert (forall r : list (list byte), removelast (r ++ [c]) = r) as Hrl by (intros r; apply removelast_last).
  destruct (l ++ [c]) as [|y z] eqn:Ey; [destruct l; discriminate|]. rewrite <- Ey. destruct root.
  - change ([] :: l ++ [c]) with (([] :: l) ++ [c]). rewrite Hrl.
    assert (rooted (join_sep ([] :: l) ++ [sep]) = true) as Hr by (destruct l; reflexivity).
    unfold clean. rewrite Hr. f_equal. rewrite split_app_gen. unfold clean_comps. rewrite fold_left_app.
    rewrite (split_join ([] :: l)); [|discriminate|].
    + cbn [fold_left]. change (clean_step true [] []) with (@nil (list byte)).
      rewrite fold_normal by exact Hn. cbn [split_sep fold_left]. apply rev_involutive.
    + constructor; [intros []|apply (normal_sepfree _ _ Hn)].
  - rewrite Hrl. destruct l as [|x l]; [reflexivity|].
    assert (render false (x :: l) = join_sep (x :: l)) as Hre by reflexivity.
    assert (rooted (join_sep (x :: l) ++ [sep]) = false) as Hr.
    { pose proof (rooted_render false (x :: l) Hn) as H. rewrite Hre in H.
      assert (join_sep (x :: l) <> []) as Hne.
      { rewrite <- Hre, <- (clean_render false (x :: l) Hn). apply clean_nonempty. }
      destruct (join_sep (x :: l)) as [|b0 r0]; [contradiction|exact H]. }
    unfold clean. rewrite Hr. f_equal. rewrite split_app_gen. unfold clean_comps. rewrite fold_left_app.
    rewrite (split_join (x :: l)) by (try discriminate; apply (normal_sepfree _ _ Hn)).
    rewrite fold_normal by exact Hn. cbn [split_sep fold_left].
    change (clean_step false (rev (x :: l)) []) with (rev (x :: l)). apply rev_involutive.
Qed.

(* Local paths are the relative ones whose cleaned form has no "..". *)
Lemma is_local_comps p : is_local p = true <->
  p <> [] /\ rooted p = false /\ Forall proper (clean_comps false (split_sep p)).
Proof.
  unfold is_local. pose proof (clean_comps_normal false (split_sep p) (split_sepfree p)) as Hn.
  rewrite !andb_true_iff, !negb_true_iff. split.
  - intros [[H1 H2] H3]. split; [intros ->; discriminate|]. split; [exact H2|].
    destruct Hn as (k & l' & E & Hl & _). rewrite E in *. destruct k as [|k]; [exact Hl|].
    cbn in H3. discriminate.
  - intros (H1 & H2 & H3). split; [split; [destruct p; [contradiction|reflexivity]|exact H2]|].
    destruct (clean_comps false (split_sep p)) as [|c l]; [reflexivity|].
    inversion H3 as [|? ? Hp _]; subst. apply negb_true_iff. apply (proper_tests c Hp).
Qed.

Lemma clean_is_render p : exists root l, normal root l /\ clean p = render root l.
Proof. exists (rooted p), (clean_comps (rooted p) (split_sep p)). split; [apply clean_normal|reflexivity]. Qed.

Lemma dir_is_render p : exists root l, normal root l /\ dir p = render root l.
Proof.
  unfold dir. destruct (removelast (split_sep p)) as [|x l].
  - exists false, []. split; [apply normal_nil|reflexivity].
  - apply clean_is_render.
Qed.

Lemma clean_dir p : clean (dir p) = dir p.
Proof. destruct (dir_is_render p) as (root & l & Hn & ->). apply clean_render. exact Hn. Qed.

Lemma last_in {A} (l : list A) d : l <> [] -> In (last l d) l.
Proof. induction l as [|x l IH]; [contradiction|]. intros _. destruct l; [left; reflexivity|]. right. apply IH. discriminate. Qed.

(* Base yields "/" or a non-empty name without separators. *)
Lemma base_cases p : base p = [sep] \/ (base p <> [] /\ sepfree (base p)).
Proof.
  unfold base. destruct p as [|b p]; [right; split; [discriminate|apply dot_sepfree]|].
  pose proof (last_in (split_sep (trim_seps (b :: p))) [] (split_nonempty _)) as H.
  pose proof (split_sepfree (trim_seps (b :: p))) as Hf. rewrite Forall_forall in Hf. apply Hf in H.
  destruct (last (split_sep (trim_seps (b :: p))) []) as [|c r]; [left; reflexivity|].
  right. split; [discriminate|exact H].
Qed.

(* A name appended to any directory path. *)
Lemma clean_app_child d c : d <> [] -> proper c ->
  clean (d ++ sep :: c) = render (rooted d) (clean_comps (rooted d) (split_sep d) ++ [c]).
Proof.
  intros Hd Hc. unfold clean. assert (rooted (d ++ sep :: c) = rooted d) as -> by (destruct d; [contradiction|reflexivity]).
  rewrite split_app_gen, (split_sep_free c) by apply Hc. unfold clean_comps. rewrite fold_left_app. cbn [fold_left].
  unfold clean_step at 1. destruct (proper_tests c Hc) as (-> & -> & ->). reflexivity.
Qed.

Lemma join2_app_child d c : d <> [] -> proper c ->
  join2 d c = render (rooted d) (clean_comps (rooted d) (split_sep d) ++ [c]).
Proof. intros Hd Hc. destruct d as [|b d]; [contradiction|]. apply (clean_app_child (b :: d)); auto. Qed.

Lemma join2_dir_base d c : d <> [] -> proper c -> dir (join2 d c) = clean d /\ base (join2 d c) = c.
Proof.
  intros Hd Hc. rewrite join2_app_child by assumption.
  split; [rewrite dir_child; [reflexivity|apply clean_normal|exact Hc]|apply base_child; [apply clean_normal|exact Hc]].
Qed.
