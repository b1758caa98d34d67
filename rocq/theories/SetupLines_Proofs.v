From Verif Require Import Common CommonLemmas ContentRange_Model ContentRange_Proofs PathLex_Model PathLex_Proofs TempName_Model CopyFs_Model SetupLines_Model SetupLines_Spec.
From Coq Require Import Permutation.
Open Scope nat_scope.

(* ---- parsing ---- *)

Lemma has_prefix_iff p s : has_prefix p s = true <-> exists b, s = p ++ b.
Proof.
  unfold has_prefix. rewrite bytes_eqb_eq. split.
  - intros H. exists (skipn (length p) s). rewrite <- H at 1. symmetry. apply firstn_skipn.
  - intros (b & ->). rewrite firstn_app, firstn_all, Nat.sub_diag. cbn. apply app_nil_r.
Qed.
Lemma cut_some p s a b : p <> [] -> cut_str p s = Some (a, b) <-> first_cut p s a b.
Proof.
  intros Hp. revert a b. induction s as [|c s IH]; intros a b.
  - cbn. destruct (has_prefix p []) eqn:E.
    + apply has_prefix_iff in E. destruct E as (x & E). destruct p; [contradiction|discriminate].
    + split; [discriminate|]. intros [E2 _]. destruct a; [|discriminate]. destruct p; [contradiction|discriminate].
  - cbn [cut_str]. destruct (has_prefix p (c :: s)) eqn:E.
    + apply has_prefix_iff in E. destruct E as (x & E). split.
      * intros H. assert (a = [] /\ b = skipn (length p) (c :: s)) as [-> ->] by (split; congruence). split; [|intros; cbn; lia]. rewrite E, skipn_app, skipn_all, Nat.sub_diag. reflexivity.
      * intros [H1 H2]. specialize (H2 [] x E). destruct a; [|cbn in H2; lia]. cbn in H1. rewrite H1, skipn_app, skipn_all, Nat.sub_diag. reflexivity.
    + assert (forall x, c :: s <> p ++ x) as Hno by (intros x Hx; assert (has_prefix p (c :: s) = true) by (apply has_prefix_iff; eauto); congruence). split.
      * destruct (cut_str p s) as [[a0 b0]|] eqn:Ec; [|discriminate]. intros H. assert (a = c :: a0 /\ b = b0) as [-> ->] by (split; congruence). destruct (proj1 (IH a0 b0) eq_refl) as [E1 E2]. split; [cbn; rewrite E1; reflexivity|].
        intros [|z a'] b' Eq; [destruct (Hno b' Eq)|]. cbn in Eq. assert (s = a' ++ p ++ b') as Es by congruence. specialize (E2 a' b' Es). cbn. lia.
      * intros [H1 H2]. destruct a as [|z a]; [destruct (Hno b H1)|]. cbn in H1. assert (z = c) as -> by congruence. assert (s = a ++ p ++ b) as Es by congruence.
        assert (first_cut p s a b) as Hf. { split; [exact Es|]. intros a' b' Eq. specialize (H2 (c :: a') b'). cbn in H2. rewrite Eq in H2. specialize (H2 eq_refl). lia. }
        apply IH in Hf. rewrite Hf. reflexivity.
Qed.
Lemma cut_none p s : p <> [] -> cut_str p s = None <-> nowhere p s.
Proof.
  intros Hp. induction s as [|c s IH].
  - cbn. destruct (has_prefix p []) eqn:E.
    + apply has_prefix_iff in E. destruct E as (x & E). destruct p; [contradiction|discriminate].
    + split; [|reflexivity]. intros _ a b H. destruct a; [|discriminate]. destruct p; [contradiction|discriminate].
  - cbn [cut_str]. destruct (has_prefix p (c :: s)) eqn:E.
    + apply has_prefix_iff in E. destruct E as (x & E). split; [discriminate|]. intros H. destruct (H [] x E).
    + assert (cut_str p s = None <-> match cut_str p s with Some (a, b) => Some (c :: a, b) | None => None end = None) as Hiff by (destruct (cut_str p s) as [[]|]; split; congruence). rewrite <- Hiff, IH. split.
      * intros H [|z a] b Eq; [assert (has_prefix p (c :: s) = true) by (apply has_prefix_iff; eauto); congruence|]. cbn in Eq. apply (H a b). congruence.
      * intros H a b Eq. apply (H (c :: a) b). cbn. congruence.
Qed.
Lemma ends_iff s : ends_sep s = true <-> exists m, s = m ++ [47%N].
Proof.
  unfold ends_sep. split.
  - intros H. destruct (rev s) as [|c r] eqn:E; [discriminate|]. apply N.eqb_eq in H. subst c. exists (rev r). rewrite <- (rev_involutive s), E. reflexivity.
  - intros (m & ->). rewrite rev_app_distr. reflexivity.
Qed.
Lemma quoted_iff s : quoted s = true <-> exists x c, s = x :: c /\ (x = 34%N \/ x = 96%N).
Proof.
  unfold quoted. destruct s as [|x c]; [split; [discriminate|intros (x & c & H & _); discriminate]|]. rewrite orb_true_iff, !N.eqb_eq. split; [eauto|]. intros (x' & c' & E & H). assert (x' = x) as -> by congruence. exact H.
Qed.
Lemma empty_iff (s : list byte) : is_empty s = true <-> s = [].
Proof. destruct s; cbn; split; congruence. Qed.

Lemma parse_iff uq l p : parse_line uq l = Some p <-> line_of uq l p.
Proof.
  unfold parse_line. assert (arrow <> []) as Ha by discriminate. assert (colon <> []) as Hc by discriminate.
  destruct (cut_str arrow l) as [[n t]|] eqn:E1.
  - pose proof (proj1 (cut_some _ _ _ _ Ha) E1) as F. destruct (is_empty n || is_empty t) eqn:E2.
    + split; [discriminate|]. intros H. exfalso. apply orb_true_iff in E2. rewrite !empty_iff in E2.
      inversion H; subst.
      * pose proof (proj2 (cut_some _ _ _ _ Ha) H0) as E3. rewrite E1 in E3. assert (n = n0 /\ t = t0) as [-> ->] by (split; congruence). destruct E2; contradiction.
      * destruct F as [F1 _]. eapply H0. exact F1.
      * destruct F as [F1 _]. eapply H0. exact F1.
      * destruct F as [F1 _]. eapply H0. exact F1.
    + apply orb_false_iff in E2. destruct E2 as [E2 E3]. assert (n <> []) by (intros ->; discriminate). assert (t <> []) by (intros ->; discriminate). split.
      * intros H1. apply some_inj in H1. subst p. apply LSym; assumption.
      * intros H1. inversion H1; subst.
        -- pose proof (proj2 (cut_some _ _ _ _ Ha) H2) as E4. rewrite E1 in E4. assert (n = n0 /\ t = t0) as [-> ->] by (split; congruence). reflexivity.
        -- destruct F as [F _]. destruct (H2 _ _ F).
        -- destruct F as [F _]. destruct (H2 _ _ F).
        -- destruct F as [F _]. destruct (H2 _ _ F).
  - pose proof (proj1 (cut_none _ _ Ha) E1) as Hn. destruct (ends_sep l) eqn:E2.
    + apply ends_iff in E2. destruct E2 as (m & ->). rewrite removelast_last. destruct (is_empty m) eqn:E3.
      * apply empty_iff in E3. subst m. split; [discriminate|]. intros H. exfalso. inversion H; subst.
        -- destruct H0 as [F _]. destruct (Hn _ _ F).
        -- match goal with H : ?n ++ [47%N] = _, Hn : ?n <> [] |- _ => destruct n as [|? [|? ?]]; cbn in H; congruence end.
        -- destruct (H1 [] eq_refl).
        -- destruct (H1 [] eq_refl).
      * assert (m <> []) by (intros ->; discriminate). split.
        -- intros H0. apply some_inj in H0. subst p. apply LDir; assumption.
        -- intros H0. inversion H0; subst.
           ++ destruct H1 as [F _]. destruct (Hn _ _ F).
           ++ match goal with H : _ ++ [47%N] = _ ++ [47%N] |- _ => apply app_inj_tail in H; destruct H as [-> _] end. reflexivity.
           ++ destruct (H2 m eq_refl).
           ++ destruct (H2 m eq_refl).
    + assert (forall m, l <> m ++ [47%N]) as Hm by (intros m Em; assert (ends_sep l = true) by (apply ends_iff; eauto); congruence).
      destruct (cut_str colon l) as [[n c]|] eqn:E3.
      * pose proof (proj1 (cut_some _ _ _ _ Hc) E3) as F. assert (forall n' c', first_cut colon l n' c' -> n' = n /\ c' = c) as Hu by (intros n' c' F'; apply (cut_some _ _ _ _ Hc) in F'; rewrite E3 in F'; split; congruence).
        destruct (is_empty n) eqn:E4.
        -- apply empty_iff in E4. subst n. split; [discriminate|]. intros H. exfalso. inversion H; subst.
           ++ destruct H0 as [F' _]. destruct (Hn _ _ F').
           ++ destruct (Hm _ eq_refl).
           ++ destruct (Hu _ _ H2) as [-> _]. contradiction.
           ++ destruct (Hu _ _ H2) as [-> _]. contradiction.
        -- assert (n <> []) as Hnn by (intros ->; discriminate). destruct (quoted c) eqn:E5.
           ++ apply quoted_iff in E5. destruct E5 as (x & c' & -> & Hx). split.
              ** destruct (uq (x :: c')) as [b|] eqn:Eu; [|discriminate]. intros H. apply some_inj in H. subst p. eapply LQuoted; eauto.
              ** intros H. inversion H; subst.
                 --- destruct H0 as [F' _]. destruct (Hn _ _ F').
                 --- destruct (Hm _ eq_refl).
                 --- destruct (Hu _ _ H2) as [-> E6]. rewrite <- E6, H5. reflexivity.
                 --- destruct (Hu _ _ H2) as [-> ->]. destruct Hx as [-> | ->]; [destruct (H4 _ eq_refl)|destruct (H5 _ eq_refl)].
           ++ assert (forall x c', c = x :: c' -> x <> 34%N /\ x <> 96%N) as Hq. { intros x c' ->. cbn in E5. apply orb_false_iff in E5. rewrite !N.eqb_neq in E5. exact E5. }
              destruct (existsb (N.eqb space) c) eqn:E6.
              ** split; [discriminate|]. apply existsb_exists in E6. destruct E6 as (y & Hy & Ey). apply N.eqb_eq in Ey. subst y. intros H. exfalso. inversion H; subst.
                 --- destruct H0 as [F' _]. destruct (Hn _ _ F').
                 --- destruct (Hm _ eq_refl).
                 --- destruct (Hu _ _ H2) as [-> E6]. destruct (Hq x c0 (eq_sym E6)) as [Q1 Q2]. destruct H4; contradiction.
                 --- destruct (Hu _ _ H2) as [-> ->]. contradiction.
              ** split.
                 --- intros H. apply some_inj in H. subst p. eapply LBare; eauto; try (intros c' ->; destruct (Hq _ _ eq_refl); contradiction).
                     intros Hin. assert (existsb (N.eqb space) c = true) by (apply existsb_exists; exists 32%N; split; [exact Hin|reflexivity]). congruence.
                 --- intros H. inversion H; subst.
                     +++ destruct H0 as [F' _]. destruct (Hn _ _ F').
                     +++ destruct (Hm _ eq_refl).
                     +++ destruct (Hu _ _ H2) as [-> E7]. destruct (Hq x c0 (eq_sym E7)) as [Q1 Q2]. destruct H4; contradiction.
                     +++ destruct (Hu _ _ H2) as [-> ->]. reflexivity.
      * split; [discriminate|]. pose proof (proj1 (cut_none _ _ Hc) E3) as Hn2. intros H. exfalso. inversion H; subst.
        -- destruct H0 as [F' _]. destruct (Hn _ _ F').
        -- destruct (Hm _ eq_refl).
        -- destruct H2 as [F' _]. destruct (Hn2 _ _ F').
        -- destruct H2 as [F' _]. destruct (Hn2 _ _ F').
Qed.

(* ---- sorting ---- *)

Lemma insert_perm x l : Permutation (insert_proc x l) (x :: l).
Proof.
  induction l as [|y l IH]; cbn; [reflexivity|]. destruct (proc_ltb y x); [|reflexivity]. transitivity (y :: x :: l); [constructor; exact IH|apply perm_swap].
Qed.
Lemma sort_perm l : Permutation (sort_procs l) l.
Proof. induction l as [|x l IH]; cbn; [constructor|]. rewrite insert_perm, IH. reflexivity. Qed.
(* No proc stands before one of smaller order. *)
Definition by_order (l : list proc) : Prop := ForallOrdPairs (fun p q => p_order p <= p_order q) l.
Lemma insert_by_order x l : by_order l -> by_order (insert_proc x l).
Proof.
  unfold by_order. induction l as [|y l IH]; cbn; intros H; [repeat constructor|]. inversion H as [|? ? Hy Hl]; subst. destruct (proc_ltb y x) eqn:E.
  - constructor; [|apply IH; exact Hl]. rewrite Forall_forall in *. intros z Hz. apply (Permutation_in _ (insert_perm x l)) in Hz. destruct Hz as [<-|Hz]; [|auto].
    unfold proc_ltb in E. apply orb_true_iff in E. destruct E as [E|E]; [apply Nat.ltb_lt in E; lia|]. apply andb_true_iff in E. destruct E as [E _]. apply Nat.eqb_eq in E. lia.
  - constructor; [|exact H]. assert (p_order x <= p_order y) as Hxy. { unfold proc_ltb in E. apply orb_false_iff in E. destruct E as [E _]. apply Nat.ltb_ge in E. exact E. }
    constructor; [exact Hxy|]. rewrite Forall_forall in *. intros z Hz. specialize (Hy z Hz). lia.
Qed.
Lemma sort_by_order l : by_order (sort_procs l).
Proof. induction l as [|x l IH]; cbn; [constructor|]. apply insert_by_order. exact IH. Qed.

Lemma ordpairs_app {A} (R : A -> A -> Prop) a p b : ForallOrdPairs R (a ++ p :: b) -> (forall x, In x a -> R x p) /\ (forall x, In x b -> R p x).
Proof.
  induction a as [|y a IH]; cbn; intros H; inversion H as [|? ? Hy Hl]; subst.
  - split; [intros x []|]. rewrite Forall_forall in Hy. exact Hy.
  - destruct (IH Hl) as [I1 I2]. split; [|exact I2]. intros x [<-|Hx]; [|auto]. rewrite Forall_forall in Hy. apply Hy, in_elt.
Qed.
Lemma ordpairs_perm {A} (R : A -> A -> Prop) l l' : (forall x y, R x y -> R y x) -> Permutation l l' -> ForallOrdPairs R l -> ForallOrdPairs R l'.
Proof.
  intros Hs Hp. induction Hp; intros H.
  - exact H.
  - inversion H as [|? ? Hx Hl]; subst. constructor; [eapply Permutation_Forall; eauto|auto].
  - inversion H as [|? ? Hx Hl]; subst. inversion Hl as [|? ? Hy Hl2]; subst. inversion Hx as [|? ? Hxy Hx2]; subst. constructor; [constructor; [auto|exact Hy]|]. constructor; assumption.
  - auto.
Qed.
Lemma coherent_perm l l' : Permutation l l' -> coherent l -> coherent l'.
Proof.
  intros Hp [C1 C2 C3 C4]. pose proof (Permutation_sym Hp) as Hp'. constructor.
  - eapply Permutation_Forall; eauto.
  - eapply ordpairs_perm; [|exact Hp|exact C2]. intros x y [[? ?]|?]; [left; auto|right; congruence].
  - intros p q Hin Hq. apply C3; eapply Permutation_in; eauto.
  - intros n t Hin. destruct (C4 n t) as (H1 & n' & b & H2 & H3); [eapply Permutation_in; eauto|]. split; [exact H1|]. exists n', b. split; [eapply Permutation_in; eauto|exact H3].
Qed.
Lemma room_perm l l' st : Permutation l l' -> room l st -> room l' st.
Proof.
  intros Hp [R1 R2 R3]. pose proof (Permutation_sym Hp) as Hp'. constructor; [| |exact R3].
  - intros p Hin. apply R1. eapply Permutation_in; eauto.
  - intros p c Hin. apply R2. eapply Permutation_in; eauto.
Qed.
Lemma laid_perm l l' st0 st : Permutation l l' -> laid l st0 st -> laid l' st0 st.
Proof.
  intros Hp [L1 L2 L3 L4 L5 L6 L7 L8]. pose proof (Permutation_sym Hp) as Hp'. pose proof (fun p => Permutation_in p Hp') as I'. pose proof (fun p => Permutation_in p Hp) as I.
  constructor; [intros n b H; apply L1; auto|intros n t H; apply L2; auto|intros n t H; apply L3; auto|intros p c H; apply (L4 p); auto| |exact L6|exact L7|intros p q H1 H2; apply L8; auto].
  intros c H1 H2. apply L5; intros p Hin; auto.
Qed.

(* ---- names ---- *)

Lemma proper_norm r l : Forall proper l -> normal r l.
Proof. intros H. exists 0, l. split; [reflexivity|]. split; [exact H|reflexivity]. Qed.
Lemma plain_render n : plain_name n -> n = render false (split_sep n) /\ split_sep n <> [].
Proof.
  intros H. assert (split_sep n <> []) as Hn. { intros E. pose proof (join_split n) as J. rewrite E in J. cbn in J. subst n. discriminate E. }
  split; [|exact Hn]. unfold render. destruct (split_sep n) eqn:E; [contradiction|]. rewrite <- E. symmetry. apply join_split.
Qed.
Lemma plain_kpath n : plain_name n -> kpath n = split_sep n.
Proof.
  intros H. destruct (plain_render n H) as [E _]. unfold kpath. assert (rooted n = false) as Hr by (rewrite E; apply rooted_render, proper_norm; exact H). rewrite Hr. rewrite E at 1. apply comps_render. apply proper_norm. exact H.
Qed.
Lemma plain_dir n : plain_name n -> dir n = render false (removelast (split_sep n)) /\ Forall proper (removelast (split_sep n)).
Proof.
  intros H. destruct (plain_render n H) as [E Hn]. destruct (exists_last Hn) as (r & x & Er). unfold plain_name in H. rewrite Er in *. apply Forall_app in H. destruct H as [Hr Hx]. apply Forall_inv in Hx. rewrite removelast_last. split; [|exact Hr].
  rewrite E at 1. apply dir_child; [apply proper_norm; exact Hr|exact Hx].
Qed.

(* ---- directories ---- *)

Lemma mk_dirs_ok rest : forall st cur, (forall a b, rest = a ++ b -> a <> [] -> k_at st (cur ++ a) = None \/ k_at st (cur ++ a) = Some KDir) ->
  exists st', mk_dirs st cur rest = Some st' /\ k_bytes st' = k_bytes st /\ k_next st' = k_next st /\
    (forall a b, rest = a ++ b -> a <> [] -> k_at st' (cur ++ a) = Some KDir) /\
    (forall c, (forall a b, rest = a ++ b -> a <> [] -> c <> cur ++ a) -> k_at st' c = k_at st c).
Proof.
  induction rest as [|x rest IH]; intros st cur H.
  - exists st. cbn. repeat split. intros a b E Ha. destruct a; [contradiction|discriminate].
  - cbn [mk_dirs]. assert (forall st1, (k_at st1 (cur ++ [x]) = Some KDir) -> k_bytes st1 = k_bytes st -> k_next st1 = k_next st -> (forall c, c <> cur ++ [x] -> k_at st1 c = k_at st c) ->
      exists st', mk_dirs st1 (cur ++ [x]) rest = Some st' /\ k_bytes st' = k_bytes st /\ k_next st' = k_next st /\
      (forall a b, x :: rest = a ++ b -> a <> [] -> k_at st' (cur ++ a) = Some KDir) /\
      (forall c, (forall a b, x :: rest = a ++ b -> a <> [] -> c <> cur ++ a) -> k_at st' c = k_at st c)) as Hgo.
    { intros st1 H1 Hb Hx Ho. destruct (IH st1 (cur ++ [x])) as (st' & I1 & I2 & I3 & I4 & I5).
      - intros a b E Ha. rewrite Ho; [|intros Eq; rewrite <- app_assoc in Eq; apply app_inv_head in Eq; cbn in Eq; destruct a; [contradiction|discriminate]].
        rewrite <- app_assoc. apply (H ([x] ++ a) b); [cbn; rewrite E; reflexivity|discriminate].
      - exists st'. split; [exact I1|]. split; [congruence|]. split; [congruence|]. split.
        + intros a b E Ha. destruct a as [|y a]; [contradiction|]. cbn in E. assert (x = y) as <- by congruence. destruct a as [|z a].
          * rewrite I5; [exact H1|]. intros a' b' _ Ha' Eq. rewrite <- app_nil_r in Eq at 1. apply app_inv_head in Eq. congruence.
          * change (cur ++ x :: z :: a) with (cur ++ [x] ++ (z :: a)). rewrite app_assoc. apply (I4 _ b); [congruence|discriminate].
        + intros c Hc. rewrite I5; [apply Ho; apply (Hc [x] rest); [reflexivity|discriminate]|]. intros a b E Ha. rewrite <- app_assoc. apply (Hc ([x] ++ a) b); [cbn; rewrite E; reflexivity|discriminate]. }
    destruct (H [x] rest) as [E|E]; [reflexivity|discriminate| |]; rewrite E; apply Hgo; cbn; auto.
    + destruct (list_eq_dec _ (cur ++ [x]) (cur ++ [x])); congruence.
    + intros c Hc. destruct (list_eq_dec _ c (cur ++ [x])); congruence.
Qed.

(* The directories a proc needs. *)
Definition needs (p : proc) (c : list (list byte)) : Prop := c <> [] /\ (over c (where_ p) \/ (isdir p /\ c = where_ p)).
Lemma over_irrefl c : ~ over c c.
Proof. intros (x & r & E). apply (f_equal (@length _)) in E. rewrite app_length in E. cbn in E. lia. Qed.
Lemma over_removelast a l : l <> [] -> (over a l <-> exists b, removelast l = a ++ b).
Proof.
  intros Hl. destruct (exists_last Hl) as (r & x & ->). rewrite removelast_last. split.
  - intros (y & s & E). destruct s as [|z s] using rev_ind; [apply app_inj_tail in E; destruct E as [-> _]; exists []; symmetry; apply app_nil_r|]. clear IHs. rewrite app_comm_cons, app_assoc in E. apply app_inj_tail in E. destruct E as [-> _]. eauto.
  - intros (b & ->). rewrite <- app_assoc. destruct b as [|y b]; [exists x, []|exists y, (b ++ [x])]; reflexivity.
Qed.

Lemma parent_made st p n : plain_name n -> where_ p = split_sep n -> ~ isdir p -> (forall c, needs p c -> k_at st c = None \/ k_at st c = Some KDir) ->
  exists st1, mkdir_parent st n = Some st1 /\ k_bytes st1 = k_bytes st /\ k_next st1 = k_next st /\
    (forall c, needs p c -> k_at st1 c = Some KDir) /\ (forall c, ~ needs p c -> k_at st1 c = k_at st c).
Proof.
  intros Hp Hw Hd Hn. destruct (plain_dir n Hp) as [Ed Hr]. destruct (plain_render n Hp) as [_ Hne]. unfold mkdir_parent. rewrite Ed.
  assert (forall c, needs p c <-> c <> [] /\ exists b, removelast (split_sep n) = c ++ b) as Hiff.
  { intros c. unfold needs. rewrite Hw, (over_removelast c _ Hne). split; [intros [H1 [H2|[H2 _]]]; [auto|contradiction]|intros [H1 H2]; auto]. }
  assert (kpath (render false (removelast (split_sep n))) = removelast (split_sep n)) as Ek.
  { unfold kpath. rewrite rooted_render by (apply proper_norm; exact Hr). apply comps_render, proper_norm. exact Hr. }
  destruct (is_dot (render false (removelast (split_sep n)))) eqn:Edot.
  - exists st. split; [reflexivity|]. split; [reflexivity|]. split; [reflexivity|]. split; [|reflexivity]. intros c Hc. exfalso. apply Hiff in Hc. destruct Hc as (Hc & b & E). apply is_dot_true in Edot. rewrite Edot in Ek. rewrite <- Ek in E. vm_compute in E. destruct c; [contradiction|discriminate].
  - unfold k_mkdir_all. rewrite Ek. destruct (mk_dirs_ok (removelast (split_sep n)) st []) as (st1 & I1 & I2 & I3 & I4 & I5).
    + intros a b E Ha. cbn. apply Hn, Hiff. eauto.
    + exists st1. split; [exact I1|]. split; [exact I2|]. split; [exact I3|]. split.
      * intros c Hc. apply Hiff in Hc. destruct Hc as (Hc & b & E). apply (I4 c b E Hc).
      * intros c Hc. apply I5. intros a b E Ha Eq. cbn in Eq. subst c. apply Hc, Hiff. eauto.
Qed.
Lemma parent_ok_made st p n : plain_name n -> where_ p = split_sep n -> (forall c, needs p c -> k_at st c = Some KDir) -> parent_ok st (kpath n) = true.
Proof.
  intros Hp Hw H. rewrite (plain_kpath n Hp). destruct (plain_render n Hp) as [_ Hne]. unfold parent_ok. destruct (split_sep n) as [|y l] eqn:E; [contradiction|]. rewrite <- E in *.
  destruct (removelast (split_sep n)) as [|z r] eqn:Er; [reflexivity|]. rewrite <- Er. rewrite (H (removelast (split_sep n))); [reflexivity|]. split; [congruence|left]. rewrite Hw. apply (over_removelast _ _ Hne). exists []. symmetry. apply app_nil_r.
Qed.

(* ---- one step ---- *)

(* What setting up [p] changes. *)
Record chg (p : proc) (st st' : kdisk) : Prop := {
  cg_dirs : forall c, needs p c -> k_at st' c = Some KDir;
  cg_else : forall c, ~ needs p c -> c <> where_ p -> k_at st' c = k_at st c;
  cg_bytes : forall f, f < k_next st -> k_bytes st' f = k_bytes st f;
  cg_leaf : match p with
            | PDir _ => k_next st' = k_next st
            | PFile n b => k_at st' (where_ p) = Some (KFile (k_next st)) /\ k_next st' = S (k_next st) /\ k_bytes st' (k_next st) = b
            | PSym n t => k_at st' (where_ p) = Some (KSym t) /\ k_next st' = k_next st
            | PLink n t => (exists f, k_at st (split_sep t) = Some (KFile f)) /\ k_at st' (where_ p) = k_at st (split_sep t) /\ k_next st' = k_next st
            end }.

Definition name_of (p : proc) : list byte := match p with PDir n | PFile n _ | PSym n _ | PLink n _ => n end.
Lemma not_needs_self p : ~ isdir p -> ~ needs p (where_ p).
Proof. intros Hd [_ [H|[H _]]]; [exact (over_irrefl _ H)|contradiction]. Qed.

Lemma step_chg st p : plain_name (name_of p) -> (forall c, needs p c -> k_at st c = None \/ k_at st c = Some KDir) -> (~ isdir p -> k_at st (where_ p) = None) ->
  (forall n t, p = PLink n t -> plain_name t /\ exists f, k_at st (split_sep t) = Some (KFile f)) ->
  exists st', setup1 st p = Some st' /\ chg p st st'.
Proof.
  intros Hp Hn Hfree Hl. destruct p as [n|n b|n t|n t]; cbn [name_of] in Hp; cbn [setup1].
  - unfold k_mkdir_all. rewrite (plain_kpath n Hp). destruct (mk_dirs_ok (split_sep n) st []) as (st1 & I1 & I2 & I3 & I4 & I5).
    + intros a b E Ha. cbn. apply Hn. split; [exact Ha|]. cbn. destruct b as [|x b]; [right; split; [exact I|rewrite E; symmetry; apply app_nil_r]|left; exists x, b; exact E].
    + exists st1. split; [exact I1|]. constructor.
      * intros c (Hc & Ho). cbn in Ho. destruct Ho as [(x & r & E)|[_ ->]]; [apply (I4 c (x :: r) E Hc)|apply (I4 _ []); [symmetry; apply app_nil_r|exact Hc]].
      * intros c Hc Hw. apply I5. intros a b E Ha Eq. cbn in Eq. subst c. apply Hc. split; [exact Ha|]. cbn. destruct b as [|x b]; [right; split; [exact I|rewrite E; symmetry; apply app_nil_r]|left; exists x, b; exact E].
      * intros f _. rewrite I2. reflexivity.
      * exact I3.
  - specialize (Hfree (fun H => H)). destruct (parent_made st (PFile n b) n Hp eq_refl (fun H => H) Hn) as (st1 & E1 & Eb & En & M1 & M2). rewrite E1.
    unfold k_create. rewrite (parent_ok_made st1 (PFile n b) n Hp eq_refl M1). cbn [negb]. rewrite (plain_kpath n Hp). assert (k_at st1 (split_sep n) = None) as Hf by (rewrite M2; [exact Hfree|apply (not_needs_self (PFile n b)); exact (fun H => H)]). rewrite Hf.
    eexists. split; [reflexivity|]. constructor; cbn [k_at k_bytes k_next kset kwrite].
    + intros c Hc. destruct (list_eq_dec _ c (split_sep n)) as [->|]; [destruct (not_needs_self (PFile n b) (fun H => H) Hc)|]. apply M1. exact Hc.
    + intros c Hc Hw. destruct (list_eq_dec _ c (split_sep n)) as [->|]; [destruct (Hw eq_refl)|]. apply M2. exact Hc.
    + intros f Hlt. rewrite En. assert (Nat.eqb f (k_next st) = false) as -> by (apply Nat.eqb_neq; lia). rewrite Eb. reflexivity.
    + cbn [where_]. rewrite En, Nat.eqb_refl. cbn [app]. destruct (list_eq_dec _ (split_sep n) (split_sep n)); [|contradiction]. auto.
  - specialize (Hfree (fun H => H)). destruct (parent_made st (PSym n t) n Hp eq_refl (fun H => H) Hn) as (st1 & E1 & Eb & En & M1 & M2). rewrite E1.
    unfold k_symlink. rewrite (parent_ok_made st1 (PSym n t) n Hp eq_refl M1). cbn [negb]. rewrite (plain_kpath n Hp). assert (k_at st1 (split_sep n) = None) as Hf by (rewrite M2; [exact Hfree|apply (not_needs_self (PSym n t)); exact (fun H => H)]). rewrite Hf.
    eexists. split; [reflexivity|]. constructor; cbn [k_at k_bytes k_next kset kwrite].
    + intros c Hc. destruct (list_eq_dec _ c (split_sep n)) as [->|]; [destruct (not_needs_self (PSym n t) (fun H => H) Hc)|]. apply M1. exact Hc.
    + intros c Hc Hw. destruct (list_eq_dec _ c (split_sep n)) as [->|]; [destruct (Hw eq_refl)|]. apply M2. exact Hc.
    + intros f Hlt. rewrite Eb. reflexivity.
    + cbn [where_]. destruct (list_eq_dec _ (split_sep n) (split_sep n)); [|contradiction]. auto.
  - specialize (Hfree (fun H => H)). destruct (Hl n t eq_refl) as (Hpt & f & Hft). destruct (parent_made st (PLink n t) n Hp eq_refl (fun H => H) Hn) as (st1 & E1 & Eb & En & M1 & M2). rewrite E1.
    unfold k_link. rewrite (parent_ok_made st1 (PLink n t) n Hp eq_refl M1). cbn [negb]. rewrite (plain_kpath n Hp), (plain_kpath t Hpt). assert (k_at st1 (split_sep n) = None) as Hf by (rewrite M2; [exact Hfree|apply (not_needs_self (PLink n t)); exact (fun H => H)]). rewrite Hf.
    assert (k_at st1 (split_sep t) = Some (KFile f)) as Ht. { rewrite M2; [exact Hft|]. intros Hc. destruct (Hn _ Hc); congruence. } rewrite Ht.
    eexists. split; [reflexivity|]. constructor; cbn [k_at k_bytes k_next kset kwrite].
    + intros c Hc. destruct (list_eq_dec _ c (split_sep n)) as [->|]; [destruct (not_needs_self (PLink n t) (fun H => H) Hc)|]. apply M1. exact Hc.
    + intros c Hc Hw. destruct (list_eq_dec _ c (split_sep n)) as [->|]; [destruct (Hw eq_refl)|]. apply M2. exact Hc.
    + intros g Hlt. rewrite Eb. reflexivity.
    + cbn [where_]. destruct (list_eq_dec _ (split_sep n) (split_sep n)); [|contradiction]. rewrite Hft. eauto.
Qed.

Definition pdec : forall a b : list (list byte), {a = b} + {a <> b} := list_eq_dec (list_eq_dec N.eq_dec).
Lemma over_dec a b : {over a b} + {~ over a b}.
Proof.
  revert b. induction a as [|x a IH]; intros b.
  - destruct b as [|y b]; [right; intros (z & r & E); discriminate|left; exists y, b; reflexivity].
  - destruct b as [|y b]; [right; intros (z & r & E); discriminate|]. destruct (list_eq_dec N.eq_dec x y) as [->|Hn].
    + destruct (IH b) as [H|H]; [left; destruct H as (z & r & ->); exists z, r; reflexivity|right; intros (z & r & E); apply H; exists z, r; cbn in E; congruence].
    + right. intros (z & r & E). cbn in E. congruence.
Qed.
Lemma isdir_dec p : {isdir p} + {~ isdir p}.
Proof. destruct p; cbn; auto. Qed.
Lemma needs_dec p c : {needs p c} + {~ needs p c}.
Proof.
  unfold needs. destruct (pdec c []) as [->|Hc]; [right; intros [H _]; apply H; reflexivity|].
  destruct (over_dec c (where_ p)) as [H|H]; [left; auto|]. destruct (isdir_dec p) as [Hd|Hd]; [|right; intros [_ [H1|[H1 _]]]; contradiction].
  destruct (pdec c (where_ p)) as [E|E]; [left; auto|right; intros [_ [H1|[_ H1]]]; contradiction].
Qed.

Definition inv (ps : list proc) (st0 st : kdisk) : Prop :=
  laid ps st0 st /\ (forall c f, k_at st c = Some (KFile f) -> f < k_next st) /\ k_next st0 <= k_next st.

Lemma where_nonempty p : where_ p <> [].
Proof.
  assert (forall n, split_sep n <> []) as H. { intros n E. pose proof (join_split n) as J. rewrite E in J. cbn in J. subst n. discriminate E. }
  destruct p; apply H.
Qed.

Lemma setup_step ps st0 done p rest st : coherent ps -> room ps st0 -> ps = done ++ p :: rest ->
  (forall n t, In (PLink n t) (done ++ [p]) -> exists n' b, In (PFile n' b) done /\ split_sep n' = split_sep t) ->
  inv done st0 st -> exists st', setup1 st p = Some st' /\ inv (done ++ [p]) st0 st'.
Proof.
  intros [C1 C2 C3 C4] [R1 R2 R3] E Hlk ([L1 L2 L3 L4 L5 L6 L7 L8] & Hlt & Hle).
  assert (In p ps) as Hinp by (rewrite E; apply in_elt). assert (forall q, In q done -> In q ps) as Hind by (intros q Hq; rewrite E; apply in_app_iff; auto).
  assert (forall q, In q done -> isdir q /\ isdir p \/ where_ q <> where_ p) as Honce by (rewrite E in C2; apply (proj1 (ordpairs_app _ _ _ _ C2))).
  (* what is there before *)
  assert (forall q c, In q done -> ~ isdir q -> needs p c -> c <> where_ q) as Hleafq.
  { intros q c Hq Hd [Hc Ho] ->. destruct Ho as [Ho|[Hdp Ho]]; [exact (C3 q p (Hind q Hq) Hinp Hd Ho)|]. destruct (Honce q Hq) as [[H _]|H]; [contradiction|congruence]. }
  assert (forall c, needs p c -> k_at st c = None \/ k_at st c = Some KDir) as Hn.
  { intros c Hc. destruct (Exists_dec (fun q => needs q c) done (fun q => needs_dec q c)) as [Hx|Hx].
    - apply Exists_exists in Hx. destruct Hx as (q & Hq & Hnq). right. destruct Hnq as [H1 H2]. exact (L4 q c Hq H1 H2).
    - rewrite L5.
      + destruct Hc as [H1 H2]. exact (R2 p c Hinp H1 H2).
      + intros q Hq Eq. destruct (isdir_dec q) as [Hd|Hd]; [|exact (Hleafq q c Hq Hd Hc (eq_sym Eq))]. apply Hx, Exists_exists. exists q. split; [exact Hq|]. split; [apply Hc|right; auto].
      + intros q Hq Hc0 Ho. apply Hx, Exists_exists. exists q. split; [exact Hq|]. split; auto. }
  assert (~ isdir p -> k_at st (where_ p) = None) as Hfree.
  { intros Hd. rewrite L5; [exact (R1 p Hinp Hd)| |].
    - intros q Hq. destruct (Honce q Hq) as [[_ H]|H]; [contradiction|exact H].
    - intros q Hq _ Ho. exact (C3 p q Hinp (Hind q Hq) Hd Ho). }
  assert (plain_name (name_of p)) as Hpl. { rewrite Forall_forall in C1. specialize (C1 p Hinp). destruct p; exact C1. }
  destruct (step_chg st p Hpl Hn Hfree) as (st' & E1 & [G1 G2 G3 G4]).
  { intros n t ->. destruct (C4 n t Hinp) as (Hpt & _). split; [exact Hpt|]. destruct (Hlk n t (in_elt _ _ _)) as (n' & b & Hin & Es). destruct (L1 n' b Hin) as (f & Hf & _). rewrite <- Es. eauto. }
  exists st'. split; [exact E1|].
  (* leaves of before are left alone *)
  assert (forall q, In q done -> ~ isdir q -> k_at st' (where_ q) = k_at st (where_ q)) as Hkeep.
  { intros q Hq Hd. apply G2; [intros Hc; exact (Hleafq q _ Hq Hd Hc eq_refl)|]. destruct (Honce q Hq) as [[H _]|H]; [contradiction|exact H]. }
  assert (k_next st <= k_next st') as Hmono by (destruct p; cbn in G4; [lia|destruct G4 as (_ & H & _); lia|destruct G4 as (_ & H); lia|destruct G4 as (_ & _ & H); lia]).
  assert (forall c, c <> where_ p -> needs p c \/ k_at st' c = k_at st c) as Hwh by (intros c Hc; destruct (needs_dec p c); [auto|right; apply G2; auto]).
  split; [|split].
  - constructor.
    + intros n b Hin. apply in_app_iff in Hin. destruct Hin as [Hin|[Ep|[]]].
      * destruct (L1 n b Hin) as (f & Hf & Hb & Hge). exists f. pose proof (Hkeep _ Hin (fun H => H)) as K. cbn [where_] in K. rewrite K. split; [exact Hf|]. split; [|exact Hge]. rewrite G3; [exact Hb|eapply Hlt; exact Hf].
      * subst p. cbn in G4. destruct G4 as (H1 & H2 & H3). exists (k_next st). auto.
    + intros n t Hin. apply in_app_iff in Hin. destruct Hin as [Hin|[Ep|[]]].
      * pose proof (Hkeep _ Hin (fun H => H)) as K. cbn [where_] in K. rewrite K. auto.
      * subst p. apply G4.
    + intros n t Hin. assert (forall n' b, In (PFile n' b) done -> split_sep n' = split_sep t -> k_at st' (split_sep t) = k_at st (split_sep t)) as Kt.
      { intros n' b Hin' Es. pose proof (Hkeep _ Hin' (fun H => H)) as K. cbn [where_] in K. rewrite Es in K. exact K. }
      destruct (Hlk n t Hin) as (n' & b & Hin' & Es). rewrite (Kt n' b Hin' Es).
      apply in_app_iff in Hin. destruct Hin as [Hin|[Ep|[]]].
      * pose proof (Hkeep _ Hin (fun H => H)) as K. cbn [where_] in K. rewrite K. auto.
      * subst p. apply G4.
    + intros q c Hin Hc Ho. apply in_app_iff in Hin. destruct Hin as [Hin|[<-|[]]]; [|apply G1; split; assumption].
      pose proof (L4 q c Hin Hc Ho) as Hd. destruct (pdec c (where_ p)) as [->|Hw]; [|destruct (Hwh c Hw) as [H|H]; [apply G1; exact H|congruence]].
      destruct (isdir_dec p) as [Hdp|Hdp]; [apply G1; split; [exact Hc|right; auto]|]. rewrite (Hfree Hdp) in Hd. discriminate.
    + intros c H1 H2. rewrite G2.
      * apply L5; intros q Hq; [apply H1|apply H2]; apply in_app_iff; auto.
      * intros [Hc [Ho|[_ Ho]]]; [apply (H2 p); [apply in_elt|exact Hc|exact Ho]|apply (H1 p); [apply in_elt|congruence]].
      * apply not_eq_sym. apply H1. apply in_elt.
    + rewrite G2; [exact L6|intros [H _]; apply H; reflexivity|apply not_eq_sym, where_nonempty].
    + intros f Hf. rewrite G3 by lia. auto.
    + intros q q' Hq Hq' Fq Fq' Hne. assert (forall q, isfile q -> ~ isdir q) as Hfd by (intros [] H; cbn in *; auto).
      apply in_app_iff in Hq, Hq'. destruct Hq as [Hq|[<-|[]]], Hq' as [Hq'|[<-|[]]].
      * rewrite (Hkeep q Hq (Hfd q Fq)), (Hkeep q' Hq' (Hfd q' Fq')). auto.
      * rewrite (Hkeep q Hq (Hfd q Fq)). destruct p as [|n b| |]; try contradiction. destruct G4 as (H1 & _). rewrite H1. intros H. apply Hlt in H. lia.
      * rewrite (Hkeep q' Hq' (Hfd q' Fq')). destruct p as [|n b| |]; try contradiction. destruct G4 as (H1 & _). rewrite H1. intros H. symmetry in H. apply Hlt in H. lia.
      * contradiction.
  - intros c f Hf. destruct (pdec c (where_ p)) as [->|Hc].
    + destruct p as [n|n b|n t|n t]; cbn [isdir] in *.
      * rewrite G1 in Hf; [discriminate|]. split; [apply where_nonempty|right; split; [exact I|reflexivity]].
      * destruct G4 as (H1 & H2 & _). rewrite H1 in Hf. assert (f = k_next st) by congruence. lia.
      * destruct G4 as (H1 & _). congruence.
      * destruct G4 as (_ & H1 & H2). rewrite H1 in Hf. apply Hlt in Hf. lia.
    + destruct (Hwh c Hc) as [H|H]; [rewrite (G1 c H) in Hf; discriminate|]. rewrite H in Hf. apply Hlt in Hf. lia.
  - lia.
Qed.

(* ---- all of them ---- *)

Definition files_first (ps : list proc) : Prop :=
  forall a n t b, ps = a ++ PLink n t :: b -> exists n' c, In (PFile n' c) a /\ split_sep n' = split_sep t.
Lemma run_all ps st0 : coherent ps -> room ps st0 -> files_first ps -> forall rest done st, ps = done ++ rest -> inv done st0 st ->
  exists st', setup_in_order st rest = Some st' /\ inv ps st0 st'.
Proof.
  intros Hc Hr Hf. induction rest as [|p rest IH]; intros done st E Hi.
  - rewrite app_nil_r in E. subst done. exists st. auto.
  - destruct (setup_step ps st0 done p rest st Hc Hr E) as (st1 & E1 & Hi1); [|exact Hi|].
    + intros n t Hin. apply in_app_iff in Hin. destruct Hin as [Hin|[->|[]]].
      * apply in_split in Hin. destruct Hin as (a & b & ->). destruct (Hf a n t (b ++ p :: rest)) as (n' & c & H1 & H2); [rewrite E, <- app_assoc; reflexivity|]. exists n', c. split; [apply in_app_iff; auto|exact H2].
      * exact (Hf done n t rest E).
    + cbn [setup_in_order]. rewrite E1. apply (IH (done ++ [p])); [rewrite <- app_assoc; exact E|exact Hi1].
Qed.
Lemma laid_nothing st : laid [] st st.
Proof. constructor; try (intros; contradiction); reflexivity. Qed.

Lemma sorted_files_first ps : coherent ps -> files_first (sort_procs ps).
Proof.
  intros Hc a n t b E. pose proof (coherent_perm _ _ (Permutation_sym (sort_perm ps)) Hc) as [_ _ _ C4]. destruct (C4 n t) as (_ & n' & c & Hin & Es); [rewrite E; apply in_elt|].
  exists n', c. split; [|exact Es]. rewrite E in Hin. apply in_app_iff in Hin. destruct Hin as [Hin|[Hin|Hin]]; [exact Hin|discriminate|]. exfalso.
  pose proof (sort_by_order ps) as Ho. unfold by_order in Ho. rewrite E in Ho. pose proof (proj2 (ordpairs_app _ _ _ _ Ho) _ Hin) as H. cbn in H. lia.
Qed.

Lemma setup_lays ps st0 : coherent ps -> room ps st0 -> exists st, setup st0 ps = Some st /\ laid ps st0 st.
Proof.
  intros Hc Hr. pose proof (sort_perm ps) as Hp. pose proof (Permutation_sym Hp) as Hp'.
  destruct (run_all (sort_procs ps) st0 (coherent_perm _ _ Hp' Hc) (room_perm _ _ _ Hp' Hr) (sorted_files_first ps Hc) (sort_procs ps) [] st0 eq_refl) as (st & E & (Hl & _)).
  - split; [apply laid_nothing|]. split; [apply Hr|lia].
  - exists st. split; [exact E|]. exact (laid_perm _ _ _ _ Hp Hl).
Qed.

Lemma place_cases ps st0 c : coherent ps ->
  (exists n b, In (PFile n b) ps /\ forall st, laid ps st0 st -> k_at st c = k_at st (split_sep n)) \/
  (exists t, forall st, laid ps st0 st -> k_at st c = Some (KSym t)) \/
  (forall st, laid ps st0 st -> k_at st c = Some KDir) \/
  (forall st, laid ps st0 st -> k_at st c = k_at st0 c).
Proof.
  intros Hc. destruct (Exists_dec (fun q => needs q c) ps (fun q => needs_dec q c)) as [Hx|Hx].
  - apply Exists_exists in Hx. destruct Hx as (q & Hq & H1 & H2). right. right. left. intros st Hl. exact (la_dir _ _ _ Hl q c Hq H1 H2).
  - destruct (Exists_dec (fun q => where_ q = c) ps (fun q => pdec _ _)) as [Hw|Hw].
    + apply Exists_exists in Hw. destruct Hw as (q & Hq & <-). destruct q as [n|n b|n t|n t].
      * exfalso. apply Hx, Exists_exists. exists (PDir n). split; [exact Hq|]. split; [apply where_nonempty|right; split; [exact I|reflexivity]].
      * left. exists n, b. split; [exact Hq|]. reflexivity.
      * right. left. exists t. intros st Hl. exact (la_sym _ _ _ Hl n t Hq).
      * left. destruct (co_links _ Hc n t Hq) as (_ & n' & b & Hin & Es). exists n', b. split; [exact Hin|]. intros st Hl. rewrite Es. exact (la_link _ _ _ Hl n t Hq).
    + right. right. right. intros st Hl. apply (la_else _ _ _ Hl).
      * intros p Hin E. apply Hw, Exists_exists. eauto.
      * intros p Hin Hne Ho. apply Hx, Exists_exists. exists p. split; [exact Hin|]. split; auto.
Qed.

Lemma laid_same ps st0 a b : coherent ps -> room ps st0 -> laid ps st0 a -> laid ps st0 b -> same_tree a b.
Proof.
  intros Hc Hr Ha Hb. split.
  - intros c. destruct (place_cases ps st0 c Hc) as [(n & x & Hin & E)|[(t & E)|[E|E]]]; rewrite (E a Ha), (E b Hb).
    + destruct (la_file _ _ _ Ha n x Hin) as (f & -> & <- & _). destruct (la_file _ _ _ Hb n _ Hin) as (g & -> & Eg & _). congruence.
    + reflexivity.
    + exact I.
    + destruct (k_at st0 c) as [[|f|t]|] eqn:E0; try reflexivity; try exact I. pose proof (rm_next _ _ Hr c f E0). rewrite (la_old _ _ _ Ha f), (la_old _ _ _ Hb f) by assumption. reflexivity.
  - intros c c' f f' g g' Ef Ef' Eg Eg'.
    assert (forall st n x f, laid ps st0 st -> In (PFile n x) ps -> k_at st (split_sep n) = Some (KFile f) -> k_next st0 <= f) as Hnew.
    { intros st n x h Hl Hin Eh. destruct (la_file _ _ _ Hl n x Hin) as (h' & E1 & _ & H). assert (h = h') as -> by congruence. exact H. }
    assert (forall st n x n' x' f f', laid ps st0 st -> In (PFile n x) ps -> In (PFile n' x') ps -> k_at st (split_sep n) = Some (KFile f) -> k_at st (split_sep n') = Some (KFile f') -> (f = f' <-> split_sep n = split_sep n')) as Hap.
    { intros st n x n' x' h h' Hl H1 H2 E1 E2. split; [|intros Es; rewrite Es in E1; congruence]. intros <-. destruct (pdec (split_sep n) (split_sep n')) as [|Hne]; [assumption|]. destruct (la_apart _ _ _ Hl (PFile n x) (PFile n' x') H1 H2 I I Hne). cbn. congruence. }
    destruct (place_cases ps st0 c Hc) as [(n & x & Hin & E)|[(t & E)|[E|E]]]; rewrite (E a Ha) in Ef; rewrite (E b Hb) in Eg; try discriminate;
    (destruct (place_cases ps st0 c' Hc) as [(n' & x' & Hin' & E')|[(t' & E')|[E'|E']]]; rewrite (E' a Ha) in Ef'; rewrite (E' b Hb) in Eg'; try discriminate).
    + rewrite (Hap a n x n' x' f f' Ha Hin Hin' Ef Ef'), (Hap b n x n' x' g g' Hb Hin Hin' Eg Eg'). reflexivity.
    + pose proof (Hnew a n x f Ha Hin Ef). pose proof (Hnew b n x g Hb Hin Eg). pose proof (rm_next _ _ Hr _ _ Ef'). pose proof (rm_next _ _ Hr _ _ Eg'). split; lia.
    + pose proof (Hnew a n' x' f' Ha Hin' Ef'). pose proof (Hnew b n' x' g' Hb Hin' Eg'). pose proof (rm_next _ _ Hr _ _ Ef). pose proof (rm_next _ _ Hr _ _ Eg). split; lia.
    + assert (f = g) as -> by congruence. assert (f' = g') as -> by congruence. reflexivity.
Qed.

Lemma setup_any_order ps ps' st0 : coherent ps -> room ps st0 -> Permutation ps ps' ->
  exists st st', setup st0 ps = Some st /\ setup st0 ps' = Some st' /\ same_tree st st'.
Proof.
  intros Hc Hr Hp. destruct (setup_lays ps st0 Hc Hr) as (st & E & Hl). destruct (setup_lays ps' st0 (coherent_perm _ _ Hp Hc) (room_perm _ _ _ Hp Hr)) as (st' & E' & Hl').
  exists st, st'. split; [exact E|]. split; [exact E'|]. apply (laid_same ps st0); auto. exact (laid_perm _ _ _ _ (Permutation_sym Hp) Hl').
Qed.

(* ---- lines ---- *)

Lemma parse_lines_iff uq ls ps : parse_lines uq ls = Some ps <-> Forall2 (line_of uq) ls ps.
Proof.
  revert ps. induction ls as [|l ls IH]; intros ps; cbn.
  - split; [intros H; apply some_inj in H; subst; constructor|intros H; inversion H; reflexivity].
  - split.
    + destruct (parse_line uq l) as [p|] eqn:E; [|discriminate]. destruct (parse_lines uq ls) as [qs|] eqn:E2; [|discriminate]. intros H. apply some_inj in H. subst ps. constructor; [apply parse_iff; exact E|apply IH; reflexivity].
    + intros H. inversion H; subst. match goal with H : line_of _ _ _ |- _ => apply parse_iff in H; rewrite H end. match goal with H : Forall2 _ ls _ |- _ => apply IH in H; rewrite H end. reflexivity.
Qed.
Lemma lines_lay uq ls ps st0 : Forall2 (line_of uq) ls ps -> coherent ps -> room ps st0 -> exists st, setup_lines uq st0 ls = Some st /\ laid ps st0 st.
Proof. intros H Hc Hr. apply parse_lines_iff in H. unfold setup_lines. rewrite H. apply setup_lays; assumption. Qed.
Lemma lines_refused uq ls st0 : (forall ps, ~ Forall2 (line_of uq) ls ps) -> setup_lines uq st0 ls = None.
Proof. intros H. unfold setup_lines. destruct (parse_lines uq ls) as [ps|] eqn:E; [|reflexivity]. apply parse_lines_iff in E. destruct (H ps E). Qed.

(* ---- the order ---- *)

Lemma lex_ltb a b : lex a b <-> str_ltb a b = true.
Proof.
  revert b. induction a as [|x a IH]; intros [|y b]; cbn.
  - split; [intros H; inversion H|discriminate].
  - split; [reflexivity|constructor].
  - split; [intros H; inversion H|discriminate].
  - rewrite orb_true_iff, andb_true_iff, N.ltb_lt, N.eqb_eq, <- IH. split.
    + intros H. inversion H; subst; auto.
    + intros [H|[-> H]]; [apply lex_lt; exact H|apply lex_eq; exact H].
Qed.
Lemma split_count n : length (split_sep n) = S (length (filter (N.eqb sep) n)).
Proof.
  induction n as [|c n IH]; [reflexivity|]. cbn [split_sep filter]. rewrite (N.eqb_sym sep c). destruct (N.eqb c sep); cbn [length]; [rewrite IH; reflexivity|]. destruct (split_sep n); cbn in *; lia.
Qed.
Lemma plain_depth n : plain_name n -> path_depth n = length (split_sep n).
Proof.
  intros H. destruct (plain_render n H) as [E Hn]. assert (clean n = n) as Ec.
  { change (clean n) with (render (rooted n) (kpath n)). rewrite (plain_kpath n H). rewrite E at 1. rewrite rooted_render by (apply proper_norm; exact H). symmetry. exact E. }
  unfold path_depth. rewrite Ec. destruct (is_dot n) eqn:Ed; [|symmetry; apply split_count]. apply is_dot_true in Ed. subst n. apply Forall_inv in H. destruct H as (_ & H & _). destruct (H eq_refl).
Qed.
Lemma where_called p : where_ p = split_sep (called p).
Proof. destruct p; reflexivity. Qed.
Lemma kind_order p : p_order p = kind p.
Proof. destruct p; reflexivity. Qed.
Lemma called_path p : p_path p = called p.
Proof. destruct p; reflexivity. Qed.
Lemma first_ltb p q : plain_name (called p) -> plain_name (called q) -> (proc_ltb p q = true <-> goes_first p q).
Proof.
  intros Hp Hq. unfold proc_ltb, goes_first. rewrite (kind_order p), (kind_order q), (called_path p), (called_path q), (plain_depth _ Hp), (plain_depth _ Hq), (where_called p), (where_called q).
  rewrite !orb_true_iff, !andb_true_iff, !orb_true_iff, !andb_true_iff, !Nat.ltb_lt, !Nat.eqb_eq, lex_ltb. reflexivity.
Qed.
Lemma first_trans p q r : goes_first p q -> ~ goes_first r q -> goes_first p r.
Proof.
  unfold goes_first. intros H1 H2. assert (~ lex (called r) (called q) -> lex (called p) (called q) -> lex (called p) (called r)) as Hl.
  { rewrite !lex_ltb. generalize (called p) (called q) (called r). clear. intros a b c. revert b c. induction a as [|x a IH]; intros [|y b] [|z c]; cbn; try congruence.
    - rewrite !orb_true_iff, !andb_true_iff, !N.ltb_lt, !N.eqb_eq. intros H [H3|[-> H3]].
      + destruct (N.lt_trichotomy x z) as [|[->|]]; [auto| |]; exfalso; apply H; left; lia.
      + destruct (N.lt_trichotomy y z) as [|[->|]]; [auto| |exfalso; apply H; left; lia]. right. split; [reflexivity|]. apply (IH b c); [|exact H3]. intros H4. apply H. right. auto. }
  destruct H1 as [H1|[H1 [H3|[H3 H4]]]].
  - left. destruct (Nat.lt_ge_cases (kind r) (kind q)); [exfalso; apply H2; auto|lia].
  - destruct (Nat.lt_trichotomy (kind r) (kind q)) as [|[Ek|]]; [exfalso; apply H2; auto| |left; lia]. right. split; [congruence|].
    destruct (Nat.lt_ge_cases (length (where_ r)) (length (where_ q))); [exfalso; apply H2; right; split; [exact Ek|left; assumption]|left; lia].
  - destruct (Nat.lt_trichotomy (kind r) (kind q)) as [|[Ek|]]; [exfalso; apply H2; auto| |left; lia]. right. split; [congruence|].
    destruct (Nat.lt_trichotomy (length (where_ r)) (length (where_ q))) as [|[El|]]; [exfalso; apply H2; right; split; [exact Ek|left; assumption]| |left; lia].
    right. split; [congruence|]. apply Hl; [|exact H4]. intros H5. apply H2. right. split; [exact Ek|]. right. auto.
Qed.
Lemma lex_irrefl a : ~ lex a a.
Proof. induction a; intros H; inversion H; subst; [lia|contradiction]. Qed.
Lemma first_irrefl p : ~ goes_first p p.
Proof. unfold goes_first. intros [H|[_ [H|[_ H]]]]; [lia|lia|exact (lex_irrefl _ H)]. Qed.

Lemma lex_asym a : forall b, lex a b -> ~ lex b a.
Proof. induction a as [|x a IH]; intros b H H2; inversion H; subst; inversion H2; subst; try lia. exact (IH _ H1 H4) || (eapply IH; eassumption). Qed.
Lemma first_asym p q : goes_first p q -> ~ goes_first q p.
Proof. unfold goes_first. intros [H|[K [H|[L H]]]] [H2|[K2 [H2|[L2 H2]]]]; try lia. exact (lex_asym _ _ H H2). Qed.
Definition names_plain (ps : list proc) : Prop := Forall (fun p => plain_name (called p)) ps.
Definition in_turn (ps : list proc) : Prop := ForallOrdPairs (fun p q => ~ goes_first q p) ps.
Lemma insert_turn x l : plain_name (called x) -> names_plain l -> in_turn l -> in_turn (insert_proc x l).
Proof.
  unfold in_turn. intros Hx. induction l as [|y l IH]; cbn; intros Hp H; [repeat constructor|]. inversion Hp as [|? ? Py Pl]; subst. inversion H as [|? ? Hy Hl]; subst. destruct (proc_ltb y x) eqn:E.
  - constructor; [|auto]. rewrite Forall_forall in *. intros z Hz. apply (Permutation_in _ (insert_perm x l)) in Hz. destruct Hz as [<-|Hz]; [|auto].
    apply (first_ltb y x Py Hx) in E. intros H2. exact (first_asym _ _ E H2).
  - assert (~ goes_first y x) as Hyx by (intros H2; apply (first_ltb y x Py Hx) in H2; congruence). constructor; [|exact H]. constructor; [exact Hyx|].
    rewrite Forall_forall in *. intros z Hz H2. apply (Hy z Hz). exact (first_trans z x y H2 Hyx).
Qed.
Lemma sort_turn ps : names_plain ps -> in_turn (sort_procs ps).
Proof.
  induction ps as [|x ps IH]; intros Hp; cbn; [constructor|]. inversion Hp as [|? ? Hx Hl]; subst. apply insert_turn; [exact Hx| |auto]. unfold names_plain. eapply Permutation_Forall; [apply Permutation_sym, sort_perm|exact Hl].
Qed.
Lemma sort_stable n k ps : plain_name n -> names_plain ps -> filter (alike n k) (sort_procs ps) = filter (alike n k) ps.
Proof.
  intros Hn. induction ps as [|x ps IH]; intros Hp; [reflexivity|]. inversion Hp as [|? ? Hx Hl]; subst. cbn [sort_procs fold_right]. change (fold_right insert_proc [] ps) with (sort_procs ps). cbn [filter]. rewrite <- (IH Hl).
  assert (names_plain (sort_procs ps)) as Hs by (unfold names_plain; eapply Permutation_Forall; [apply Permutation_sym, sort_perm|exact Hl]). clear IH. induction (sort_procs ps) as [|y l IHl]; cbn [insert_proc filter]; [reflexivity|].
  inversion Hs as [|? ? Hy Hs2]; subst. specialize (IHl Hs2). destruct (proc_ltb y x) eqn:E; [|reflexivity]. cbn [filter]. rewrite IHl. destruct (alike n k x) eqn:Ax; [|reflexivity]. destruct (alike n k y) eqn:Ay; [|reflexivity]. exfalso.
  unfold alike in Ax, Ay. apply andb_true_iff in Ax, Ay. destruct Ax as [X1 X2], Ay as [Y1 Y2]. destruct (list_eq_dec N.eq_dec (called x) n) as [Ex|]; [|discriminate]. destruct (list_eq_dec N.eq_dec (called y) n) as [Ey|]; [|discriminate]. apply Nat.eqb_eq in X2, Y2.
  apply (first_ltb y x Hy Hx) in E. unfold goes_first in E. rewrite !where_called, Ex, Ey in E. destruct E as [E|[_ [E|[_ E]]]]; [lia|lia|exact (lex_irrefl _ E)].
Qed.
Lemma setup_order ps st : names_plain ps -> exists qs, Permutation ps qs /\ ForallOrdPairs (fun p q => ~ goes_first q p) qs /\
  (forall n k, plain_name n -> filter (alike n k) qs = filter (alike n k) ps) /\ setup st ps = setup_in_order st qs.
Proof.
  intros Hp. exists (sort_procs ps). split; [apply Permutation_sym, sort_perm|]. split; [apply sort_turn; exact Hp|]. split; [intros n k Hn; apply sort_stable; assumption|reflexivity].
Qed.

(* ---- what is in the way stays in the way ---- *)

Lemma mk_dirs_keeps rest : forall st cur st' c n, mk_dirs st cur rest = Some st' -> k_at st c = Some n -> k_at st' c = Some n.
Proof.
  induction rest as [|x rest IH]; intros st cur st' c n H Hc; cbn in H; [congruence|]. destruct (k_at st (cur ++ [x])) as [[]|] eqn:E; try discriminate; [eapply IH; eauto|].
  eapply IH; [exact H|]. cbn. destruct (list_eq_dec _ c (cur ++ [x])); [congruence|exact Hc].
Qed.
Lemma parent_keeps st m st' c n : mkdir_parent st m = Some st' -> k_at st c = Some n -> k_at st' c = Some n.
Proof. unfold mkdir_parent. destruct (is_dot (dir m)); [congruence|]. apply mk_dirs_keeps. Qed.
Lemma setup1_keeps st p st' c n : setup1 st p = Some st' -> k_at st c = Some n -> k_at st' c = Some n.
Proof.
  intros H Hc. destruct p as [m|m b|m t|m t]; cbn in H.
  - eapply mk_dirs_keeps; eauto.
  - destruct (mkdir_parent st m) as [st1|] eqn:E; [|discriminate]. pose proof (parent_keeps _ _ _ _ _ E Hc) as H1. unfold k_create in H. destruct (negb (parent_ok st1 (kpath m))); [discriminate|].
    destruct (k_at st1 (kpath m)) as [[]|] eqn:E2; try discriminate; apply some_inj in H; subst st'; cbn; [exact H1|]. destruct (list_eq_dec _ c (kpath m)); [congruence|exact H1].
  - destruct (mkdir_parent st m) as [st1|] eqn:E; [|discriminate]. pose proof (parent_keeps _ _ _ _ _ E Hc) as H1. unfold k_symlink in H. destruct (negb (parent_ok st1 (kpath m))); [discriminate|].
    destruct (k_at st1 (kpath m)) eqn:E2; [discriminate|]. apply some_inj in H. subst st'. cbn. destruct (list_eq_dec _ c (kpath m)); [congruence|exact H1].
  - destruct (mkdir_parent st m) as [st1|] eqn:E; [|discriminate]. pose proof (parent_keeps _ _ _ _ _ E Hc) as H1. unfold k_link in H. destruct (negb (parent_ok st1 (kpath m))); [discriminate|].
    destruct (k_at st1 (kpath m)) eqn:E2; [discriminate|]. destruct (k_at st1 (kpath t)) as [[]|]; try discriminate. apply some_inj in H. subst st'. cbn. destruct (list_eq_dec _ c (kpath m)); [congruence|exact H1].
Qed.
Lemma mk_dirs_blocked rest : forall st cur a b f, rest = a ++ b -> a <> [] -> k_at st (cur ++ a) = Some (KFile f) -> mk_dirs st cur rest = None.
Proof.
  induction rest as [|x rest IH]; intros st cur a b f E Ha H; [destruct a; [contradiction|discriminate]|]. destruct a as [|y a]; [contradiction|]. cbn in E. assert (x = y) as <- by congruence. cbn.
  destruct a as [|z a]; [rewrite H; reflexivity|]. assert (forall st1, k_at st1 (cur ++ x :: z :: a) = Some (KFile f) -> mk_dirs st1 (cur ++ [x]) rest = None) as Hgo.
  { intros st1 H1. apply (IH st1 (cur ++ [x]) (z :: a) b f); [congruence|discriminate|]. rewrite <- app_assoc. exact H1. }
  destruct (k_at st (cur ++ [x])) as [[]|]; try reflexivity; [apply Hgo; exact H|]. apply Hgo. cbn. destruct (list_eq_dec _ (cur ++ x :: z :: a) (cur ++ [x])) as [Eq|]; [apply app_inv_head in Eq; discriminate|exact H].
Qed.
Lemma blocked_fails st p : plain_name (called p) -> blocked st p -> setup1 st p = None.
Proof.
  intros Hp [(c & f & Hc & Ho & Hf)|Hb].
  - assert (forall m, plain_name m -> where_ p = split_sep m -> over c (where_ p) -> mkdir_parent st m = None) as Hpar.
    { intros m Hm Hw Ho2. rewrite Hw in Ho2. destruct (plain_dir m Hm) as [Ed Hr]. destruct (plain_render m Hm) as [_ Hne]. apply (over_removelast c _ Hne) in Ho2. destruct Ho2 as (b & Eb).
      assert (kpath (render false (removelast (split_sep m))) = removelast (split_sep m)) as Ek by (unfold kpath; rewrite rooted_render by (apply proper_norm; exact Hr); apply comps_render, proper_norm; exact Hr).
      unfold mkdir_parent. rewrite Ed. destruct (is_dot (render false (removelast (split_sep m)))) eqn:Edot.
      - exfalso. apply is_dot_true in Edot. rewrite Edot in Ek. rewrite <- Ek in Eb. vm_compute in Eb. destruct c; [contradiction|discriminate].
      - unfold k_mkdir_all. rewrite Ek. apply (mk_dirs_blocked _ st [] c b f); assumption. }
    destruct p as [m|m b|m t|m t]; cbn [setup1 called] in *.
    + unfold k_mkdir_all. rewrite (plain_kpath m Hp). destruct Ho as [(x & r & E)|[_ E]]; [apply (mk_dirs_blocked _ st [] c (x :: r) f); assumption|apply (mk_dirs_blocked _ st [] c [] f); [rewrite E; symmetry; apply app_nil_r|exact Hc|exact Hf]].
    + destruct Ho as [Ho|[[] _]]. rewrite (Hpar m Hp eq_refl Ho). reflexivity.
    + destruct Ho as [Ho|[[] _]]. rewrite (Hpar m Hp eq_refl Ho). reflexivity.
    + destruct Ho as [Ho|[[] _]]. rewrite (Hpar m Hp eq_refl Ho). reflexivity.
  - destruct p as [m|m b|m t|m t]; cbn [setup1 called where_] in *; [destruct Hb| | |]; (destruct (mkdir_parent st m) as [st1|] eqn:E; [|reflexivity]).
    + pose proof (parent_keeps _ _ _ _ _ E Hb) as H1. unfold k_create. rewrite (plain_kpath m Hp), H1. destruct (negb _); reflexivity.
    + destruct (k_at st (split_sep m)) eqn:Ek; [|contradiction]. pose proof (parent_keeps _ _ _ _ _ E Ek) as H1. unfold k_symlink. rewrite (plain_kpath m Hp), H1. destruct (negb _); reflexivity.
    + destruct (k_at st (split_sep m)) eqn:Ek; [|contradiction]. pose proof (parent_keeps _ _ _ _ _ E Ek) as H1. unfold k_link. rewrite (plain_kpath m Hp), H1. destruct (negb _); reflexivity.
Qed.
Lemma blocked_keeps st p q st' : setup1 st q = Some st' -> blocked st p -> blocked st' p.
Proof.
  intros H [(c & f & Hc & Ho & Hf)|Hb]; [left; exists c, f; split; [exact Hc|]; split; [exact Ho|eapply setup1_keeps; eauto]|right].
  destruct p as [m|m b|m t|m t]; [exact Hb|eapply setup1_keeps; eauto| |]; cbn [where_] in *; (destruct (k_at st (split_sep m)) eqn:Ek; [|contradiction]); rewrite (setup1_keeps _ _ _ _ _ H Ek); discriminate.
Qed.
Lemma setup_blocked ps st p : In p ps -> plain_name (called p) -> blocked st p -> setup st ps = None.
Proof.
  intros Hin Hp Hb. unfold setup. apply (Permutation_in _ (Permutation_sym (sort_perm ps))) in Hin. revert st Hb. induction (sort_procs ps) as [|q l IH]; intros st Hb; [destruct Hin|]. cbn.
  destruct Hin as [->|Hin]; [rewrite (blocked_fails st p Hp Hb); reflexivity|]. destruct (setup1 st q) as [st1|] eqn:E; [|reflexivity]. apply IH; [exact Hin|]. eapply blocked_keeps; eauto.
Qed.

(* ---- writing lines ---- *)

Lemma app_cases {A} (n s a b : list A) : n ++ s = a ++ b -> (exists m, n = a ++ m /\ b = m ++ s) \/ (exists m, m <> [] /\ a = n ++ m /\ s = m ++ b).
Proof.
  revert a. induction n as [|x n IH]; intros a E; cbn in E.
  - destruct a as [|y a]; [left; exists []; cbn in E; auto|right; exists (y :: a); split; [discriminate|auto]].
  - destruct a as [|y a]; cbn in E; [left; exists (x :: n); auto|]. assert (x = y) as <- by congruence. destruct (IH a) as [(m & -> & ->)|(m & Hm & -> & E2)]; [congruence|left; exists m; auto|right; exists m; auto].
Qed.
Lemma spaceless_first p n t : ~ In 32%N n -> first_cut ([32%N] ++ p) (n ++ ([32%N] ++ p) ++ t) n t.
Proof.
  intros Hn. split; [reflexivity|]. intros a b E. destruct (app_cases _ _ _ _ E) as [(m & E1 & E2)|(m & _ & -> & _)]; [|rewrite app_length; lia].
  destruct m as [|y m]; [rewrite E1, app_nil_r; lia|]. cbn in E2. assert (y = 32%N) as -> by congruence. exfalso. apply Hn. rewrite E1. apply in_elt.
Qed.
Lemma colon_first n t : ~ In 32%N n -> first_cut [58; 32]%N (n ++ [58; 32]%N ++ t) n t.
Proof.
  intros Hn. split; [reflexivity|]. intros a b E. destruct (app_cases _ _ _ _ E) as [(m & E1 & E2)|(m & _ & -> & _)]; [|rewrite app_length; lia].
  destruct m as [|y [|z m]]; cbn in E2; [rewrite E1, app_nil_r; lia|discriminate|]. assert (z = 32%N) as -> by congruence. exfalso. apply Hn. rewrite E1. apply in_app_iff. right. right. left. reflexivity.
Qed.
Lemma arrow_nowhere n s : ~ In 32%N n -> nowhere [32; 45; 62; 32]%N s -> nowhere [32; 45; 62; 32]%N (n ++ s).
Proof.
  intros Hn Hs a b E. destruct (app_cases _ _ _ _ E) as [(m & E1 & E2)|(m & _ & _ & E2)]; [|exact (Hs m b E2)].
  destruct m as [|y m]; [apply (Hs [] b); symmetry; exact E2|]. cbn in E2. assert (y = 32%N) as -> by congruence. apply Hn. rewrite E1. apply in_elt.
Qed.
Lemma dir_line uq n : n <> [] -> ~ In 32%N n -> parse_line uq (n ++ [47%N]) = Some (PDir n).
Proof.
  intros Hn Hs. apply parse_iff. constructor; [|exact Hn]. apply arrow_nowhere; [exact Hs|]. intros a b E. apply (f_equal (@length _)) in E. rewrite app_length in E. cbn in E. lia.
Qed.
Lemma sym_line uq n t : n <> [] -> t <> [] -> ~ In 32%N n -> parse_line uq (n ++ [32; 45; 62; 32]%N ++ t) = Some (PSym n t).
Proof. intros Hn Ht Hs. apply parse_iff. constructor; [apply (spaceless_first [45; 62; 32]%N); exact Hs|exact Hn|exact Ht]. Qed.
Lemma file_line uq n m b : n <> [] -> ~ In 32%N n -> nowhere [32; 45; 62; 32]%N (34%N :: m ++ [34%N]) -> uq (34%N :: m ++ [34%N]) = Some b ->
  parse_line uq (n ++ [58; 32]%N ++ 34%N :: m ++ [34%N]) = Some (PFile n b).
Proof.
  intros Hn Hs Hno Hu. apply parse_iff. apply (LQuoted uq _ n 34%N (m ++ [34%N])); auto.
  - apply arrow_nowhere; [exact Hs|]. intros a c E. destruct a as [|x [|y a]]; cbn in E; [discriminate|congruence|]. apply (Hno a c). cbn. congruence.
  - intros k E. assert (n ++ [58; 32]%N ++ 34%N :: m ++ [34%N] = (n ++ [58; 32; 34]%N ++ m) ++ [34%N]) as E2 by (cbn; rewrite <- !app_assoc; reflexivity). rewrite E2 in E. apply app_inj_tail in E. destruct E as [_ E]. discriminate.
  - apply colon_first. exact Hs.
Qed.
