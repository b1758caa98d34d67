(* Proofs about the error helpers. *)
From Verif Require Import Common TestErr_Model TestErr_Spec.
Open Scope nat_scope.

Lemma gerr_rect' (P : gerr -> Prop) : (forall i k m u, Forall P u -> P (G i k m u)) -> forall e, P e.
Proof.
  intros H. fix IH 1. intros [i k m u]. apply H. induction u as [|x u IHu]; constructor; [apply IH|exact IHu].
Qed.

Lemma is_tree_iff t : forall e, is_tree (g_id t) e = true <-> exists p x, inside e p x /\ stands_for t x.
Proof.
  apply gerr_rect'. intros i k m u IH. cbn [is_tree]. rewrite !orb_true_iff, !existsb_exists. split.
  - intros [[H|(y & Hy & E)]|(y & Hy & E)].
    + apply Nat.eqb_eq in H. exists [], (G i k m u). split; [constructor|]. destruct t. cbn in *. auto.
    + apply Nat.eqb_eq in E. subst y. exists [], (G i k m u). split; [constructor|]. destruct t. cbn in *. auto.
    + rewrite Forall_forall in IH. apply (proj1 (IH y Hy)) in E. destruct E as (p & x & Hp & Hx).
      apply In_nth_error in Hy. destruct Hy as [n Hn]. exists (n :: p), x. split; [econstructor; eassumption|exact Hx].
  - intros (p & x & Hp & Hx). inversion Hp as [|i0 k0 m0 u0 n e0 p0 x0 Hn Hi]; subst.
    + left. destruct t as [ti tk tm tu]. cbn in *. destruct Hx as [->|Hx]; [left; apply Nat.eqb_refl|right]. exists ti. split; [exact Hx|apply Nat.eqb_refl].
    + right. exists e0. split; [eapply nth_error_In; exact Hn|]. rewrite Forall_forall in IH. apply (IH e0 (nth_error_In _ _ Hn)). eauto.
Qed.

Definition go (k : nat) := fix go (l : list gerr) : option gerr :=
  match l with [] => None | x :: l => match as_tree k x with Some r => Some r | None => go l end end.

Lemma as_tree_spec k : forall e, match as_tree k e with
  | Some x => first_of k e x
  | None => forall p x, inside e p x -> ~ of_kind k x
  end.
Proof.
  apply gerr_rect'. intros i k' m u IH. cbn [as_tree]. fold (go k). destruct (Nat.eqb_spec k k') as [->|Hk].
  - exists []. split; [constructor|]. split; [reflexivity|]. intros [|b q] y _ _; [left; reflexivity|right; exact I].
  - assert (match go k u with
            | Some x => exists n e, nth_error u n = Some e /\ first_of k e x /\ forall n' e' p y, n' < n -> nth_error u n' = Some e' -> inside e' p y -> ~ of_kind k y
            | None => forall n e p x, nth_error u n = Some e -> inside e p x -> ~ of_kind k x
            end) as Hgo.
    { induction IH as [|x u Hx _ IHu]; cbn [go]; [intros [|n]; discriminate|]. destruct (as_tree k x) as [r|].
      - exists 0, x. split; [reflexivity|]. split; [exact Hx|]. intros; lia.
      - destruct (go k u) as [r|].
        + destruct IHu as (n & e & H1 & H2 & H3). exists (S n), e. split; [exact H1|]. split; [exact H2|].
          intros [|n'] e' p y Hl He Hi; cbn [nth_error] in He; [injection He as <-; exact (Hx p y Hi)|]. apply (H3 n' e' p y); auto; lia.
        + intros [|n] e p y He Hi; cbn [nth_error] in He; [injection He as <-; exact (Hx p y Hi)|exact (IHu n e p y He Hi)]. }
    destruct (go k u) as [x|].
    + destruct Hgo as (n & e & Hn & (p & Hp & Hkx & Hfirst) & Hbefore). exists (n :: p). split; [econstructor; eassumption|]. split; [exact Hkx|].
      intros q y Hq Hy. inversion Hq as [|i0 k0 m0 u0 n' e' q' x0 Hn' Hi]; subst; [cbn in Hy; congruence|].
      destruct (Nat.lt_trichotomy n' n) as [Hlt|[->|Hgt]].
      * destruct (Hbefore n' e' q' y Hlt Hn' Hi Hy).
      * rewrite Hn in Hn'. injection Hn' as <-. destruct (Hfirst q' y Hi Hy) as [->|Hs]; [left; reflexivity|right; cbn; auto].
      * right. cbn. auto.
    + intros p x Hp Hx. inversion Hp as [|i0 k0 m0 u0 n' e' q' x0 Hn' Hi]; subst; [cbn in Hx; congruence|]. exact (Hgo n' e' q' x Hn' Hi Hx).
Qed.

Lemma err_is_spec e t :
  o_fatal (err_is e t) <= 1 /\
  (o_fatal (err_is e t) = 0 <-> (e = None /\ t = None) \/ exists e' t' p x, e = Some e' /\ t = Some t' /\ inside e' p x /\ stands_for t' x).
Proof.
  unfold err_is, errors_is. destruct e as [e|], t as [t|].
  - destruct (is_tree (g_id t) e) eqn:E; cbn; (split; [lia|]).
    + apply (proj1 (is_tree_iff t e)) in E. destruct E as (p & x & H1 & H2). split; [intros _; right; exists e, t, p, x; auto|reflexivity].
    + split; [discriminate|]. intros [[H _]|(e' & t' & p & x & H1 & H2 & H3 & H4)]; [discriminate|]. injection H1 as <-. injection H2 as <-.
      assert (is_tree (g_id t) e = true) by (apply is_tree_iff; eauto). congruence.
  - cbn. split; [lia|]. split; [discriminate|]. intros [[H _]|(e' & t' & p & x & H1 & H2 & _)]; discriminate.
  - cbn. split; [lia|]. split; [discriminate|]. intros [[_ H]|(e' & t' & p & x & H1 & H2 & _)]; discriminate.
  - cbn. split; [lia|]. split; auto.
Qed.

Lemma nil_err_spec e : nil_err e = err_is e None /\ (o_fatal (nil_err e) = 0 <-> e = None).
Proof. destruct e; cbn; split; try reflexivity; split; try discriminate; auto. Qed.

Lemma err_as_spec k e :
  match o_value (err_as_type k e) with
  | Some x => o_fatal (err_as_type k e) = 0 /\ exists e', e = Some e' /\ first_of k e' x
  | None => o_fatal (err_as_type k e) = 1 /\ forall e' p x, e = Some e' -> inside e' p x -> ~ of_kind k x
  end.
Proof.
  unfold err_as_type, errors_as. destruct e as [e|]; cbn; [|split; [reflexivity|discriminate]].
  pose proof (as_tree_spec k e) as H. destruct (as_tree k e) as [x|]; cbn.
  - split; [reflexivity|]. eauto.
  - split; [reflexivity|]. intros e' p x He. injection He as <-. apply H.
Qed.

Lemma err_as_and_spec k fn e :
  let o := err_as_type_and k fn e in
  o_asked o = match o_value (err_as_type k e) with Some x => [x] | None => [] end /\
  o_fatal o <= 1 /\
  (o_fatal o = 0 <-> exists e' x, e = Some e' /\ first_of k e' x /\ fn x = true).
Proof.
  cbv zeta. unfold err_as_type_and, err_as_type, errors_as. destruct e as [e|]; cbn.
  - pose proof (as_tree_spec k e) as H. destruct (as_tree k e) as [x|]; cbn.
    + split; [reflexivity|]. split; [destruct (fn x); lia|]. destruct (fn x) eqn:Ef; [split; eauto|]. split; [discriminate|].
      intros (e' & y & He & Hy & Hf). injection He as <-. destruct H as (p & Hp & Kx & Fx), Hy as (q & Hq & Ky & Fy).
      assert (forall a b, sooner a b -> sooner b a -> False) as Has.
      { induction a as [|a la IHa]; intros [|b lb]; cbn; try tauto. intros [Hl|[-> Hl]] [Hr|[Er Hr]]; first [lia|exact (IHa _ Hl Hr)]. }
      assert (p = q) as <-.
      { destruct (Fx q y Hq Ky) as [|S1]; [congruence|]. destruct (Fy p x Hp Kx) as [|S2]; [congruence|]. destruct (Has _ _ S1 S2). }
      assert (forall a p b c, inside a p b -> inside a p c -> b = c) as Hfun.
      { intros a p0 b c Hb. revert c. induction Hb; intros c Hc; inversion Hc; subst; [reflexivity|]. apply IHHb. congruence. }
      rewrite (Hfun _ _ _ _ Hp Hq) in Ef. congruence.
    + split; [reflexivity|]. split; [lia|]. split; [discriminate|]. intros (e' & y & He & (q & Hq & Ky & _) & _). injection He as <-. destruct (H q y Hq Ky).
  - split; [reflexivity|]. split; [lia|]. split; [discriminate|]. intros (e' & y & He & _). discriminate.
Qed.
