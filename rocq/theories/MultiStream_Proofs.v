(* Proofs about NewMultiReadCloser. *)
From Verif Require Import Common MultiStream_Model MultiStream_Spec.
Open Scope nat_scope.

Lemma src_read_spec s len data e s' : src_read s len = (data, e, s') ->
  s_rest s = data ++ s_rest s' /\ length data <= len /\ s_plan s' = skipn 1 (s_plan s) /\
  (e = SEof -> s_rest s' = []) /\
  (forall c, e = SFault c -> exists t l, s_plan s = t :: l /\ t_fault t = Some c) /\
  (willing s -> willing s' /\ (forall c, e <> SFault c) /\ (1 <= len -> e = SNil -> data <> [])).
Proof.
  unfold src_read. intros H. injection H as <- <- <-. cbn [s_rest s_plan].
  set (t := match s_plan s with t :: _ => t | [] => Turn len None false end).
  split; [symmetry; apply firstn_skipn|]. split; [rewrite firstn_length; lia|]. split; [destruct (s_plan s); reflexivity|]. split; [|split].
  - destruct (t_fault t); [discriminate|]. destruct (s_rest s) as [|b l] eqn:E; [intros _; apply skipn_nil|].
    destruct (skipn (Nat.min len (t_most t)) (b :: l)) eqn:E2; [reflexivity|discriminate].
  - intros c. subst t. destruct (s_plan s) as [|t l]; cbn [t_fault].
    + destruct (s_rest s); [discriminate|]. destruct (skipn _ _); discriminate.
    + destruct (t_fault t) eqn:Ef; [intros H; injection H as <-; eauto|]. destruct (s_rest s); [discriminate|]. destruct (skipn _ _); [destruct (t_eager t)|]; discriminate.
  - intros Hw. assert (t_fault t = None /\ (1 <= len -> 1 <= t_most t)) as [Hf Hm].
    { subst t. unfold willing in Hw. destruct (s_plan s) as [|t l]; [cbn; auto|]. apply Forall_inv in Hw. destruct Hw. auto. }
    rewrite Hf. split; [|split].
    + unfold willing in *. cbn [s_plan]. destruct (s_plan s); [exact Hw|]. apply Forall_inv_tail in Hw. exact Hw.
    + intros c. destruct (s_rest s); [discriminate|]. destruct (skipn _ _); [destruct (t_eager t)|]; discriminate.
    + intros Hl. specialize (Hm Hl). destruct (s_rest s) as [|b l]; [discriminate|]. intros _.
      destruct (Nat.min len (t_most t)) as [|m] eqn:E; [lia|]. discriminate.
Qed.

Lemma multi_read_spec ss : forall len data e ss', multi_read ss len = (data, e, ss') ->
  content ss = data ++ content ss' /\ length data <= len /\ (e = SEof -> ss' = []) /\
  (forall c, e = SFault c -> exists s t l, In s ss /\ s_plan s = t :: l /\ t_fault t = Some c) /\
  left_of ss ss' /\
  (Forall willing ss -> Forall willing ss' /\ (forall c, e <> SFault c) /\ (1 <= len -> e = SNil -> data <> [])).
Proof.
  induction ss as [|s ss IH]; intros len data e ss' H; cbn [multi_read] in H.
  - injection H as <- <- <-. split; [reflexivity|]. split; [cbn; lia|]. split; [reflexivity|]. split; [discriminate|]. split; [exists 0; left; reflexivity|].
    intros _. split; [constructor|]. split; discriminate.
  - destruct (src_read s len) as [[data0 e0] s'] eqn:E. destruct (src_read_spec _ _ _ _ _ E) as (A1 & A2 & A3 & A4 & A5 & A6).
    assert ((data0, e0, s' :: ss) = (data, e, ss') -> e0 <> SEof ->
      content (s :: ss) = data ++ content ss' /\ length data <= len /\ (e = SEof -> ss' = []) /\
      (forall c, e = SFault c -> exists s0 t l, In s0 (s :: ss) /\ s_plan s0 = t :: l /\ t_fault t = Some c) /\
      left_of (s :: ss) ss' /\
      (Forall willing (s :: ss) -> Forall willing ss' /\ (forall c, e <> SFault c) /\ (1 <= len -> e = SNil -> data <> []))) as Hkeep.
    { intros Heq Hne. injection Heq as <- <- <-. split; [unfold content; cbn [map concat]; rewrite A1, app_assoc; reflexivity|]. split; [exact A2|].
      split; [intros ->; contradiction|]. split; [intros c Hc; destruct (A5 c Hc) as (t & l & H1 & H2); exists s, t, l; cbn; auto|].
      split; [exists 0; right; exists s, s', data0, 1; cbn [skipn]; auto|].
      intros Hw. inversion Hw as [|? ? Hs Hss]; subst. destruct (A6 Hs) as (B1 & B2 & B3). split; [constructor; assumption|]. auto. }
    destruct e0; [apply Hkeep; [exact H|discriminate]| |apply Hkeep; [exact H|discriminate]]. clear Hkeep. specialize (A4 eq_refl).
    destruct data0 as [|b data0].
    + destruct (IH _ _ _ _ H) as (I1 & I2 & I3 & I4 & (k & I5) & I6).
      split; [unfold content in *; cbn [map concat]; rewrite A1, A4; exact I1|]. split; [exact I2|]. split; [exact I3|].
      split; [intros c Hc; destruct (I4 c Hc) as (s0 & t & l & H1 & H2); exists s0, t, l; cbn; auto|].
      split; [exists (S k); destruct I5 as [I5|(s0 & s1 & d & j & I5)]; [left; exact I5|right; exists s0, s1, d, j; exact I5]|].
      intros Hw. inversion Hw as [|? ? Hs Hss]; subst. apply I6. exact Hss.
    + injection H as <- <- <-. split; [unfold content; cbn [map concat]; rewrite A1, A4, app_nil_r; reflexivity|]. split; [exact A2|].
      split; [destruct ss; [reflexivity|discriminate]|]. split; [intros c; destruct ss; discriminate|]. split; [exists 1; left; reflexivity|].
      intros Hw. inversion Hw as [|? ? Hs Hss]; subst. split; [exact Hss|]. split; [intros c; destruct ss; discriminate|discriminate].
Qed.

Lemma acts_spec l : forall m m' gs, do_acts m l = (m', gs) ->
  content (m_readers m) = concat (map got gs) ++ content (m_readers m') /\
  m_closers m' = m_closers m /\ length gs = length l /\
  (forall i, nth_error l i = Some AClose -> nth_error gs i = Some (GotClose (m_closers m))) /\
  (forall i len, nth_error l i = Some (ARead len) -> exists d e, nth_error gs i = Some (GotRead d e) /\ length d <= len) /\
  (forall i j d g, i < j -> nth_error gs i = Some (GotRead d SEof) -> nth_error gs j = Some g -> got g = [] /\ (forall d' e, g = GotRead d' e -> e = SEof)) /\
  (forall i d, nth_error gs i = Some (GotRead d SEof) -> concat (map got gs) = content (m_readers m)).
Proof.
  induction l as [|a l IH]; intros m m' gs H; cbn [do_acts] in H.
  - injection H as <- <-. split; [reflexivity|]. split; [reflexivity|]. split; [reflexivity|].
    split; [intros [|i]; discriminate|]. split; [intros [|i]; discriminate|]. split; [intros [|i]; discriminate|intros [|i]; discriminate].
  - destruct (do_act m a) as [m1 g] eqn:E. destruct (do_acts m1 l) as [m2 gs'] eqn:E2. injection H as <- <-.
    destruct (IH _ _ _ E2) as (I1 & I2 & I3 & I4 & I5 & I6 & I7).
    assert (content (m_readers m) = got g ++ content (m_readers m1) /\ m_closers m1 = m_closers m) as [A1 A2].
    { unfold do_act in E. destruct a as [len|]; [|injection E as <- <-; split; reflexivity].
      destruct (multi_read (m_readers m) len) as [[d e] ss] eqn:Er. injection E as <- <-. cbn [m_readers m_closers got].
      split; [apply (multi_read_spec _ _ _ _ _ Er)|reflexivity]. }
    cbn [map concat length]. split; [rewrite A1, I1, app_assoc; reflexivity|]. split; [congruence|]. split; [congruence|].
    split; [|split; [|split]].
    + intros [|i] Hi; cbn [nth_error] in *; [|rewrite (I4 i Hi); congruence]. injection Hi as ->. cbn [do_act] in E. injection E as <- <-. reflexivity.
    + intros [|i] len Hi; cbn [nth_error] in *; [|exact (I5 i len Hi)]. injection Hi as ->. cbn [do_act] in E.
      destruct (multi_read (m_readers m) len) as [[d e] ss] eqn:Er. injection E as <- <-. exists d, e. split; [reflexivity|]. apply (multi_read_spec _ _ _ _ _ Er).
    + intros [|i] [|j] d g0 Hij Hi Hj; cbn [nth_error] in *; try lia; [|apply (I6 i j d g0); auto; lia]. injection Hi as ->.
      assert (m_readers m1 = []) as Hnil.
      { destruct a as [len|]; cbn [do_act] in E; [|discriminate]. destruct (multi_read (m_readers m) len) as [[d0 e0] ss] eqn:Er. injection E as <- Ed Ee.
        cbn [m_readers]. apply (multi_read_spec _ _ _ _ _ Er). exact Ee. }
      clear - E2 Hnil Hj. revert m1 m2 gs' j E2 Hnil Hj. induction l as [|a l IHl]; intros m1 m2 gs' j E2 Hnil Hj; cbn [do_acts] in E2; [injection E2 as <- <-; destruct j; discriminate|].
      assert (exists m3 g3, do_act m1 a = (m3, g3) /\ m_readers m3 = [] /\ got g3 = [] /\ (forall d' e, g3 = GotRead d' e -> e = SEof)) as (m3 & g3 & Ea & H1 & H2 & H3).
      { destruct a as [len|]; cbn [do_act]; rewrite ?Hnil; cbn [multi_read]; eexists _, _; (split; [reflexivity|]); cbn [m_readers got]; repeat split; auto; try discriminate. intros d' e He. congruence. }
      rewrite Ea in E2. destruct (do_acts m3 l) as [m4 gs4] eqn:E4. injection E2 as <- <-. destruct j as [|j]; cbn [nth_error] in Hj.
      * injection Hj as <-. auto.
      * exact (IHl m3 m4 gs4 j E4 H1 Hj).
    + intros [|i] d Hi; cbn [nth_error] in *.
      * injection Hi as ->. assert (m_readers m1 = []) as Hnil.
        { destruct a as [len|]; cbn [do_act] in E; [|discriminate]. destruct (multi_read (m_readers m) len) as [[d0 e0] ss] eqn:Er. injection E as <- Ed Ee.
          cbn [m_readers]. apply (multi_read_spec _ _ _ _ _ Er). exact Ee. }
        rewrite A1. f_equal. rewrite Hnil in I1. symmetry in I1. apply app_eq_nil in I1. destruct I1 as [-> _]. rewrite Hnil. reflexivity.
      * rewrite A1. f_equal. exact (I7 i d Hi).
Qed.

Lemma read_to_end_spec fuel : forall ss len acc, 1 <= len -> Forall willing ss -> length (content ss) < fuel ->
  read_to_end fuel ss len acc = Some (acc ++ content ss, SEof).
Proof.
  induction fuel as [|fuel IH]; intros ss len acc Hl Hw Hf; [lia|]. cbn [read_to_end].
  destruct (multi_read ss len) as [[data e] ss'] eqn:E. destruct (multi_read_spec _ _ _ _ _ E) as (A1 & _ & A3 & _ & _ & A6).
  destruct (A6 Hw) as (B1 & B2 & B3). destruct e as [| |c].
  - specialize (B3 Hl eq_refl). rewrite IH; [rewrite A1, app_assoc; reflexivity|exact Hl|exact B1|].
    rewrite A1, app_length in Hf. destruct data; [contradiction|]. cbn [length] in Hf. lia.
  - rewrite (A3 eq_refl) in A1. unfold content in A1 at 2. cbn in A1. rewrite app_nil_r in A1. rewrite A1. reflexivity.
  - destruct (B2 c eq_refl).
Qed.

Lemma new_mrc_spec l : content (m_readers (new_mrc l)) = concat (map (fun x => s_rest (fst x)) l) /\ m_closers (new_mrc l) = map snd l.
Proof. split; [|reflexivity]. unfold new_mrc, content. cbn [m_readers]. rewrite map_map. reflexivity. Qed.

Lemma multi_read_passes ss : forall len d e ss', multi_read ss len = (d, e, ss') ->
  (Forall (ends len) ss /\ d = [] /\ e = SEof /\ ss' = []) \/
  exists before s after e0 s', ss = before ++ s :: after /\ Forall (ends len) before /\ src_read s len = (d, e0, s') /\
    ~ (d = [] /\ e0 = SEof) /\ e = said (match after with [] => false | _ => true end) e0 /\
    ss' = (match e0 with SEof => after | _ => s' :: after end).
Proof.
  induction ss as [|s ss IH]; intros len d e ss' H; cbn [multi_read] in H.
  - injection H as <- <- <-. left. split; [constructor|auto].
  - destruct (src_read s len) as [[d0 e0] s'] eqn:E. destruct e0 as [| |c].
    + injection H as <- <- <-. right. exists [], s, ss, SNil, s'. split; [reflexivity|]. split; [constructor|]. split; [exact E|]. split; [intros [_ ?]; discriminate|]. split; reflexivity.
    + destruct d0 as [|b d0].
      * destruct (IH _ _ _ _ H) as [(A & B)|(before & s0 & after & e1 & s1 & A & B & C)].
        -- left. split; [constructor; [exists s'; exact E|exact A]|exact B].
        -- right. exists (s :: before), s0, after, e1, s1. split; [rewrite A; reflexivity|]. split; [constructor; [exists s'; exact E|exact B]|exact C].
      * injection H as <- <- <-. right. exists [], s, ss, SEof, s'. split; [reflexivity|]. split; [constructor|]. split; [exact E|]. split; [intros [? _]; discriminate|]. split; [destruct ss; reflexivity|reflexivity].
    + injection H as <- <- <-. right. exists [], s, ss, (SFault c), s'. split; [reflexivity|]. split; [constructor|]. split; [exact E|]. split; [intros [_ ?]; discriminate|]. split; reflexivity.
Qed.

Lemma new_mrc_acts l acts m gs : do_acts (new_mrc l) acts = (m, gs) ->
  concat (map got gs) ++ content (m_readers m) = concat (map (fun x => s_rest (fst x)) l) /\
  length gs = length acts /\
  (forall i, nth_error acts i = Some AClose -> nth_error gs i = Some (GotClose (map snd l))) /\
  (forall i len, nth_error acts i = Some (ARead len) -> exists d e, nth_error gs i = Some (GotRead d e) /\ length d <= len) /\
  (forall i j d g, i < j -> nth_error gs i = Some (GotRead d SEof) -> nth_error gs j = Some g -> got g = [] /\ (forall d' e, g = GotRead d' e -> e = SEof)) /\
  (forall i d, nth_error gs i = Some (GotRead d SEof) -> concat (map got gs) = concat (map (fun x => s_rest (fst x)) l)).
Proof.
  intros H. destruct (acts_spec _ _ _ _ H) as (A1 & A2 & A3 & A4 & A5 & A6 & A7). destruct (new_mrc_spec l) as [B1 B2].
  rewrite B1 in A1, A7. rewrite B2 in A4. split; [symmetry; exact A1|]. auto.
Qed.

Lemma new_mrc_read_to_end l len fuel : 1 <= len -> Forall (fun x => willing (fst x)) l -> length (concat (map (fun x => s_rest (fst x)) l)) < fuel ->
  read_to_end fuel (m_readers (new_mrc l)) len [] = Some (concat (map (fun x => s_rest (fst x)) l), SEof).
Proof.
  intros Hl Hw Hf. destruct (new_mrc_spec l) as [B1 _]. rewrite <- B1 in *. rewrite read_to_end_spec; [reflexivity|exact Hl| |exact Hf].
  unfold new_mrc. cbn [m_readers]. apply Forall_map. exact Hw.
Qed.
