(* Proofs about Wrap_Model. *)
From Verif Require Import Common CommonLemmas Wrap_Model Wrap_Spec.
Open Scope nat_scope.

Lemma put_same {A} (l : list A) i x y : nth_error l i = Some y -> nth_error (put l i x) i = Some x.
Proof. revert i. induction l as [|z l IH]; intros [|i] H; try discriminate; cbn in *; [reflexivity|]. now apply IH. Qed.
Lemma put_other {A} (l : list A) i j x : i <> j -> nth_error (put l i x) j = nth_error l j.
Proof. revert i j. induction l as [|z l IH]; intros [|i] [|j] H; cbn; try reflexivity; [congruence|]. apply IH. congruence. Qed.

Lemma own_app i l1 l2 : own i (l1 ++ l2) = own i l1 ++ own i l2.
Proof. apply filter_app. Qed.
Lemma own_other i e : who e <> i -> own i [e] = [].
Proof. intros H. unfold own. cbn. now rewrite (proj2 (Nat.eqb_neq _ _) H). Qed.
Lemma own_same e : own (who e) [e] = [e].
Proof. unfold own. cbn. now rewrite Nat.eqb_refl. Qed.

(* Finished calls. *)
Inductive full (i : nat) : list meth -> list event -> Prop :=
| full_nil : full i [] []
| full_got m p a l : full i p l -> full i (p ++ [m]) (l ++ [Inv i m; Reach i m a; Ret i m (Got a)])
| full_refused m p l : m <> MName -> full i p l -> full i (p ++ [m]) (l ++ [Inv i m; Ret i m Refused]).

Lemma full_told i p l : full i p l -> forall q l', told i q l' -> told i (p ++ q) (l ++ l').
Proof.
  induction 1 as [|m p a l H IH|m p l Hm H IH]; intros q l' Hq; [exact Hq| |]; rewrite <- !app_assoc; apply IH; cbn; now constructor.
Qed.

(* A goroutine and its events fit together. *)
Definition fits (i : nat) (prog : list meth) (t : gor) (l : list event) : Prop :=
  exists d l0, full i d l0 /\
  match g_pc t with
  | Idle => prog = d ++ g_todo t /\ l = l0
  | Check m | Enter m => prog = d ++ m :: g_todo t /\ l = l0 ++ [Inv i m]
  | Mark => prog = d ++ MClose :: g_todo t /\ l = l0 ++ [Inv i MClose]
  | Back m Refused => prog = d ++ m :: g_todo t /\ l = l0 ++ [Inv i m] /\ m <> MName
  | Back m (Got a) => prog = d ++ m :: g_todo t /\ l = l0 ++ [Inv i m; Reach i m a]
  end.

Definition busy (p : pc) : nat := match p with Idle => 0 | _ => 1 end.
Definition nbusy (gs : list gor) : nat := fold_right (fun t n => busy (g_pc t) + n) 0 gs.
Definition invs (l : list event) : nat := length (filter (fun e => match e with Inv _ _ => true | _ => false end) l).
Definition rets (l : list event) : nat := length (filter (fun e => match e with Ret _ _ _ => true | _ => false end) l).

(* What a goroutine's place says about the flag. *)
Definition knows (closed : bool) (p : pc) : Prop :=
  match p with Enter MClose | Back MClose _ => closed = true | Back _ Refused => closed = true | _ => True end.

Definition good (progs : list (list meth)) (w : world) : Prop :=
  length (w_gs w) = length progs /\
  (forall i t p, nth_error (w_gs w) i = Some t -> nth_error progs i = Some p -> fits i p t (own i (w_ev w))) /\
  (forall i t, nth_error (w_gs w) i = Some t -> knows (w_closed w) (g_pc t)) /\
  (forall e, In e (w_ev w) -> nth_error progs (who e) <> None) /\
  (w_closed w = true -> (exists j, In (Inv j MClose) (w_ev w)) /\
     ((exists k a, In (Reach k MClose a) (w_ev w)) \/ exists k t, nth_error (w_gs w) k = Some t /\ g_pc t = Enter MClose)) /\
  (forall j r, In (Ret j MClose r) (w_ev w) -> w_closed w = true) /\
  (forall j a, In (Reach j MClose a) (w_ev w) -> w_closed w = true) /\
  invs (w_ev w) = rets (w_ev w) + nbusy (w_gs w).

Lemma put_len {A} (l : list A) i x : length (put l i x) = length l.
Proof. revert i. induction l; intros [|i]; cbn; auto. Qed.
Lemma nbusy_put gs i t t' : nth_error gs i = Some t -> nbusy (put gs i t') + busy (g_pc t) = nbusy gs + busy (g_pc t').
Proof.
  revert i. induction gs as [|x gs IH]; intros [|i] H; try discriminate; cbn [put nth_error] in *; unfold nbusy in *; cbn [fold_right].
  - apply some_inj in H. subst x. lia.
  - specialize (IH i H). lia.
Qed.
Lemma invs_app a b : invs (a ++ b) = invs a + invs b.
Proof. unfold invs. now rewrite filter_app, app_length. Qed.
Lemma rets_app a b : rets (a ++ b) = rets a + rets b.
Proof. unfold rets. now rewrite filter_app, app_length. Qed.

(* Everything one step does, at once. *)
Definition may (w : world) (i : nat) (t : gor) (t' : gor) (closed : bool) (ev : list event) : Prop :=
  match g_pc t with
  | Idle => exists m, g_todo t = m :: g_todo t' /\ g_pc t' = Check m /\ closed = w_closed w /\ ev = [Inv i m]
  | Check m => g_todo t' = g_todo t /\ closed = w_closed w /\ ev = [] /\
      ((w_closed w = true /\ m = MName /\ g_pc t' = Enter m) \/ (w_closed w = true /\ m <> MName /\ g_pc t' = Back m Refused) \/
       (w_closed w = false /\ m = MClose /\ g_pc t' = Mark) \/ (w_closed w = false /\ m <> MClose /\ g_pc t' = Enter m))
  | Mark => g_todo t' = g_todo t /\ closed = true /\ ev = [] /\ g_pc t' = Enter MClose
  | Enter m => g_todo t' = g_todo t /\ closed = w_closed w /\ exists a, ev = [Reach i m a] /\ g_pc t' = Back m (Got a)
  | Back m r => g_todo t' = g_todo t /\ closed = w_closed w /\ ev = [Ret i m r] /\ g_pc t' = Idle
  end.
Lemma step_may w i a : step w (i, a) = w \/
  exists t t' closed ev, nth_error (w_gs w) i = Some t /\ may w i t t' closed ev /\ step w (i, a) = World closed (put (w_gs w) i t') (w_ev w ++ ev).
Proof.
  unfold step. destruct (nth_error (w_gs w) i) as [t|] eqn:E; [|now left]. destruct t as [todo p]. cbn [g_pc g_todo].
  destruct p as [|m| |m|m r]; cbn [g_pc g_todo].
  - destruct todo as [|m todo]; [now left|right]. eexists _, _, _, _. split; [reflexivity|]. split; [|reflexivity]. cbn. exists m. auto.
  - right. destruct (w_closed w) eqn:Ec.
    + destruct (is_name m) eqn:En; eexists _, _, _, _; (split; [reflexivity|]; split; [|reflexivity]); cbn; rewrite Ec; (split; [reflexivity|]; split; [reflexivity|]; split; [reflexivity|]).
      * left. destruct m; try discriminate. auto.
      * right; left. split; [reflexivity|]. split; [intros ->; discriminate|reflexivity].
    + destruct (is_close m) eqn:En; eexists _, _, _, _; (split; [reflexivity|]; split; [|reflexivity]); cbn; rewrite Ec; (split; [reflexivity|]; split; [reflexivity|]; split; [reflexivity|]).
      * right; right; left. destruct m; try discriminate. auto.
      * right; right; right. split; [reflexivity|]. split; [intros ->; discriminate|reflexivity].
  - right. eexists _, _, _, _. split; [reflexivity|]. split; [|reflexivity]. cbn. auto.
  - right. eexists _, _, _, _. split; [reflexivity|]. split; [|reflexivity]. cbn. eauto 6.
  - right. eexists _, _, _, _. split; [reflexivity|]. split; [|reflexivity]. cbn. auto.
Qed.

Lemma may_who w i t t' c ev : may w i t t' c ev -> forall e, In e ev -> who e = i.
Proof.
  unfold may. destruct (g_pc t) as [|m| |m|m r].
  - intros (m & _ & _ & _ & ->) e [<-|[]]. reflexivity.
  - intros (_ & _ & -> & _) e [].
  - intros (_ & _ & -> & _) e [].
  - intros (_ & _ & a & -> & _) e [<-|[]]. reflexivity.
  - intros (_ & _ & -> & _) e [<-|[]]. reflexivity.
Qed.
Lemma may_mono w i t t' c ev : may w i t t' c ev -> w_closed w = true -> c = true.
Proof. unfold may. destruct (g_pc t) as [|m| |m|m r]; [intros (m & _ & _ & -> & _)|intros (_ & -> & _)|intros (_ & -> & _)|intros (_ & -> & _)|intros (_ & -> & _)]; auto. Qed.
Lemma own_all i ev : (forall e, In e ev -> who e = i) -> own i ev = ev.
Proof.
  induction ev as [|e ev IH]; intros H; [reflexivity|]. unfold own. cbn. rewrite (H e (or_introl eq_refl)), Nat.eqb_refl. f_equal. apply IH. intros x Hx. apply H. now right.
Qed.
Lemma own_none i j ev : i <> j -> (forall e, In e ev -> who e = j) -> own i ev = [].
Proof.
  intros Hn. induction ev as [|e ev IH]; intros H; [reflexivity|]. unfold own. cbn. rewrite (H e (or_introl eq_refl)), (proj2 (Nat.eqb_neq j i) (not_eq_sym Hn)). apply IH. intros x Hx. apply H. now right.
Qed.

Lemma may_fits w i t t' c ev prog l : may w i t t' c ev -> knows (w_closed w) (g_pc t) -> fits i prog t l -> fits i prog t' (l ++ ev).
Proof.
  unfold may, fits. intros M _ (d & l0 & Hf & H). destruct (g_pc t) as [|m| |m|m r].
  - destruct M as (m & Ht & Hp & _ & ->). destruct H as [-> ->]. exists d, l0. split; [assumption|]. rewrite Hp, Ht. auto.
  - destruct M as (Ht & _ & -> & M). destruct H as [-> ->]. exists d, l0. split; [assumption|]. rewrite app_nil_r.
    destruct M as [(_ & -> & ->)|[(_ & Hm & ->)|[(_ & -> & ->)|(_ & _ & ->)]]]; rewrite Ht; auto.
  - destruct M as (Ht & _ & -> & ->). destruct H as [-> ->]. exists d, l0. split; [assumption|]. rewrite app_nil_r, Ht. auto.
  - destruct M as (Ht & _ & a & -> & ->). destruct H as [-> ->]. exists d, l0. split; [assumption|]. rewrite Ht, <- app_assoc. auto.
  - destruct M as (Ht & _ & -> & ->). destruct r as [|a].
    + destruct H as (-> & -> & Hm). eexists _, _. split; [exact (full_refused i m d l0 Hm Hf)|]. rewrite Ht, <- !app_assoc. auto.
    + destruct H as (-> & ->). eexists _, _. split; [exact (full_got i m d a l0 Hf)|]. rewrite Ht, <- !app_assoc. auto.
Qed.

Lemma fits_invoked i prog t l : fits i prog t l -> (g_pc t = Mark \/ g_pc t = Enter MClose) -> In (Inv i MClose) l.
Proof.
  intros (d & l0 & _ & H) Hp. destruct Hp as [E|E]; rewrite E in H; destruct H as [_ ->]; apply in_or_app; right; now left.
Qed.
Lemma own_in i e l : In e (own i l) -> In e l.
Proof. intros H. apply filter_In in H. tauto. Qed.

Lemma step_good progs w ia : good progs w -> good progs (step w ia).
Proof.
  destruct ia as [i a]. intros G. destruct (step_may w i a) as [->|(t & t' & c & ev & Et & M & ->)]; [assumption|].
  destruct G as (Hl & Hf & Hk & Hw & Hc & Hr & Hre & Hn). pose proof (may_who _ _ _ _ _ _ M) as Hwho. pose proof (may_mono _ _ _ _ _ _ M) as Hmono.
  destruct (nth_error progs i) as [prog|] eqn:Ep; [|apply nth_error_None in Ep; assert (i < length (w_gs w)) by (apply nth_error_Some; congruence); lia].
  pose proof (Hf i t prog Et Ep) as Fi. pose proof (Hk i t Et) as Ki. pose proof (may_fits _ _ _ _ _ _ _ _ M Ki Fi) as Fi'.
  unfold good. cbn [w_gs w_ev w_closed]. split; [now rewrite put_len|]. split; [|split; [|split; [|split; [|split; [|split]]]]].
  - intros j tj pj Ej Epj. rewrite own_app. destruct (Nat.eq_dec j i) as [->|Hji].
    + rewrite (put_same _ _ _ _ Et) in Ej. apply some_inj in Ej. subst tj. assert (pj = prog) by congruence. subst pj. now rewrite (own_all i ev Hwho).
    + rewrite put_other in Ej by congruence. rewrite (own_none j i ev Hji Hwho), app_nil_r. now apply Hf.
  - intros j tj Ej. destruct (Nat.eq_dec j i) as [->|Hji].
    + rewrite (put_same _ _ _ _ Et) in Ej. apply some_inj in Ej. subst tj. revert M Ki. unfold may, knows. destruct (g_pc t) as [|m| |m|m r].
      * intros (m & _ & -> & _ & _) _. exact I.
      * intros (_ & -> & _ & M). destruct M as [(E & -> & ->)|[(E & Hm & ->)|[(_ & -> & ->)|(_ & Hm & ->)]]]; intros _; cbn.
        -- exact I.
        -- destruct m; assumption.
        -- exact I.
        -- destruct m; [congruence|exact I|exact I].
      * intros (_ & -> & _ & ->) _. reflexivity.
      * intros (_ & -> & x & _ & ->). destruct m; auto.
      * intros (_ & _ & _ & ->) _. exact I.
    + rewrite put_other in Ej by congruence. pose proof (Hk j tj Ej) as K. revert K. unfold knows. destruct (g_pc tj) as [|m| |m|m [|x]]; auto; destruct m; auto.
  - intros e He. apply in_app_or in He. destruct He as [He|He]; [now apply Hw|]. rewrite (Hwho e He). congruence.
  - intros Ec. destruct (w_closed w) eqn:Ecw.
    + destruct (Hc eq_refl) as [(j & Hj) Hk2]. split; [exists j; apply in_or_app; now left|]. destruct Hk2 as [(k & x & Hx)|(k & tk & Ek & Pk)].
      * left. exists k, x. apply in_or_app. now left.
      * destruct (Nat.eq_dec k i) as [->|Hki].
        -- assert (tk = t) by congruence. subst tk. unfold may in M. rewrite Pk in M. destruct M as (_ & _ & x & -> & _). left. exists i, x. apply in_or_app. right. now left.
        -- right. exists k, tk. split; [|assumption]. rewrite put_other; congruence.
    + assert (g_pc t = Mark) as Pt.
      { unfold may in M. destruct (g_pc t) as [|m| |m|m r]; [destruct M as (m & _ & _ & E & _)|destruct M as (_ & E & _)|reflexivity|destruct M as (_ & E & _)|destruct M as (_ & E & _)]; congruence. }
      unfold may in M. rewrite Pt in M. destruct M as (_ & _ & -> & Pt'). split.
      * exists i. rewrite app_nil_r. apply (own_in i). apply (fits_invoked i prog t _ Fi). now left.
      * right. exists i, t'. split; [exact (put_same _ _ _ _ Et)|assumption].
  - intros j r H. apply in_app_or in H. destruct H as [H|H]; [apply Hmono, (Hr j r H)|]. unfold may in M. unfold knows in Ki. destruct (g_pc t) as [|m| |m|m r0].
    + destruct M as (m & _ & _ & _ & ->). destruct H as [H|[]]; discriminate.
    + destruct M as (_ & _ & -> & _). destruct H.
    + destruct M as (_ & _ & -> & _). destruct H.
    + destruct M as (_ & _ & x & -> & _). destruct H as [H|[]]; discriminate.
    + destruct M as (_ & -> & -> & _). destruct H as [H|[]]. assert (m = MClose) by congruence. now subst m.
  - intros j x H. apply in_app_or in H. destruct H as [H|H]; [apply Hmono, (Hre j x H)|]. unfold may in M. unfold knows in Ki. destruct (g_pc t) as [|m| |m|m r0].
    + destruct M as (m & _ & _ & _ & ->). destruct H as [H|[]]; discriminate.
    + destruct M as (_ & _ & -> & _). destruct H.
    + destruct M as (_ & _ & -> & _). destruct H.
    + destruct M as (_ & -> & y & -> & _). destruct H as [H|[]]. assert (m = MClose) by congruence. now subst m.
    + destruct M as (_ & _ & -> & _). destruct H as [H|[]]; discriminate.
  - pose proof (nbusy_put (w_gs w) i t t' Et) as B. rewrite invs_app, rets_app. unfold may in M. destruct (g_pc t) as [|m| |m|m r0].
    + destruct M as (m & _ & P & _ & ->). rewrite P in B. cbn [busy] in B. change (invs [Inv i m]) with 1. change (rets [Inv i m]) with 0. lia.
    + destruct M as (_ & _ & -> & M). assert (busy (g_pc t') = 1) as Eb by (destruct M as [(_ & _ & ->)|[(_ & _ & ->)|[(_ & _ & ->)|(_ & _ & ->)]]]; reflexivity). cbn [busy] in B. change (invs []) with 0. change (rets []) with 0. lia.
    + destruct M as (_ & _ & -> & P). rewrite P in B. cbn [busy] in B. change (invs []) with 0. change (rets []) with 0. lia.
    + destruct M as (_ & _ & x & -> & P). rewrite P in B. cbn [busy] in B. change (invs [Reach i m x]) with 0. change (rets [Reach i m x]) with 0. lia.
    + destruct M as (_ & _ & -> & P). rewrite P in B. cbn [busy] in B. change (invs [Ret i m r0]) with 0. change (rets [Ret i m r0]) with 1. lia.
Qed.

Lemma start_nth progs i t : nth_error (w_gs (start progs)) i = Some t -> exists p, nth_error progs i = Some p /\ t = Gor p Idle.
Proof. cbn. rewrite nth_error_map. destruct (nth_error progs i) as [p|]; [|discriminate]. intros H. apply some_inj in H. eauto. Qed.
Lemma start_good progs : good progs (start progs).
Proof.
  unfold good. split; [cbn; apply map_length|]. split; [|split; [|split; [|split; [|split; [|split]]]]].
  - intros i t p E Ep. destruct (start_nth _ _ _ E) as (p' & E' & ->). assert (p' = p) by congruence. subst p'. exists [], []. split; [constructor|]. cbn. auto.
  - intros i t E. destruct (start_nth _ _ _ E) as (p' & E' & ->). exact I.
  - intros e [].
  - discriminate.
  - intros j r [].
  - intros j r [].
  - cbn. induction progs; cbn; auto.
Qed.
Lemma run_app w s1 s2 : run w (s1 ++ s2) = run (run w s1) s2.
Proof. apply fold_left_app. Qed.
Lemma run_one w ia : run w [ia] = step w ia.
Proof. reflexivity. Qed.
Lemma run_good progs w s : good progs w -> good progs (run w s).
Proof. revert w. induction s as [|ia s IH]; intros w H; [assumption|]. cbn. apply IH, step_good, H. Qed.
Lemma reach_good progs s : good progs (run (start progs) s).
Proof. apply run_good, start_good. Qed.

Lemma each_call progs s i p : nth_error progs i = Some p -> told i p (own i (w_ev (run (start progs) s))).
Proof.
  intros Ep. destruct (reach_good progs s) as (Hl & Hf & _). set (w := run (start progs) s) in *.
  destruct (nth_error (w_gs w) i) as [t|] eqn:Et; [|apply nth_error_None in Et; assert (i < length progs) by (apply nth_error_Some; congruence); lia].
  destruct (Hf i t p Et Ep) as (d & l0 & Hd & H). destruct (g_pc t) as [|m| |m|m [|a]].
  - destruct H as [-> ->]. rewrite <- (app_nil_r l0). apply (full_told i d l0 Hd). constructor.
  - destruct H as [-> ->]. apply (full_told i d l0 Hd). constructor.
  - destruct H as [-> ->]. apply (full_told i d l0 Hd). constructor.
  - destruct H as [-> ->]. apply (full_told i d l0 Hd). constructor.
  - destruct H as (-> & -> & _). apply (full_told i d l0 Hd). constructor.
  - destruct H as [-> ->]. apply (full_told i d l0 Hd). constructor.
Qed.
Lemma only_callers progs s e : In e (w_ev (run (start progs) s)) -> nth_error progs (who e) <> None.
Proof. destruct (reach_good progs s) as (_ & _ & _ & H & _). exact (H e). Qed.

(* When an event happened. *)
Lemma step_one w ia : step w ia = w \/ exists i t t' c ev, step w ia = World c (put (w_gs w) i t') (w_ev w ++ ev) /\ nth_error (w_gs w) i = Some t /\ may w i t t' c ev /\ length ev <= 1.
Proof.
  destruct ia as [i a]. destruct (step_may w i a) as [->|(t & t' & c & ev & Et & M & ->)]; [now left|right]. exists i, t, t', c, ev. split; [reflexivity|]. split; [assumption|]. split; [assumption|].
  unfold may in M. destruct (g_pc t) as [|m| |m|m r0]; [destruct M as (m & _ & _ & _ & ->)|destruct M as (_ & _ & -> & _)|destruct M as (_ & _ & -> & _)|destruct M as (_ & _ & x & -> & _)|destruct M as (_ & _ & -> & _)]; cbn; lia.
Qed.
Lemma happened w s l e r : w_ev (run w s) = w_ev w ++ l ++ e :: r -> exists s1 ia s2, s = s1 ++ ia :: s2 /\ w_ev (run w s1) = w_ev w ++ l /\ w_ev (run w (s1 ++ [ia])) = w_ev w ++ l ++ [e].
Proof.
  revert l e r. induction s as [|ia s IH] using rev_ind; intros l e r H.
  - cbn in H. rewrite <- (app_nil_r (w_ev w)) in H at 1. apply app_inv_head in H. destruct l; discriminate.
  - rewrite run_app in H. cbn in H. destruct (step_one (run w s) ia) as [E|(i & t & t' & c & ev & E & _ & _ & Hlen)].
    + rewrite E in H. destruct (IH l e r H) as (s1 & ib & s2 & -> & H1 & H2). exists s1, ib, (s2 ++ [ia]). split; [now rewrite <- app_assoc|]. auto.
    + rewrite E in H. cbn [w_ev] in H. destruct ev as [|x [|y ev]]; [| |cbn in Hlen; lia].
      * rewrite app_nil_r in H. destruct (IH l e r H) as (s1 & ib & s2 & -> & H1 & H2). exists s1, ib, (s2 ++ [ia]). split; [now rewrite <- app_assoc|]. auto.
      * destruct r as [|z r _] using rev_ind.
        -- rewrite !app_assoc in H. apply app_inj_tail in H. destruct H as [H ->]. exists s, ia, []. split; [reflexivity|]. split; [assumption|]. rewrite run_app. cbn. rewrite E. cbn [w_ev]. now rewrite H, <- !app_assoc.
        -- assert (w_ev (run w s) = w_ev w ++ l ++ e :: r) as H'.
           { replace (w_ev w ++ l ++ e :: r ++ [z]) with ((w_ev w ++ l ++ e :: r) ++ [z]) in H by (rewrite <- !app_assoc; reflexivity). apply app_inj_tail in H. tauto. }
           destruct (IH l e r H') as (s1 & ib & s2 & -> & H1 & H2). exists s1, ib, (s2 ++ [ia]). split; [now rewrite <- app_assoc|]. auto.
Qed.

Lemma refused_after_close progs s i m l r : w_ev (run (start progs) s) = l ++ Ret i m Refused :: r -> exists j, In (Inv j MClose) l.
Proof.
  intros H. destruct (happened (start progs) s l _ r H) as (s1 & [k a] & s2 & _ & H1 & H2). cbn [w_ev start app] in H1, H2.
  destruct (reach_good progs s1) as (_ & _ & Hk & _ & Hc & _). rewrite run_app, run_one in H2. set (w := run (start progs) s1) in *.
  destruct (step_may w k a) as [E|(t & t' & c & ev & Et & M & E)]; rewrite E in H2.
  - rewrite H1 in H2. rewrite <- (app_nil_r l) in H2 at 1. apply app_inv_head in H2. discriminate.
  - cbn [w_ev] in H2. rewrite H1 in H2. apply app_inv_head in H2. subst ev. pose proof (Hk k t Et) as K. unfold may in M. destruct (g_pc t) as [|m'| |m'|m' r'].
    + destruct M as (? & _ & _ & _ & X). discriminate.
    + destruct M as (_ & _ & X & _). discriminate.
    + destruct M as (_ & _ & X & _). discriminate.
    + destruct M as (_ & _ & ? & X & _). discriminate.
    + destruct M as (_ & _ & X & _). assert (r' = Refused) by congruence. subst r'. assert (w_closed w = true) as Ec by (destruct m'; exact K). destruct (Hc Ec) as [(j & Hj) _]. exists j. congruence.
Qed.

(* From a closed file on, a call that is about to check is refused. *)
Lemma refuses_on w s i m t : w_closed w = true -> m <> MName -> nth_error (w_gs w) i = Some t -> g_pc t = Check m ->
  exists ev, w_ev (run w s) = w_ev w ++ ev /\ (own i ev = [] \/ exists l, own i ev = Ret i m Refused :: l).
Proof.
  intros Ec Hm Et Pt.
  assert (forall s w t, w_closed w = true -> nth_error (w_gs w) i = Some t -> g_pc t = Check m \/ g_pc t = Back m Refused ->
    exists ev, w_ev (run w s) = w_ev w ++ ev /\ (own i ev = [] \/ exists l, own i ev = Ret i m Refused :: l)) as A; [|exact (A s w t Ec Et (or_introl Pt))].
  clear w s t Ec Et Pt. induction s as [|[k a] s IH]; intros w t Ec Et Pt; [exists []; rewrite app_nil_r; auto|].
  change (run w ((k, a) :: s)) with (run (step w (k, a)) s). destruct (step_may w k a) as [->|(tk & t' & c & ev & Ek & M & E)]; [now apply (IH w t)|].
  rewrite E. pose proof (may_mono _ _ _ _ _ _ M Ec) as Ec'. subst c. pose proof (may_who _ _ _ _ _ _ M) as Hwho. destruct (Nat.eq_dec k i) as [->|Hki].
  - assert (tk = t) by congruence. subst tk. destruct Pt as [Pt|Pt]; unfold may in M; rewrite Pt in M.
    + destruct M as (_ & _ & -> & M). assert (g_pc t' = Back m Refused) as Pt' by (destruct M as [(_ & X & _)|[(_ & _ & X)|[(X & _)|(X & _)]]]; congruence).
      rewrite app_nil_r. destruct (IH (World true (put (w_gs w) i t') (w_ev w)) t' eq_refl (put_same _ _ _ _ Et) (or_intror Pt')) as (ev & H1 & H2). exists ev. auto.
    + destruct M as (_ & _ & -> & _).
      assert (forall s w, exists ev, w_ev (run w s) = w_ev w ++ ev) as Grow.
      { clear. induction s as [|ia s IH]; intros w; [exists []; now rewrite app_nil_r|]. change (run w (ia :: s)) with (run (step w ia) s). destruct (IH (step w ia)) as (ev & ->). destruct (step_one w ia) as [->|(j & t & t' & c & e & -> & _)]; [eauto|]. cbn [w_ev]. exists (e ++ ev). now rewrite app_assoc. }
      destruct (Grow s (World true (put (w_gs w) i t') (w_ev w ++ [Ret i m Refused]))) as (ev & H1). cbn [w_ev] in H1. exists (Ret i m Refused :: ev). rewrite H1, <- app_assoc. split; [reflexivity|].
      right. exists (own i ev). unfold own at 1. cbn. now rewrite Nat.eqb_refl.
  - destruct (IH (World true (put (w_gs w) k t') (w_ev w ++ ev)) t eq_refl) as (ev2 & H1 & H2); [cbn [w_gs]; rewrite put_other; congruence|assumption|].
    cbn [w_ev] in H1. exists (ev ++ ev2). rewrite H1, app_assoc. split; [reflexivity|]. rewrite own_app, (own_none i k ev (not_eq_sym Hki) Hwho). exact H2.
Qed.

Lemma closed_refuses progs s e1 j r e2 i m e3 : m <> MName -> w_ev (run (start progs) s) = e1 ++ Ret j MClose r :: e2 ++ Inv i m :: e3 ->
  own i e3 = [] \/ exists l, own i e3 = Ret i m Refused :: l.
Proof.
  intros Hm H. replace (e1 ++ Ret j MClose r :: e2 ++ Inv i m :: e3) with ((e1 ++ Ret j MClose r :: e2) ++ Inv i m :: e3) in H by (rewrite <- app_assoc; reflexivity).
  set (l := e1 ++ Ret j MClose r :: e2) in *. destruct (happened (start progs) s l _ e3 H) as (s1 & [k a] & s2 & -> & H1 & H2). cbn [w_ev start app] in H1, H2.
  destruct (reach_good progs s1) as (_ & _ & _ & _ & _ & Hr & _). rewrite run_app, run_one in H2.
  assert (w_closed (run (start progs) s1) = true) as Ec by (apply (Hr j r); rewrite H1; unfold l; apply in_or_app; right; now left).
  change (s1 ++ (k, a) :: s2) with (s1 ++ [(k, a)] ++ s2) in H. rewrite !run_app, run_one in H. set (w := run (start progs) s1) in *.
  destruct (step_may w k a) as [E|(t & t' & c & ev & Et & M & E)]; rewrite E in H2, H.
  - rewrite H1 in H2. rewrite <- (app_nil_r l) in H2 at 1. apply app_inv_head in H2. discriminate.
  - cbn [w_ev] in H2. rewrite H1 in H2. apply app_inv_head in H2. subst ev. pose proof (may_mono _ _ _ _ _ _ M Ec) as Ec'. subst c.
    unfold may in M. destruct (g_pc t) as [|m'| |m'|m' r'].
    + destruct M as (m' & Ht & Pt' & _ & X). assert (i = k /\ m = m') as [-> ->] by (split; congruence). clear X.
      destruct (refuses_on (World true (put (w_gs w) k t') (w_ev w ++ [Inv k m'])) s2 k m' t' eq_refl Hm (put_same _ _ _ _ Et) Pt') as (ev & Hev & Ho).
      cbn [w_ev] in Hev. rewrite H in Hev. rewrite H1, <- app_assoc in Hev. apply app_inv_head in Hev. cbn in Hev. assert (e3 = ev) by congruence. now subst e3.
    + destruct M as (_ & _ & X & _). discriminate.
    + destruct M as (_ & _ & X & _). discriminate.
    + destruct M as (_ & _ & ? & X & _). discriminate.
    + destruct M as (_ & _ & X & _). discriminate.
Qed.

Lemma nbusy_idle gs : nbusy gs = 0 -> forall i t, nth_error gs i = Some t -> g_pc t = Idle.
Proof.
  induction gs as [|x gs IH]; intros H [|i] t E; try discriminate; unfold nbusy in *; cbn [fold_right nth_error] in *.
  - apply some_inj in E. subst x. destruct (g_pc t); [reflexivity| | | |]; cbn in H; discriminate.
  - apply (IH ltac:(lia) i t E).
Qed.
Lemma full_returns i p l m : full i p l -> In (Inv i m) l -> exists r, In (Ret i m r) l.
Proof.
  induction 1 as [|m' p a l H IH|m' p l Hm H IH]; intros Hi; [destruct Hi| |]; apply in_app_or in Hi; destruct Hi as [Hi|Hi].
  - destruct (IH Hi) as (r & Hr). exists r. apply in_or_app. now left.
  - destruct Hi as [X|[X|[X|[]]]]; try discriminate. assert (m' = m) by congruence. subst m'. exists (Got a). apply in_or_app. right. right. right. now left.
  - destruct (IH Hi) as (r & Hr). exists r. apply in_or_app. now left.
  - destruct Hi as [X|[X|[]]]; try discriminate. assert (m' = m) by congruence. subst m'. exists Refused. apply in_or_app. right. right. now left.
Qed.
Lemma some_close_enters progs s j : let ev := w_ev (run (start progs) s) in no_call_open ev -> In (Inv j MClose) ev -> exists k a, In (Reach k MClose a) ev.
Proof.
  intros ev Hq Hj. unfold ev in *. destruct (reach_good progs s) as (Hl & Hf & _ & Hw & Hc & Hr & _ & Hn). set (w := run (start progs) s) in *.
  assert (nbusy (w_gs w) = 0) as Hb by (unfold no_call_open in Hq; unfold invs, rets in Hn; lia). pose proof (nbusy_idle _ Hb) as Hi.
  pose proof (Hw _ Hj) as Hp. cbn [who] in Hp. destruct (nth_error progs j) as [p|] eqn:Ep; [|congruence]. clear Hp.
  destruct (nth_error (w_gs w) j) as [t|] eqn:Et; [|apply nth_error_None in Et; assert (j < length progs) by (apply nth_error_Some; congruence); lia].
  destruct (Hf j t p Et Ep) as (d & l0 & Hd & H). rewrite (Hi j t Et) in H. destruct H as [_ H].
  assert (In (Inv j MClose) (own j (w_ev w))) as Ho by (apply filter_In; split; [assumption|apply Nat.eqb_refl]). rewrite H in Ho. destruct (full_returns _ _ _ _ Hd Ho) as (r & Hret).
  rewrite <- H in Hret. apply own_in in Hret. destruct (Hc (Hr j r Hret)) as [_ [Hx|(k & tk & Ek & Pk)]]; [exact Hx|]. rewrite (Hi k tk Ek) in Pk. discriminate.
Qed.

(* One closer: at most one close enters the inner file. *)
Definition once (k : nat) (w : world) : Prop :=
  length (closings (w_ev w)) <= 1 /\ (w_closed w = false -> closings (w_ev w) = []) /\
  forall t, nth_error (w_gs w) k = Some t -> (g_pc t = Mark -> w_closed w = false) /\ (g_pc t = Enter MClose -> closings (w_ev w) = []).
Lemma fits_wants i prog t l : fits i prog t l -> (g_pc t = Mark \/ g_pc t = Enter MClose) -> In MClose prog.
Proof. intros (d & l0 & _ & H) Hp. destruct Hp as [E|E]; rewrite E in H; destruct H as [-> _]; apply in_or_app; right; now left. Qed.
Lemma closings_app a b : closings (a ++ b) = closings a ++ closings b.
Proof. apply filter_app. Qed.
Lemma step_once progs k w ia : one_closer k progs -> good progs w -> once k w -> once k (step w ia).
Proof.
  intros H1 G O. destruct ia as [i a]. destruct (step_may w i a) as [->|(t & t' & c & ev & Et & M & ->)]; [assumption|].
  destruct G as (Hl & Hf & Hk & _ & _ & _ & Hre & _). destruct O as (O1 & O2 & O3).
  destruct (nth_error progs i) as [prog|] eqn:Ep; [|apply nth_error_None in Ep; assert (i < length (w_gs w)) by (apply nth_error_Some; congruence); lia].
  assert (g_pc t = Mark \/ g_pc t = Enter MClose -> i = k) as Hi by (intros Hp; exact (H1 i prog Ep (fits_wants _ _ _ _ (Hf i t prog Et Ep) Hp))).
  pose proof (Hk i t Et) as Ki. unfold once. cbn [w_gs w_ev w_closed]. rewrite closings_app. unfold may in M.
  assert (forall tk, i <> k -> nth_error (put (w_gs w) i t') k = Some tk -> nth_error (w_gs w) k = Some tk) as Hput by (intros tk Hn E; rewrite put_other in E; congruence).
  destruct (g_pc t) as [|m| |m|m r] eqn:Pt.
  - destruct M as (m & _ & Pt' & -> & ->). change (closings [Inv i m]) with (@nil event). rewrite app_nil_r. split; [assumption|]. split; [assumption|]. intros tk Ek.
    destruct (Nat.eq_dec i k) as [->|Hn]; [|exact (O3 tk (Hput tk Hn Ek))]. rewrite (put_same _ _ _ _ Et) in Ek. apply some_inj in Ek. subst tk. rewrite Pt'. split; discriminate.
  - destruct M as (_ & -> & -> & M). change (closings []) with (@nil event). rewrite app_nil_r. split; [assumption|]. split; [assumption|]. intros tk Ek.
    destruct (Nat.eq_dec i k) as [->|Hn]; [|exact (O3 tk (Hput tk Hn Ek))]. rewrite (put_same _ _ _ _ Et) in Ek. apply some_inj in Ek. subst tk.
    destruct M as [(_ & -> & ->)|[(_ & _ & ->)|[(X & -> & ->)|(_ & Hm & ->)]]]; (split; [try discriminate|try discriminate]); [auto|]. intros X. congruence.
  - destruct M as (_ & -> & -> & Pt'). change (closings []) with (@nil event). rewrite app_nil_r. assert (i = k) as -> by (apply Hi; now left). destruct (O3 t Et) as [O4 _]. pose proof (O4 Pt) as Ef.
    split; [assumption|]. split; [discriminate|]. intros tk Ek. rewrite (put_same _ _ _ _ Et) in Ek. apply some_inj in Ek. subst tk. rewrite Pt'. split; [discriminate|]. intros _. now apply O2.
  - destruct M as (_ & -> & x & -> & Pt'). destruct (is_close m) eqn:Em.
    + destruct m; try discriminate. assert (i = k) as -> by (apply Hi; now right). destruct (O3 t Et) as [_ O4]. rewrite (O4 Pt). cbn [knows] in Ki. cbn. split; [lia|]. split; [congruence|].
      intros tk Ek. rewrite (put_same _ _ _ _ Et) in Ek. apply some_inj in Ek. subst tk. rewrite Pt'. split; discriminate.
    + assert (closings [Reach i m x] = []) as -> by (destruct m; [discriminate|reflexivity|reflexivity]). rewrite app_nil_r. split; [assumption|]. split; [assumption|]. intros tk Ek.
      destruct (Nat.eq_dec i k) as [->|Hn]; [|exact (O3 tk (Hput tk Hn Ek))]. rewrite (put_same _ _ _ _ Et) in Ek. apply some_inj in Ek. subst tk. rewrite Pt'. split; discriminate.
  - destruct M as (_ & -> & -> & Pt'). change (closings [Ret i m r]) with (@nil event). rewrite app_nil_r. split; [assumption|]. split; [assumption|]. intros tk Ek.
    destruct (Nat.eq_dec i k) as [->|Hn]; [|exact (O3 tk (Hput tk Hn Ek))]. rewrite (put_same _ _ _ _ Et) in Ek. apply some_inj in Ek. subst tk. rewrite Pt'. split; discriminate.
Qed.
Lemma closed_once progs k s : one_closer k progs -> length (closings (w_ev (run (start progs) s))) <= 1.
Proof.
  intros H1. assert (forall s w, good progs w -> once k w -> once k (run w s)) as A.
  { induction s0 as [|ia s0 IH]; intros w G O; [assumption|]. cbn. apply IH; [now apply step_good|exact (step_once progs k w ia H1 G O)]. }
  refine (proj1 (A s (start progs) (start_good progs) _)). split; [cbn; lia|]. split; [reflexivity|]. intros t E. destruct (start_nth _ _ _ E) as (p & _ & ->). split; discriminate.
Qed.

(* ---- the recording wrappers ---- *)

Inductive ofull (i : nat) : list ocall -> list oevent -> Prop :=
| ofull_nil : ofull i [] []
| ofull_snoc c p a l : ofull i p l -> ofull i (p ++ [c]) (l ++ whole i c a).
Lemma ofull_recorded i p l : ofull i p l -> forall q l', recorded i q l' -> recorded i (p ++ q) (l ++ l').
Proof. induction 1 as [|c p a l H IH]; intros q l' Hq; [exact Hq|]. rewrite <- !app_assoc. apply IH. now apply rec_whole. Qed.

Definition so_far (i : nat) (p : opc) : list oevent :=
  match p with
  | OIdle => []
  | ONote c => [OInv i c]
  | OCall c => [OInv i c; ORec i (noted c true (c_args c))]
  | OAfter c a => [OInv i c; ORec i (noted c true (c_args c)); OReach i c a]
  | OBack c a => [OInv i c; ORec i (noted c true (c_args c)); OReach i c a; ORec i (noted c false a)]
  end.
Definition now (p : opc) : list ocall := match p with OIdle => [] | ONote c | OCall c | OAfter c _ | OBack c _ => [c] end.
Definition ofits (i : nat) (prog : list ocall) (t : ogor) (l : list oevent) : Prop :=
  exists d l0, ofull i d l0 /\ prog = d ++ now (o_pc t) ++ o_todo t /\ l = l0 ++ so_far i (o_pc t).

(* What a step adds. *)
Definition adds (i : nat) (p : opc) (todo : list ocall) (a : N) : opc * list ocall * list oevent :=
  match p with
  | OIdle => match todo with [] => (OIdle, [], []) | c :: r => (ONote c, r, [OInv i c]) end
  | ONote c => (OCall c, todo, [ORec i (noted c true (c_args c))])
  | OCall c => (OAfter c a, todo, [OReach i c a])
  | OAfter c x => (OBack c x, todo, [ORec i (noted c false x)])
  | OBack c x => (OIdle, todo, [ORet i c x])
  end.
Lemma put_id {A} (l : list A) i x : nth_error l i = Some x -> put l i x = l.
Proof. revert i. induction l as [|y l IH]; intros [|i] H; try discriminate; cbn in *; [apply some_inj in H; now subst|]. now rewrite IH. Qed.
Lemma ostep_adds w i a : ostep w (i, a) =
  match nth_error (o_gs w) i with
  | None => w
  | Some t => let '(p, todo, ev) := adds i (o_pc t) (o_todo t) a in OWorld (o_hist w ++ records ev) (put (o_gs w) i (OGor todo p)) (o_ev w ++ ev)
  end.
Proof.
  unfold ostep. destruct (nth_error (o_gs w) i) as [[todo p]|] eqn:E; [|reflexivity]. cbn [o_pc o_todo]. destruct p; cbn [adds]; try (cbn; now rewrite ?app_nil_r).
  destruct todo as [|c r]; cbn; rewrite ?app_nil_r; [|reflexivity]. rewrite (put_id _ _ _ E). destruct w; reflexivity.
Qed.

Lemma oown_app i a b : oown i (a ++ b) = oown i a ++ oown i b.
Proof. apply filter_app. Qed.
Lemma adds_who i p todo a e : In e (snd (adds i p todo a)) -> owho e = i.
Proof. destruct p; cbn; try (intros [<-|[]]; reflexivity). destruct todo; cbn; [intros []|intros [<-|[]]; reflexivity]. Qed.
Lemma oown_all i ev : (forall e, In e ev -> owho e = i) -> oown i ev = ev.
Proof.
  induction ev as [|e ev IH]; intros H; [reflexivity|]. unfold oown. cbn. rewrite (H e (or_introl eq_refl)), Nat.eqb_refl. f_equal. apply IH. intros x Hx. apply H. now right.
Qed.
Lemma oown_none i j ev : i <> j -> (forall e, In e ev -> owho e = j) -> oown i ev = [].
Proof.
  intros Hn. induction ev as [|e ev IH]; intros H; [reflexivity|]. unfold oown. cbn. rewrite (H e (or_introl eq_refl)), (proj2 (Nat.eqb_neq j i) (not_eq_sym Hn)). apply IH. intros x Hx. apply H. now right.
Qed.
Lemma adds_fits i prog t l a : ofits i prog t l -> let '(p, todo, ev) := adds i (o_pc t) (o_todo t) a in ofits i prog (OGor todo p) (l ++ ev).
Proof.
  intros (d & l0 & Hd & -> & ->). destruct t as [todo p]. cbn [o_pc o_todo]. destruct p as [|c|c|c x|c x]; cbn [adds now so_far].
  - destruct todo as [|c r]; exists d, l0; cbn; rewrite ?app_nil_r; auto.
  - exists d, l0. cbn. rewrite <- !app_assoc. auto.
  - exists d, l0. cbn. rewrite <- !app_assoc. auto.
  - exists d, l0. cbn. rewrite <- !app_assoc. auto.
  - exists (d ++ [c]), (l0 ++ whole i c x). split; [now constructor|]. cbn. rewrite <- !app_assoc. cbn. rewrite ?app_nil_r. auto.
Qed.

Definition sel (fsys before : bool) (method : N) (n : entry) : bool := Bool.eqb (n_fsys n) fsys && Bool.eqb (n_before n) before && N.eqb (n_method n) method.
Definition pending (fsys : bool) (method : N) (p : opc) : nat :=
  match p with OCall c | OAfter c _ => if Bool.eqb (c_fsys c) fsys && N.eqb (c_method c) method then 1 else 0 | _ => 0 end.
Definition npending fsys method (gs : list ogor) : nat := fold_right (fun t n => pending fsys method (o_pc t) + n) 0 gs.
Definition obusy (p : opc) : nat := match p with OIdle => 0 | _ => 1 end.
Definition nobusy (gs : list ogor) : nat := fold_right (fun t n => obusy (o_pc t) + n) 0 gs.
Definition oinvs (l : list oevent) : nat := length (filter (fun e => match e with OInv _ _ => true | _ => false end) l).
Definition orets (l : list oevent) : nat := length (filter (fun e => match e with ORet _ _ _ => true | _ => false end) l).
Lemma sum_put (f : opc -> nat) gs i t t' : nth_error gs i = Some t ->
  fold_right (fun t n => f (o_pc t) + n) 0 (put gs i t') + f (o_pc t) = fold_right (fun t n => f (o_pc t) + n) 0 gs + f (o_pc t').
Proof.
  revert i. induction gs as [|x gs IH]; intros [|i] H; try discriminate; cbn [put nth_error fold_right] in *; [apply some_inj in H; subst x; lia|]. specialize (IH i H). lia.
Qed.
Lemma count_app f b m x y : count f b m (x ++ y) = count f b m x + count f b m y.
Proof. unfold count. now rewrite filter_app, app_length. Qed.
Lemma records_app a b : records (a ++ b) = records a ++ records b.
Proof. apply flat_map_app. Qed.

Definition ogood (progs : list (list ocall)) (w : oworld) : Prop :=
  length (o_gs w) = length progs /\
  (forall i t p, nth_error (o_gs w) i = Some t -> nth_error progs i = Some p -> ofits i p t (oown i (o_ev w))) /\
  o_hist w = records (o_ev w) /\
  (forall f m, count f true m (o_hist w) = count f false m (o_hist w) + npending f m (o_gs w)) /\
  oinvs (o_ev w) = orets (o_ev w) + nobusy (o_gs w).

Lemma ostep_good progs w ia : ogood progs w -> ogood progs (ostep w ia).
Proof.
  destruct ia as [i a]. intros (Hl & Hf & Hh & Hp & Hb). rewrite ostep_adds. destruct (nth_error (o_gs w) i) as [t|] eqn:Et; [|repeat split; assumption].
  destruct (adds i (o_pc t) (o_todo t) a) as [[p todo] ev] eqn:Ea. pose proof (adds_who i (o_pc t) (o_todo t) a) as Hwho. rewrite Ea in Hwho. cbn [snd] in Hwho.
  unfold ogood. cbn [o_gs o_ev o_hist]. split; [now rewrite put_len|]. split; [|split; [|split]].
  - intros j tj pj Ej Epj. rewrite oown_app. destruct (Nat.eq_dec j i) as [->|Hji].
    + rewrite (put_same _ _ _ _ Et) in Ej. apply some_inj in Ej. subst tj. rewrite (oown_all i ev Hwho). pose proof (adds_fits i pj t (oown i (o_ev w)) a (Hf i t pj Et Epj)) as F. rewrite Ea in F. exact F.
    + rewrite put_other in Ej by congruence. rewrite (oown_none j i ev Hji Hwho), app_nil_r. now apply Hf.
  - now rewrite Hh, records_app.
  - intros f m. rewrite !count_app. specialize (Hp f m). unfold npending in *. pose proof (sum_put (pending f m) (o_gs w) i t (OGor todo p) Et) as S. cbn [o_pc] in S.
    assert (count f true m (records ev) + pending f m (o_pc t) = count f false m (records ev) + pending f m p) as D; [|lia].
    destruct (o_pc t) as [|c|c|c x|c x]; cbn [adds] in Ea.
    + destruct (o_todo t) as [|c r]; injection Ea as <- <- <-; reflexivity.
    + injection Ea as <- <- <-. unfold count, noted. cbn. destruct (Bool.eqb (c_fsys c) f), (N.eqb (c_method c) m); reflexivity.
    + injection Ea as <- <- <-. reflexivity.
    + injection Ea as <- <- <-. unfold count, noted. cbn. destruct (Bool.eqb (c_fsys c) f), (N.eqb (c_method c) m); reflexivity.
    + injection Ea as <- <- <-. reflexivity.
  - unfold oinvs, orets, nobusy in *. rewrite !filter_app, !app_length. pose proof (sum_put obusy (o_gs w) i t (OGor todo p) Et) as S. cbn [o_pc] in S.
    destruct (o_pc t) as [|c|c|c x|c x]; cbn [adds] in Ea; [destruct (o_todo t) as [|c r]| | | |]; injection Ea as <- <- <-; cbn [obusy filter length] in *; lia.
Qed.
Lemma ostart_nth progs i t : nth_error (o_gs (ostart progs)) i = Some t -> exists p, nth_error progs i = Some p /\ t = OGor p OIdle.
Proof. cbn. rewrite nth_error_map. destruct (nth_error progs i) as [p|]; [|discriminate]. intros H. apply some_inj in H. eauto. Qed.
Lemma oreach_good progs s : ogood progs (orun (ostart progs) s).
Proof.
  assert (forall s w, ogood progs w -> ogood progs (orun w s)) as A by (induction s0 as [|ia s0 IH]; intros w H; [assumption|cbn; apply IH, ostep_good, H]).
  apply A. unfold ogood. split; [cbn; apply map_length|]. split; [|split; [reflexivity|split]].
  - intros i t p E Ep. destruct (ostart_nth _ _ _ E) as (p' & E' & ->). assert (p' = p) by congruence. subst p'. exists [], []. split; [constructor|]. cbn. auto.
  - intros f m. cbn. unfold npending. clear A. induction progs; cbn; auto.
  - cbn. unfold nobusy. clear A. induction progs; cbn; auto.
Qed.
Lemma each_recorded progs s i p : nth_error progs i = Some p -> recorded i p (oown i (o_ev (orun (ostart progs) s))).
Proof.
  intros Ep. destruct (oreach_good progs s) as (Hl & Hf & _). set (w := orun (ostart progs) s) in *.
  destruct (nth_error (o_gs w) i) as [t|] eqn:Et; [|apply nth_error_None in Et; assert (i < length progs) by (apply nth_error_Some; congruence); lia].
  destruct (Hf i t p Et Ep) as (d & l0 & Hd & -> & ->). apply (ofull_recorded i d l0 Hd). destruct (o_pc t) as [|c|c|c a|c a]; cbn [now so_far app]; [constructor| | | |].
  - apply (rec_part i c (o_todo t) 0%N _ (tl (whole i c 0%N))); [reflexivity|discriminate].
  - apply (rec_part i c (o_todo t) 0%N _ (tl (tl (whole i c 0%N)))); [reflexivity|discriminate].
  - apply (rec_part i c (o_todo t) a _ (tl (tl (tl (whole i c a))))); [reflexivity|discriminate].
  - apply (rec_part i c (o_todo t) a _ (tl (tl (tl (tl (whole i c a)))))); [reflexivity|discriminate].
Qed.
Lemma hist_records progs s : let w := orun (ostart progs) s in o_hist w = records (o_ev w).
Proof. exact (proj1 (proj2 (proj2 (oreach_good progs s)))). Qed.
Lemma orun_app w s1 s2 : orun w (s1 ++ s2) = orun (orun w s1) s2.
Proof. apply fold_left_app. Qed.
Lemma hist_prefix progs s h1 h2 : o_hist (orun (ostart progs) s) = h1 ++ h2 -> exists s1 s2, s = s1 ++ s2 /\ o_hist (orun (ostart progs) s1) = h1.
Proof.
  revert h1 h2. induction s as [|[i a] s IH] using rev_ind; intros h1 h2 H.
  - cbn in H. exists [], []. split; [reflexivity|]. destruct h1; [reflexivity|discriminate].
  - pose proof H as H0. rewrite orun_app in H. change (orun ?w [?x]) with (ostep w x) in H. rewrite ostep_adds in H.
    assert (forall r, o_hist (orun (ostart progs) s) = h1 ++ r -> exists s1 s2, s ++ [(i, a)] = s1 ++ s2 /\ o_hist (orun (ostart progs) s1) = h1) as Done.
    { intros r Hr. destruct (IH h1 r Hr) as (s1 & s2 & -> & E). exists s1, (s2 ++ [(i, a)]). split; [now rewrite app_assoc|assumption]. }
    destruct (nth_error (o_gs (orun (ostart progs) s)) i) as [t|]; [|now apply (Done h2)].
    destruct (adds i (o_pc t) (o_todo t) a) as [[p todo] ev] eqn:Ea. cbn [o_hist] in H.
    assert (length (records ev) <= 1) as Hlen.
    { destruct (o_pc t); cbn [adds] in Ea; [destruct (o_todo t)| | | |]; injection Ea as <- <- <-; cbn; lia. }
    destruct (records ev) as [|n [|? ?]]; [|  |cbn in Hlen; lia].
    + rewrite app_nil_r in H. now apply (Done h2).
    + destruct h2 as [|z h2 _] using rev_ind.
      * exists (s ++ [(i, a)]), []. rewrite app_nil_r in *. auto.
      * rewrite app_assoc in H. apply app_inj_tail in H. destruct H as [H _]. now apply (Done h2).
Qed.
Lemma balanced progs s h1 h2 f m : o_hist (orun (ostart progs) s) = h1 ++ h2 -> count f false m h1 <= count f true m h1.
Proof.
  intros H. destruct (hist_prefix progs s h1 h2 H) as (s1 & s2 & _ & <-). destruct (oreach_good progs s1) as (_ & _ & _ & Hp & _). rewrite (Hp f m). lia.
Qed.
Lemma answered progs s f m : let w := orun (ostart progs) s in all_answered (o_ev w) -> count f true m (o_hist w) = count f false m (o_hist w).
Proof.
  intros w Ha. destruct (oreach_good progs s) as (_ & _ & _ & Hp & Hb). fold w in Hp, Hb. rewrite (Hp f m). unfold all_answered in Ha. unfold oinvs, orets in Hb. assert (nobusy (o_gs w) = 0) as Hz by lia.
  assert (npending f m (o_gs w) = 0) as ->; [|lia]. clear -Hz. induction (o_gs w) as [|t gs IH]; [reflexivity|]. unfold nobusy, npending in *. cbn [fold_right] in *. destruct (o_pc t); cbn [obusy pending] in *; try lia.
Qed.
