From Verif Require Import Common CommonLemmas Locks_Model Locks_Spec.
Open Scope nat_scope.

(* ---- lists ---- *)

Lemma put_at_same {A} (l : list A) i x y : nth_error l i = Some y -> nth_error (put_at l i x) i = Some x.
Proof. revert i; induction l as [|z l IH]; intros [|i] H; try discriminate; [reflexivity|exact (IH i H)]. Qed.
Lemma put_at_other {A} (l : list A) i j x : i <> j -> nth_error (put_at l i x) j = nth_error l j.
Proof.
  revert i j; induction l as [|z l IH]; intros [|i] [|j] H; try reflexivity; try congruence.
  cbn. apply IH. congruence.
Qed.
Lemma put_at_nth {A} (l : list A) i j x y : nth_error (put_at l i x) j = Some y ->
  (i = j /\ y = x) \/ (i <> j /\ nth_error l j = Some y).
Proof.
  intros H. destruct (Nat.eq_dec i j) as [->|N].
  - left; split; [reflexivity|]. destruct (nth_error l j) as [z|] eqn:E.
    + rewrite (put_at_same l j x z E) in H. congruence.
    + exfalso. revert j E H. induction l as [|z l IH]; intros [|j] E H; cbn in *; try discriminate. exact (IH j E H).
  - right; split; [exact N|]. rewrite put_at_other in H by exact N. exact H.
Qed.

Lemma drop_one_incl p l q : In q (drop_one p l) -> In q l.
Proof.
  induction l as [|r l IH]; cbn; [tauto|]. destruct (hold_eq r p); cbn; [tauto|]. intros [->|H]; [tauto|right; exact (IH H)].
Qed.
Lemma drop_one_head p l : drop_one p (p :: l) = l.
Proof. cbn. destruct (hold_eq p p); [reflexivity|congruence]. Qed.

Lemma holds_In l t : holds l t = true <-> exists m, In (m, l) (held t).
Proof.
  unfold holds. rewrite existsb_exists. split.
  - intros ((m, l') & Hi & H). cbn in H. destruct (lock_eq l' l) as [->|]; [exists m; exact Hi|discriminate].
  - intros (m & Hi). exists (m, l). split; [exact Hi|]. cbn. destruct (lock_eq l l); congruence.
Qed.
Lemma holds_ex_In l t : holds_ex l t = true <-> In (Ex, l) (held t).
Proof. unfold holds_ex. destruct (in_dec _ _ _); split; intros; try congruence; try tauto. Qed.

(* ---- schedules that keep an invariant ---- *)

Lemma run_keeps (I : list thread -> Prop) :
  (forall i ts ts', I ts -> step i ts = Some ts' -> I ts') ->
  forall is ts ts', I ts -> run is ts = Some ts' -> I ts'.
Proof.
  intros K is; induction is as [|i is IH]; intros ts ts' HI H; cbn in H.
  - congruence.
  - destruct (step i ts) as [u|] eqn:E; [|discriminate]. exact (IH u ts' (K i ts u HI E) H).
Qed.

(* ---- every schedule ends ---- *)

Definition weight (t : thread) : nat := 2 * length (rest t) - (if asked t then 1 else 0).
Definition budget (ts : list thread) : nat := list_sum (map weight ts).

Lemma budget_put ts i t u : nth_error ts i = Some t -> weight u < weight t -> budget (put_at ts i u) < budget ts.
Proof.
  revert i; induction ts as [|x ts IH]; intros [|i] H W; cbn in H; try discriminate.
  - injection H as ->. unfold budget, list_sum; cbn [put_at map fold_right]. lia.
  - specialize (IH i H W). unfold budget, list_sum in *; cbn [put_at map fold_right]. lia.
Qed.

Lemma step_spends i ts ts' : step i ts = Some ts' -> budget ts' < budget ts.
Proof.
  unfold step. destruct (nth_error ts i) as [t|] eqn:E; [|discriminate].
  destruct (rest t) as [|a r] eqn:Er; [discriminate|].
  assert (W : forall u, weight u < 2 * length (a :: r) - (if asked t then 1 else 0) -> budget (put_at ts i u) < budget ts).
  { intros u Hu. apply (budget_put ts i t u E). unfold weight at 2. rewrite Er. exact Hu. }
  intros H. destruct a as [m l|m l|d|d].
  - destruct m; [|destruct (asked t)].
    + destruct (free Sh l ts); [|discriminate]. apply some_inj in H; subst. apply W. unfold weight; cbn. destruct (asked t); lia.
    + destruct (free Ex l ts); [|discriminate]. apply some_inj in H; subst. apply W. unfold weight; cbn. lia.
    + apply some_inj in H; subst. apply W. unfold weight; cbn [rest asked length]. lia.
  - destruct (in_dec _ _ _); [|discriminate]. apply some_inj in H; subst. apply W. unfold weight; cbn. destruct (asked t); lia.
  - apply some_inj in H; subst. apply W. unfold weight; cbn. destruct (asked t); lia.
  - apply some_inj in H; subst. apply W. unfold weight; cbn. destruct (asked t); lia.
Qed.

Lemma run_bounded is : forall ts ts', run is ts = Some ts' -> length is + budget ts' <= budget ts.
Proof.
  induction is as [|i is IH]; intros ts ts' H; cbn in H.
  - apply some_inj in H; subst. cbn. lia.
  - destruct (step i ts) as [u|] eqn:E; [|discriminate]. apply step_spends in E. apply IH in H. cbn. lia.
Qed.

(* ---- locks taken in order ---- *)

Section Rank.
Variable rk : lock -> nat.

Fixpoint walk (h : list (mode * lock)) (t : list act) : option (list (mode * lock)) :=
  match t with
  | [] => Some h
  | Take m l :: t => if forallb (fun p => rk l <? rk (snd p)) h then walk ((m, l) :: h) t else None
  | Leave m l :: t => if in_dec hold_eq (m, l) h then walk (drop_one (m, l) h) t else None
  | _ :: t => walk h t
  end.

Definition orderly (ts : list thread) : Prop :=
  forall i t, nth_error ts i = Some t ->
    walk (held t) (rest t) = Some [] /\ (asked t = true -> exists l r, rest t = Take Ex l :: r).

Lemma orderly_put ts i u : orderly ts ->
  walk (held u) (rest u) = Some [] -> (asked u = true -> exists l r, rest u = Take Ex l :: r) -> orderly (put_at ts i u).
Proof.
  intros HI Hw Ha j v Hj. apply put_at_nth in Hj. destruct Hj as [[_ ->]|[_ Hj]]; [split; assumption|exact (HI j v Hj)].
Qed.

Lemma orderly_step i ts ts' : orderly ts -> step i ts = Some ts' -> orderly ts'.
Proof.
  intros HI H. unfold step in H. destruct (nth_error ts i) as [t|] eqn:E; [|discriminate].
  destruct (HI i t E) as [Hw Ha].
  destruct (rest t) as [|a r] eqn:Er; [discriminate|].
  destruct a as [m l|m l|d|d].
  - assert (Hw' : walk ((m, l) :: held t) r = Some []) by (cbn [walk] in Hw; destruct (forallb _ _) in Hw; [exact Hw|discriminate]).
    destruct m; [|destruct (asked t)].
    + destruct (free Sh l ts); [|discriminate]. apply some_inj in H; subst.
      apply orderly_put; [exact HI|exact Hw'|discriminate].
    + destruct (free Ex l ts); [|discriminate]. apply some_inj in H; subst.
      apply orderly_put; [exact HI|exact Hw'|discriminate].
    + apply some_inj in H; subst. apply orderly_put; [exact HI|exact Hw|]. intros _. exists l, r. reflexivity.
  - cbn [walk] in Hw. destruct (in_dec hold_eq (m, l) (held t)); [|discriminate]. apply some_inj in H; subst.
    apply orderly_put; [exact HI|exact Hw|discriminate].
  - apply some_inj in H; subst. apply orderly_put; [exact HI|exact Hw|discriminate].
  - apply some_inj in H; subst. apply orderly_put; [exact HI|exact Hw|discriminate].
Qed.

Lemma stuck_wants ts i t : orderly ts -> stuck ts -> nth_error ts i = Some t -> rest t <> [] ->
  exists m l r, rest t = Take m l :: r /\ free m l ts = false /\ (m = Ex -> asked t = true).
Proof.
  intros HI HS E N. specialize (HS i). unfold step in HS. rewrite E in HS.
  destruct (HI i t E) as [Hw _].
  destruct (rest t) as [|a r] eqn:Er; [congruence|].
  destruct a as [m l|m l|d|d]; try discriminate.
  - exists m, l, r. split; [reflexivity|].
    destruct m; [|destruct (asked t); [|discriminate]].
    + destruct (free Sh l ts); [discriminate|]. split; [reflexivity|discriminate].
    + destruct (free Ex l ts); [discriminate|]. split; reflexivity.
  - cbn [walk] in Hw. destruct (in_dec hold_eq (m, l) (held t)); discriminate.
Qed.

(* Whoever holds l is waiting for something that comes strictly later in the order. *)
Lemma holder_wants ts j u m l : orderly ts -> stuck ts -> nth_error ts j = Some u -> In (m, l) (held u) ->
  exists m' l' r, rest u = Take m' l' :: r /\ rk l' < rk l.
Proof.
  intros HI HS E Hin. destruct (HI j u E) as [Hw _].
  destruct (rest u) as [|a r] eqn:Er.
  - cbn in Hw. apply some_inj in Hw. rewrite Hw in Hin. destruct Hin.
  - assert (N : rest u <> []) by congruence.
    destruct (stuck_wants ts j u HI HS E N) as (m' & l' & r' & Hr & _ & _).
    rewrite Er in Hr. exists m', l', r'. split; [exact Hr|].
    rewrite Hr in Hw. cbn [walk] in Hw. destruct (forallb _ _) eqn:Ef in Hw; [|discriminate].
    rewrite forallb_forall in Ef. specialize (Ef (m, l) Hin). cbn in Ef. apply Nat.ltb_lt in Ef. exact Ef.
Qed.

Lemma forallb_false {A} (f : A -> bool) (l : list A) : forallb f l = false -> exists x, In x l /\ f x = false.
Proof.
  induction l as [|x l IH]; cbn; [discriminate|]. destruct (f x) eqn:E; cbn; intros H.
  - destruct (IH H) as (y & Hy & Hf). exists y; auto.
  - exists x; auto.
Qed.

Lemma nobody_wants ts : orderly ts -> stuck ts ->
  forall k i t m l r, nth_error ts i = Some t -> rest t = Take m l :: r -> rk l = k -> False.
Proof.
  intros HI HS k. induction k as [k IH] using lt_wf_ind.
  assert (HX : forall i t l r, nth_error ts i = Some t -> rest t = Take Ex l :: r -> rk l = k -> False).
  { intros i t l r E Er Ek.
    assert (N : rest t <> []) by (rewrite Er; discriminate).
    destruct (stuck_wants ts i t HI HS E N) as (m' & l' & r' & Hr & Hf & _).
    rewrite Er in Hr. injection Hr as <- <- <-.
    apply forallb_false in Hf. destruct Hf as (u & Hu & Hh). apply Bool.negb_false_iff in Hh.
    apply holds_In in Hh. destruct Hh as (m2 & Hin). apply In_nth_error in Hu. destruct Hu as (j & Hj).
    destruct (holder_wants ts j u m2 l HI HS Hj Hin) as (m3 & l3 & r3 & Hr3 & Hlt).
    refine (IH (rk l3) _ j u m3 l3 r3 Hj Hr3 eq_refl). lia. }
  intros i t m l r E Er Ek. destruct m; [|exact (HX i t l r E Er Ek)].
  assert (N : rest t <> []) by (rewrite Er; discriminate).
  destruct (stuck_wants ts i t HI HS E N) as (m' & l' & r' & Hr & Hf & _).
  rewrite Er in Hr. injection Hr as <- <- <-.
  apply forallb_false in Hf. destruct Hf as (u & Hu & Hh). apply In_nth_error in Hu. destruct Hu as (j & Hj).
  apply Bool.andb_false_iff in Hh. destruct Hh as [Hh|Hh]; apply Bool.negb_false_iff in Hh.
  - apply holds_ex_In in Hh. destruct (holder_wants ts j u Ex l HI HS Hj Hh) as (m3 & l3 & r3 & Hr3 & Hlt).
    refine (IH (rk l3) _ j u m3 l3 r3 Hj Hr3 eq_refl). lia.
  - unfold waits in Hh. apply Bool.andb_true_iff in Hh. destruct Hh as [_ Hh].
    destruct (rest u) as [|[[|] l2| | |] r2] eqn:Eu; try discriminate.
    destruct (lock_eq l2 l) as [->|]; [|discriminate]. exact (HX j u l r2 Hj Eu Ek).
Qed.

Lemma orderly_finishes ts : orderly ts -> stuck ts -> finished ts /\ forall t, In t ts -> held t = [].
Proof.
  intros HI HS.
  assert (F : finished ts).
  { intros t Ht. apply In_nth_error in Ht. destruct Ht as (i & Hi).
    destruct (rest t) as [|a r] eqn:Er; [reflexivity|].
    assert (N : rest t <> []) by congruence.
    destruct (stuck_wants ts i t HI HS Hi N) as (m & l & r' & Hr & _ & _).
    exfalso. exact (nobody_wants ts HI HS (rk l) i t m l r' Hi Hr eq_refl). }
  split; [exact F|]. intros t Ht. specialize (F t Ht). apply In_nth_error in Ht. destruct Ht as (i & Hi).
  destruct (HI i t Hi) as [Hw _]. rewrite F in Hw. cbn in Hw. apply some_inj in Hw. exact Hw.
Qed.

Lemma orderly_returns ts : orderly ts -> always_returns ts.
Proof.
  intros HI. split.
  - exists (budget ts). intros is ts' H. pose proof (run_bounded is ts ts' H). lia.
  - intros is ts' H HS. apply orderly_finishes; [|exact HS].
    exact (run_keeps orderly (fun i a b => orderly_step i a b) is ts ts' HI H).
Qed.

(* ---- pieces of a trace ---- *)

Definition tame (n : nat) (t : list act) : Prop :=
  forall h, (forall p, In p h -> n <= rk (snd p)) -> walk h t = Some h.

Lemma walk_app h t u : walk h (t ++ u) = match walk h t with Some h' => walk h' u | None => None end.
Proof.
  revert h; induction t as [|a t IH]; intros h; [reflexivity|].
  destruct a; cbn [walk app]; try apply IH.
  - destruct (forallb _ _); [apply IH|reflexivity].
  - destruct (in_dec _ _ _); [apply IH|reflexivity].
Qed.

Lemma tame_nil n : tame n [].
Proof. intros h _. reflexivity. Qed.
Lemma tame_get n d t : tame n t -> tame n (Get d :: t).
Proof. intros H h Hh. exact (H h Hh). Qed.
Lemma tame_put n d t : tame n t -> tame n (Put d :: t).
Proof. intros H h Hh. exact (H h Hh). Qed.
Lemma tame_app n t u : tame n t -> tame n u -> tame n (t ++ u).
Proof. intros Ht Hu h Hh. rewrite walk_app, (Ht h Hh). exact (Hu h Hh). Qed.
Lemma tame_mono n m t : n <= m -> tame n t -> tame m t.
Proof. intros L H h Hh. apply H. intros p Hp. specialize (Hh p Hp). lia. Qed.
Lemma tame_within n m l t : rk l < n -> tame (rk l) t -> tame n (within m l t).
Proof.
  intros L H h Hh. unfold within. cbn [walk].
  replace (forallb _ h) with true.
  - rewrite walk_app, (H ((m, l) :: h)).
    + cbn [walk]. destruct (in_dec hold_eq (m, l) ((m, l) :: h)) as [_|N]; [|exfalso; apply N; left; reflexivity].
      rewrite drop_one_head. reflexivity.
    + intros p [<-|Hp]; [cbn; lia|specialize (Hh p Hp); lia].
  - symmetry. apply forallb_forall. intros p Hp. apply Nat.ltb_lt. specialize (Hh p Hp). lia.
Qed.
Lemma tame_if (b : bool) n t u : tame n t -> tame n u -> tame n (if b then t else u).
Proof. destruct b; auto. Qed.
Lemma tame_flat {A} (f : A -> list act) n (l : list A) : all_of (fun x => tame n (f x)) l -> tame n (flat_map f l).
Proof. induction l as [|x l IH]; cbn; [intros; apply tame_nil|intros [H1 H2]; apply tame_app; auto]. Qed.
Lemma tame_repeat n d k : tame n (repeat (Get d) k).
Proof. induction k; cbn; [apply tame_nil|apply tame_get; assumption]. Qed.
End Rank.

(* ---- data touched under its lock ---- *)

Definition covers (h : list (mode * lock)) (w : bool) (d : datum) : Prop :=
  match d with Of l => In (Ex, l) h \/ (w = false /\ In (Sh, l) h) | Bare _ => False end.

Fixpoint gwalk (h : list (mode * lock)) (t : list act) : Prop :=
  match t with
  | [] => True
  | Take m l :: t => gwalk ((m, l) :: h) t
  | Leave m l :: t => gwalk (drop_one (m, l) h) t
  | Get d :: t => covers h false d /\ gwalk h t
  | Put d :: t => covers h true d /\ gwalk h t
  end.

Definition guarded (ts : list thread) : Prop :=
  (forall i t, nth_error ts i = Some t -> gwalk (held t) (rest t)) /\
  (forall i j t u m l, i <> j -> nth_error ts i = Some t -> nth_error ts j = Some u ->
     In (Ex, l) (held t) -> ~ In (m, l) (held u)).

Lemma guarded_put ts i t u : guarded ts -> nth_error ts i = Some t -> gwalk (held u) (rest u) ->
  (forall m l, In (m, l) (held u) -> In (m, l) (held t) \/
     (forall j v, j <> i -> nth_error ts j = Some v -> (m = Ex -> forall m', ~ In (m', l) (held v)) /\ ~ In (Ex, l) (held v))) ->
  guarded (put_at ts i u).
Proof.
  intros [HG HX] E Hw Hn. split.
  - intros j v Hj. apply put_at_nth in Hj. destruct Hj as [[_ ->]|[_ Hj]]; [exact Hw|exact (HG j v Hj)].
  - intros j k a b m l Njk Hj Hk Ha Hb. apply put_at_nth in Hj. apply put_at_nth in Hk.
    destruct Hj as [[<- ->]|[Nj Hj]], Hk as [[<- ->]|[Nk Hk]].
    + congruence.
    + destruct (Hn Ex l Ha) as [Ha'|Ha'].
      * exact (HX i k t b m l Nk E Hk Ha' Hb).
      * destruct (Ha' k b (not_eq_sym Nk) Hk) as [F _]. exact (F eq_refl m Hb).
    + destruct (Hn m l Hb) as [Hb'|Hb'].
      * exact (HX j i a t m l (not_eq_sym Nj) Hj E Ha Hb').
      * destruct (Hb' j a (not_eq_sym Nj) Hj) as [_ F]. exact (F Ha).
    + exact (HX j k a b m l Njk Hj Hk Ha Hb).
Qed.

Lemma guarded_step i ts ts' : guarded ts -> step i ts = Some ts' -> guarded ts'.
Proof.
  intros HI H. pose proof HI as [HG HX]. unfold step in H. destruct (nth_error ts i) as [t|] eqn:E; [|discriminate].
  pose proof (HG i t E) as Hw.
  destruct (rest t) as [|a r] eqn:Er; [discriminate|].
  destruct a as [m l|m l|d|d]; cbn [gwalk] in Hw.
  - destruct m; [|destruct (asked t)].
    + destruct (free Sh l ts) eqn:Ef; [|discriminate]. apply some_inj in H; subst.
      apply (guarded_put ts i t); [exact HI|exact E|exact Hw|]. cbn [held]. intros m' l' [Eq|Hin]; [|left; exact Hin].
      injection Eq as <- <-. right. intros j v Nj Hj. split; [discriminate|]. intros Hex.
      unfold free in Ef. rewrite forallb_forall in Ef. specialize (Ef v (nth_error_In _ _ Hj)).
      apply Bool.andb_true_iff in Ef. destruct Ef as [Ef _]. apply Bool.negb_true_iff in Ef.
      apply holds_ex_In in Hex. congruence.
    + destruct (free Ex l ts) eqn:Ef; [|discriminate]. apply some_inj in H; subst.
      apply (guarded_put ts i t); [exact HI|exact E|exact Hw|]. cbn [held]. intros m' l' [Eq|Hin]; [|left; exact Hin].
      injection Eq as <- <-. right. intros j v Nj Hj.
      assert (F : forall m', ~ In (m', l) (held v)).
      { intros m' Hin. unfold free in Ef. rewrite forallb_forall in Ef. specialize (Ef v (nth_error_In _ _ Hj)).
        apply Bool.negb_true_iff in Ef. assert (Hh : holds l v = true) by (apply holds_In; exists m'; exact Hin). congruence. }
      split; [intros _; exact F|exact (F Ex)].
    + apply some_inj in H; subst. apply (guarded_put ts i t); [exact HI|exact E|exact Hw|]. cbn [held]. auto.
  - destruct (in_dec _ _ _); [|discriminate]. apply some_inj in H; subst.
    apply (guarded_put ts i t); [exact HI|exact E|exact Hw|]. cbn [held]. intros m' l' Hin. left. exact (drop_one_incl _ _ _ Hin).
  - apply some_inj in H; subst. apply (guarded_put ts i t); [exact HI|exact E|exact (proj2 Hw)|]. cbn [held]. auto.
  - apply some_inj in H; subst. apply (guarded_put ts i t); [exact HI|exact E|exact (proj2 Hw)|]. cbn [held]. auto.
Qed.

Lemma about_covers h t w d : gwalk h (rest t) -> about t = Some (w, d) -> covers h w d.
Proof.
  unfold about. destruct (rest t) as [|[ | | | ] r]; try discriminate; cbn; intros Hw H; injection H as <- <-; exact (proj1 Hw).
Qed.

Lemma guarded_race_free ts : guarded ts -> race_free ts.
Proof.
  intros HI is ts' H (i & j & t & u & d & w & w' & N & Hi & Hj & Ht & Hu & Hww).
  destruct (run_keeps guarded (fun i a b => guarded_step i a b) is ts ts' HI H) as [HG HX].
  pose proof (about_covers _ t w d (HG i t Hi) Ht) as Ct.
  pose proof (about_covers _ u w' d (HG j u Hj) Hu) as Cu.
  destruct d as [l|m]; [|exact Ct]. cbn in Ct, Cu.
  destruct Ct as [Ct|[-> Ct]].
  - destruct Cu as [Cu|[_ Cu]]; exact (HX i j t u _ l N Hi Hj Ct Cu).
  - destruct Cu as [Cu|[-> _]]; [|discriminate]. exact (HX j i u t Sh l (not_eq_sym N) Hj Hi Cu Ct).
Qed.

(* ---- pieces of a trace, for touching ---- *)

Definition touches (ctx : list (mode * lock)) (t : list act) : Prop :=
  forall h u, incl ctx h -> gwalk h u -> gwalk h (t ++ u).

Lemma touches_nil c : touches c [].
Proof. intros h u _ H. exact H. Qed.
Lemma touches_app c t u : touches c t -> touches c u -> touches c (t ++ u).
Proof. intros Ht Hu h v Hi Hv. rewrite <- app_assoc. apply Ht; [exact Hi|]. apply Hu; assumption. Qed.
Lemma touches_within c m l t : touches ((m, l) :: c) t -> touches c (within m l t).
Proof.
  intros H h u Hi Hu. unfold within. cbn [app gwalk]. rewrite <- app_assoc. apply H.
  - intros p [<-|Hp]; [left; reflexivity|right; exact (Hi p Hp)].
  - cbn [app gwalk]. rewrite drop_one_head. exact Hu.
Qed.
Lemma touches_get c d t : covers c false d -> touches c t -> touches c (Get d :: t).
Proof.
  intros Hc Ht h u Hi Hu. cbn [app gwalk]. split; [|apply Ht; assumption].
  destruct d as [l|]; cbn in *; [|exact Hc]. destruct Hc as [H|[H1 H2]]; [left; exact (Hi _ H)|right; split; [exact H1|exact (Hi _ H2)]].
Qed.
Lemma touches_put c d t : covers c true d -> touches c t -> touches c (Put d :: t).
Proof.
  intros Hc Ht h u Hi Hu. cbn [app gwalk]. split; [|apply Ht; assumption].
  destruct d as [l|]; cbn in *; [|exact Hc]. destruct Hc as [H|[H1 H2]]; [left; exact (Hi _ H)|discriminate].
Qed.
Lemma touches_mono c c' t : incl c c' -> touches c t -> touches c' t.
Proof. intros I H h u Hi Hu. apply H; [exact (incl_tran I Hi)|exact Hu]. Qed.
Lemma touches_if (b : bool) c t u : touches c t -> touches c u -> touches c (if b then t else u).
Proof. destruct b; auto. Qed.
Lemma touches_flat {A} (f : A -> list act) c (l : list A) : all_of (fun x => touches c (f x)) l -> touches c (flat_map f l).
Proof. induction l as [|x l IH]; cbn; [intros; apply touches_nil|intros [H1 H2]; apply touches_app; auto]. Qed.

(* ---- induction over calls ---- *)

Lemma all_of_app {A} (P : A -> Prop) (l l' : list A) : all_of P (l ++ l') <-> all_of P l /\ all_of P l'.
Proof. induction l as [|x l IH]; cbn; [tauto|]. rewrite IH. tauto. Qed.

Definition inside (c : call) : list call :=
  match c with
  | SAddFile _ _ _ cb _ => cb
  | SAddFS _ src => src
  | OLook _ ls | OOpen _ ls | OChange _ _ ls | OClose _ ls | TIo ls | TClose _ _ _ ls | MLook _ _ ls | MClose _ _ _ _ ls => ls
  | OCreate _ ls ls' _ => ls ++ ls'
  | MRead _ _ _ ls infos => ls ++ infos
  | MChange _ _ l1 l2 l3 => l1 ++ l2 ++ l3
  | _ => []
  end.

Lemma call_induct (P : call -> Prop) : (forall c, all_of P (inside c) -> P c) -> forall c, P c.
Proof.
  intros H. fix IH 1. intros c. apply H.
  set (go := fix go (l : list call) : all_of P l := match l with [] => I | x :: r => conj (IH x) (go r) end).
  destruct c; cbn [inside]; try exact I;
    repeat (apply all_of_app; split); exact (go _).
Qed.

Lemma all_of_mp {A} (P Q R : A -> Prop) (l : list A) : (forall x, P x -> Q x -> R x) -> all_of P l -> all_of Q l -> all_of R l.
Proof. intros H; induction l as [|x l IH]; cbn; [tauto|]. intros [H1 H2] [H3 H4]. split; auto. Qed.
Lemma all_of_impl {A} (P Q : A -> Prop) (l : list A) : (forall x, P x -> Q x) -> all_of P l -> all_of Q l.
Proof. intros H; induction l as [|x l IH]; cbn; [tauto|]. intros [H1 H2]. split; auto. Qed.

(* ---- the traces are tame ---- *)

Section Order.
Variables sh oh : nat -> nat.

Definition rk (l : lock) : nat :=
  match l with
  | LHandle f _ => 3 * sh f + 4
  | LState f => 3 * sh f + 3
  | LDir o _ => 3 * oh o + 4
  | LOver o => 3 * oh o + 3
  | LCursor _ => 1
  | LBuf _ => 0
  | LOnce _ _ => 1
  | LTrack _ => 0
  | LTar _ => 0
  | LTarRead _ => 0
  end.
Definition base (n : nat) : nat := 3 * n + 3.

Ltac tame_step :=
  match goal with
  | |- tame _ _ [] => apply tame_nil
  | |- tame _ _ (Get _ :: _) => apply tame_get
  | |- tame _ _ (Put _ :: _) => apply tame_put
  | |- tame _ _ (st_get _ :: _) => apply tame_get
  | |- tame _ _ (st_put _ :: _) => apply tame_put
  | |- tame _ _ (_ ++ _) => apply tame_app
  | |- tame _ _ (within _ _ _) => apply tame_within; [unfold base in *; cbn [rk]; lia|]
  | |- tame _ _ (if _ then _ else _) => apply tame_if
  | |- tame _ _ (repeat _ _) => apply tame_repeat
  end.
Ltac tame_go := repeat tame_step.

Lemma view_stat_tame v : forall n, view_under sh n v -> tame rk (base n) (view_stat v).
Proof.
  induction v as [m b|m|f h v IH|m v IH]; intros n H; cbn [view_under view_stat] in *; tame_go.
  - destruct H as [H1 H2]. tame_go. exact (IH _ H2).
  - exact (IH n H).
Qed.
Lemma h_stat_tame v : forall n, view_under sh n v -> tame rk (base n) (h_stat v).
Proof.
  induction v as [m b|m|f h v IH|m v IH]; intros n H; cbn [view_under h_stat] in *; tame_go.
  - destruct H as [H1 H2]. tame_go. exact (view_stat_tame v _ H2).
  - exact (IH n H).
Qed.
Lemma view_open_tame v : forall n, view_under sh n v -> tame rk (base n) (view_open v).
Proof.
  induction v as [m b|m|f h v IH|m v IH]; intros n H; cbn [view_under view_open] in *; tame_go.
  - destruct H as [H1 H2]. tame_go. exact (IH _ H2).
  - exact (IH n H).
  - exact (h_stat_tame v n H).
Qed.
Lemma view_close_tame v : forall n, tame rk n (view_close v).
Proof. induction v as [m b|m|f h v IH|m v IH]; intros n; cbn [view_close]; try apply tame_nil. apply IH. Qed.

Section Closed.
Variable closed : nat -> nat -> bool.

Lemma fh_close_tame f h n t : sh f < n -> tame rk (base (sh f)) t -> tame rk (base n) (fh_close closed f h t).
Proof.
  intros L H. unfold fh_close. tame_go.
  apply (tame_mono rk (base (sh f))); [unfold base; cbn [rk]; lia|exact H].
Qed.
Lemma fh_call_tame f h n t : sh f < n -> tame rk (base (sh f)) t -> tame rk (base n) (fh_call closed f h t).
Proof.
  intros L H. unfold fh_call, is_closed. tame_go.
  apply (tame_mono rk (base (sh f))); [unfold base; lia|exact H].
Qed.
Lemma h_close_tame v : forall n, view_under sh n v -> tame rk (base n) (h_close closed v).
Proof.
  induction v as [m b|m|f h v IH|m v IH]; intros n H; cbn [view_under h_close] in *; tame_go.
  - destruct H as [H1 H2]. apply fh_close_tame; [exact H1|exact (IH _ H2)].
  - exact (IH n H).
Qed.
Lemma h_read_at_tame v : forall n, view_under sh n v -> tame rk (base n) (h_read_at closed v).
Proof.
  induction v as [m b|m|f h v IH|m v IH]; intros n H; cbn [view_under h_read_at] in *; tame_go.
  - destruct H as [H1 H2]. apply fh_call_tame; [exact H1|exact (IH _ H2)].
  - exact (IH n H).
Qed.
Lemma h_read_tame v : forall n, view_under sh n v -> tame rk (base n) (h_read closed v).
Proof.
  induction v as [m b|m|f h v IH|m v IH]; intros n H; cbn [view_under h_read] in *; tame_go.
  - destruct H as [H1 H2]. apply fh_call_tame; [exact H1|exact (IH _ H2)].
  - exact (h_read_at_tame v n H).
Qed.
Lemma h_seek_tame e v : forall n, view_under sh n v -> tame rk (base n) (h_seek closed e v).
Proof.
  induction v as [m b|m|f h v IH|m v IH]; intros n H; cbn [view_under h_seek] in *; tame_go.
  destruct H as [H1 H2]. apply fh_call_tame; [exact H1|exact (IH _ H2)].
Qed.
Lemma h_write_at_tame v n : tame rk (base n) (h_write_at v).
Proof. destruct v; cbn [h_write_at]; unfold buf_write; tame_go. Qed.
Lemma h_write_tame a e v n : tame rk (base n) (h_write a e v).
Proof. destruct v; cbn [h_write]; unfold buf_write; tame_go. Qed.

Lemma node_stat_tame d n : node_under sh n d -> tame rk (base n) (node_stat d).
Proof. destruct d; cbn [node_under node_stat]; intros; [tame_go|tame_go|apply view_stat_tame; assumption]. Qed.
Lemma node_close_tame d n : tame rk n (node_close d).
Proof. destruct d; cbn [node_close]; [tame_go|tame_go|apply view_close_tame]. Qed.
Lemma track_tame o n : 0 < n -> tame rk n (track o).
Proof. intros. unfold track. apply tame_within; [cbn [rk]; lia|]. tame_go. Qed.
Lemma once_release_tame o d b n : tame rk (base n) (once_release o d b).
Proof. unfold once_release. tame_go. apply track_tame. cbn [rk]. lia. Qed.

Lemma calls_tame n (l : list call) :
  all_of (fun c => forall n, call_ok sh oh n c -> tame rk (base n) (trace closed c)) l ->
  all_of (call_ok sh oh n) l -> tame rk (base n) (flat_map (trace closed) l).
Proof.
  intros H1 H2. apply tame_flat. revert H1 H2. apply all_of_mp. intros c Hc Ho. exact (Hc n Ho).
Qed.

Lemma trace_tame c : forall n, call_ok sh oh n c -> tame rk (base n) (trace closed c).
Proof.
  induction c as [c IH] using call_induct. intros n H.
  destruct c; cbn [call_ok trace inside] in *.
  - destruct H as [L H]. tame_go. apply (node_stat_tame _ _ H).
  - tame_go.
  - destruct o as [| |fresh v tr].
    + tame_go.
    + tame_go.
    + destruct H as (L & Hv & Ht). tame_go.
      * apply (view_open_tame v _ Hv).
      * destruct tr as [[|]|]; [apply h_write_at_tame|congruence|tame_go].
  - tame_go.
  - destruct H as [L H]. tame_go. apply tame_flat. revert H. apply all_of_impl. intros v _. apply view_close_tame.
  - destruct H as (L & Hv & Hd & Hc). tame_go.
    + apply (tame_mono rk (base (sh f))); [unfold base; lia|]. apply view_stat_tame. exact Hv.
    + apply (node_stat_tame _ _ Hd).
    + exact (calls_tame _ _ IH Hc).
    + apply node_close_tame.
  - destruct H as (L & Hc). tame_go. exact (calls_tame _ _ IH Hc).
  - destruct H as [L H]. apply fh_close_tame; [exact L|apply h_close_tame; exact H].
  - destruct H as [L H]. apply fh_call_tame; [exact L|apply h_read_tame; exact H].
  - destruct H as [L H]. apply fh_call_tame; [exact L|apply h_read_at_tame; exact H].
  - destruct H as [L H]. apply fh_call_tame; [exact L|apply h_seek_tame; exact H].
  - destruct H as [L H]. apply fh_call_tame; [exact L|apply h_write_tame].
  - destruct H as [L H]. apply fh_call_tame; [exact L|apply h_write_at_tame].
  - apply fh_call_tame; [exact H|apply tame_nil].
  - destruct H as [L H]. tame_go. apply (view_stat_tame _ _ H).
  - tame_go.
  - apply fh_close_tame; [exact H|apply tame_nil].
  - tame_go.
  - tame_go.
  - destruct H as (L & Hc). tame_go. exact (calls_tame _ _ IH Hc).
  - destruct H as (L & Hc). tame_go; [exact (calls_tame _ _ IH Hc)|apply track_tame; cbn [rk]; lia].
  - destruct H as (L & Hc & Hc'). apply all_of_app in IH. destruct IH as [I1 I2].
    tame_go; [exact (calls_tame _ _ I1 Hc)|exact (calls_tame _ _ I2 Hc')|apply track_tame; cbn [rk]; lia].
  - destruct H as (L & Hc). tame_go. exact (calls_tame _ _ IH Hc).
  - destruct H as (L & Hc). tame_go. exact (calls_tame _ _ IH Hc).
  - exact (calls_tame _ _ IH H).
  - destruct H as (L & Hc). apply tame_app; [|apply once_release_tame].
    apply (tame_mono rk (base (oh o))); [unfold base; lia|]. exact (calls_tame _ _ IH Hc).
  - destruct H as (L & Hc). tame_go. apply (tame_mono rk (base (oh o))); [unfold base; cbn [rk]; lia|]. exact (calls_tame _ _ IH Hc).
  - destruct H as (L & Hc). apply tame_app; [|apply once_release_tame].
    tame_go. apply (tame_mono rk (base (oh o))); [unfold base; cbn [rk]; lia|]. exact (calls_tame _ _ IH Hc).
  - destruct H as (L & Hc & Hc'). apply all_of_app in IH. destruct IH as [I1 I2]. tame_go.
    + exact (calls_tame _ _ I1 Hc).
    + apply (tame_mono rk (base (oh o))); [unfold base; cbn [rk]; lia|]. exact (calls_tame _ _ I2 Hc').
  - destruct H as (L & H1 & H2 & H3). apply all_of_app in IH. destruct IH as [I1 I2]. apply all_of_app in I2. destruct I2 as [I2 I3].
    tame_go.
    + exact (calls_tame _ _ I1 H1).
    + exact (calls_tame _ _ I2 H2).
    + apply (tame_mono rk (base (oh o))); [unfold base; cbn [rk]; lia|]. exact (calls_tame _ _ I3 H3).
  - tame_go.
  - unfold tar_check. tame_go.
  - unfold tar_check. tame_go.
  - tame_go.
Qed.
End Closed.
End Order.

(* Any goroutines making calls on well-founded stacks always return. *)
Lemma goroutines_return sh oh css :
  (forall cs c, In cs css -> In c cs -> exists n, call_ok sh oh n (snd c)) -> always_returns (goroutines css).
Proof.
  intros H. apply (orderly_returns (rk sh oh)). intros i t E. unfold goroutines in E.
  apply nth_error_In in E. apply in_map_iff in E. destruct E as (cs & <- & Hcs). cbn [held rest asked start]. split; [|discriminate].
  unfold program.
  assert (T : exists n, tame (rk sh oh) n (flat_map (fun c => trace (fst c) (snd c)) cs)).
  { assert (Hc : forall c, In c cs -> exists n, call_ok sh oh n (snd c)) by (intros c; exact (H cs c Hcs)).
    clear Hcs. induction cs as [|c cs IH]; [exists 0; apply tame_nil|].
    destruct IH as (n & Hn); [intros c' Hc'; exact (Hc c' (or_intror Hc'))|].
    destruct (Hc c (or_introl eq_refl)) as (m & Hm). exists (n + base m). cbn [flat_map]. apply tame_app.
    - apply (tame_mono _ (base m)); [lia|]. apply trace_tame. exact Hm.
    - apply (tame_mono _ n); [lia|exact Hn]. }
  destruct T as (n & T). apply T. intros p [].
Qed.

(* ---- what is touched under which lock ---- *)

Ltac cov := cbn [covers In]; tauto.
Ltac touch_step :=
  match goal with
  | |- touches _ [] => apply touches_nil
  | |- touches _ (Get _ :: _) => apply touches_get; [cov|]
  | |- touches _ (Put _ :: _) => apply touches_put; [cov|]
  | |- touches _ (st_get _ :: _) => apply touches_get; [cov|]
  | |- touches _ (st_put _ :: _) => apply touches_put; [cov|]
  | |- touches _ (_ ++ _) => apply touches_app
  | |- touches _ (within _ _ _) => apply touches_within
  | |- touches _ (if _ then _ else _) => apply touches_if
  end.
Ltac touch_go := repeat touch_step.

Lemma view_stat_touches v : forall c, touches c (view_stat v).
Proof. induction v as [m b|m|f h v IH|m v IH]; intros c; cbn [view_stat]; touch_go; apply IH. Qed.
Lemma h_stat_touches v : forall c, touches c (h_stat v).
Proof. induction v as [m b|m|f h v IH|m v IH]; intros c; cbn [h_stat]; touch_go; try apply IH. apply view_stat_touches. Qed.
Lemma view_open_touches v : forall c, touches c (view_open v).
Proof. induction v as [m b|m|f h v IH|m v IH]; intros c; cbn [view_open]; touch_go; try apply IH. apply h_stat_touches. Qed.
Lemma view_close_touches v : forall c, touches c (view_close v).
Proof. induction v as [m b|m|f h v IH|m v IH]; intros c; cbn [view_close]; touch_go; apply IH. Qed.

Section ClosedTouches.
Variable closed : nat -> nat -> bool.
Lemma fh_close_touches c f h t : (forall c, touches c t) -> touches c (fh_close closed f h t).
Proof. intros H. unfold fh_close. touch_go. apply H. Qed.
Lemma fh_call_touches c f h t : (forall c, touches c t) -> touches c (fh_call closed f h t).
Proof. intros H. unfold fh_call, is_closed. touch_go. apply H. Qed.
Lemma h_close_touches v : forall c, touches c (h_close closed v).
Proof. induction v as [m b|m|f h v IH|m v IH]; intros c; cbn [h_close]; touch_go; [apply fh_close_touches; exact IH|apply IH]. Qed.
Lemma h_read_at_touches v : forall c, touches c (h_read_at closed v).
Proof. induction v as [m b|m|f h v IH|m v IH]; intros c; cbn [h_read_at]; touch_go; [apply fh_call_touches; exact IH|apply IH]. Qed.
Lemma h_read_touches v : view_locked v = true -> forall c, touches c (h_read closed v).
Proof. induction v as [m b|m|f h v IH|m v IH]; intros H c; try discriminate; cbn [h_read]; touch_go. apply fh_call_touches. exact (IH H). Qed.
Lemma h_seek_touches e v : view_locked v = true -> forall c, touches c (h_seek closed e v).
Proof. induction v as [m b|m|f h v IH|m v IH]; intros H c; try discriminate; cbn [h_seek]; touch_go. apply fh_call_touches. exact (IH H). Qed.
Lemma h_write_at_touches v c : touches c (h_write_at v).
Proof. destruct v; cbn [h_write_at]; unfold buf_write; touch_go. Qed.
Lemma h_write_touches a e v c : touches c (h_write a e v).
Proof. destruct v; cbn [h_write]; unfold buf_write; touch_go. Qed.
Lemma node_stat_touches d c : touches c (node_stat d).
Proof. destruct d; cbn [node_stat]; [touch_go|touch_go|apply view_stat_touches]. Qed.
Lemma node_close_touches d c : touches c (node_close d).
Proof. destruct d; cbn [node_close]; [touch_go|touch_go|apply view_close_touches]. Qed.
Lemma track_touches o c : touches c (track o).
Proof. unfold track. touch_go. Qed.
Lemma once_release_touches o d b c : touches c (once_release o d b).
Proof. unfold once_release. touch_go. apply track_touches. Qed.

Lemma calls_touch ctx (l : list call) :
  all_of (fun c => call_locked c = true -> forall ctx, touches ctx (trace closed c)) l ->
  forallb call_locked l = true -> touches ctx (flat_map (trace closed) l).
Proof.
  intros H1 H2. apply touches_flat. induction l as [|c l IH]; cbn in *; [exact I|].
  apply Bool.andb_true_iff in H2. destruct H1, H2. split; auto.
Qed.

Lemma trace_touches c : call_locked c = true -> forall ctx, touches ctx (trace closed c).
Proof.
  induction c as [c IH] using call_induct. intros H ctx.
  destruct c; cbn [call_locked trace inside] in *;
    repeat match goal with H : _ && _ = true |- _ => apply Bool.andb_true_iff in H; destruct H end;
    repeat match goal with H : all_of _ (_ ++ _) |- _ => apply all_of_app in H; destruct H end;
    try (apply fh_close_touches; intros); try (apply fh_call_touches; intros);
    try match goal with |- context [match ?o with OFail => _ | ODir => _ | OFile _ _ _ => _ end] => destruct o as [| |fresh v [[|]|]] end;
    unfold tar_check; touch_go;
    try first [apply node_stat_touches|apply node_close_touches|apply view_stat_touches|apply view_open_touches|apply view_close_touches
      |apply h_close_touches|apply h_read_at_touches|apply h_write_at_touches|apply h_write_touches|apply track_touches
      |apply once_release_touches|(apply h_read_touches; assumption)|(apply h_seek_touches; assumption)
      |apply calls_touch; assumption].
  - apply touches_flat. clear. induction vs; cbn; [exact I|split; [apply view_close_touches|assumption]].
  - apply Nat.eqb_eq in H. subst. cbn. touch_go.
Qed.
End ClosedTouches.

Lemma goroutines_race_free css :
  (forall cs c, In cs css -> In c cs -> call_locked (snd c) = true) -> race_free (goroutines css).
Proof.
  intros H. apply guarded_race_free. unfold goroutines. split.
  - intros i t E. apply nth_error_In in E. apply in_map_iff in E. destruct E as (cs & <- & Hcs).
    cbn [held rest start]. unfold program.
    assert (T : touches [] (flat_map (fun c => trace (fst c) (snd c)) cs)).
    { apply touches_flat. specialize (H cs). assert (Hc : forall c, In c cs -> call_locked (snd c) = true) by (intros; apply H; assumption).
      clear - Hc. induction cs as [|c cs IH]; cbn; [exact I|]. split.
      - apply trace_touches. apply Hc. left; reflexivity.
      - apply IH. intros c' Hc'. apply Hc. right; exact Hc'. }
    rewrite <- (app_nil_r (flat_map _ cs)). apply T; [intros p []|exact I].
  - intros i j t u m l _ E _ Hin. apply nth_error_In in E. apply in_map_iff in E. destruct E as (cs & <- & _). destruct Hin.
Qed.
