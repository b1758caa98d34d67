(* Proofs about pooled buffers. *)
From Verif Require Import Common BufPool_Model BufPool_Spec.
Open Scope Z_scope.

Definition inv (k : kind) (st : pool) : Prop :=
  apart st (p_held st ++ p_free st) /\
  (forall p, In p (p_held st ++ p_free st) -> (p < p_next st)%nat /\ (i_arr (p_item st p) < p_next st)%nat) /\
  (forall p, In p (p_free st) -> fit k (p_item st p)).

Lemma drop_in n l x : In x (drop_nth n l) -> In x l.
Proof. revert l. induction n as [|n IH]; intros [|y l] H; cbn in *; auto. destruct H as [->|H]; auto. Qed.

Lemma drop_nodup n l : NoDup l -> NoDup (drop_nth n l).
Proof.
  revert l. induction n as [|n IH]; intros [|y l] H; cbn; auto; inversion H as [|? ? Hy Hl]; subst; auto.
  constructor; [intros Hin; apply Hy; exact (drop_in _ _ _ Hin)|auto].
Qed.

Lemma drop_not n l x : NoDup l -> nth_error l n = Some x -> ~ In x (drop_nth n l).
Proof.
  revert l. induction n as [|n IH]; intros [|y l] H E; cbn in *; try discriminate; inversion H as [|? ? Hy Hl]; subst.
  - injection E as ->. exact Hy.
  - intros [->|Hin]; [apply Hy; exact (nth_error_In _ _ E)|exact (IH _ Hl E Hin)].
Qed.

Lemma nodup_app_inv (a b : list nat) : NoDup (a ++ b) <-> NoDup a /\ NoDup b /\ (forall x, In x a -> In x b -> False).
Proof.
  induction a as [|y a IH]; cbn.
  - split; [intros H; split; [constructor|split; [exact H|tauto]]|tauto].
  - split.
    + intros H. inversion H as [|? ? Hy Hl]; subst. apply (proj1 IH) in Hl. destruct Hl as (A & B & C). rewrite in_app_iff in Hy.
      split; [constructor; tauto|]. split; [exact B|]. intros x [->|Hx] Hb; [tauto|exact (C x Hx Hb)].
    + intros (A & B & C). inversion A as [|? ? Hy Hl]; subst. constructor; [rewrite in_app_iff; intros [H|H]; [tauto|exact (C y (or_introl eq_refl) H)]|].
      apply IH. split; [exact Hl|]. split; [exact B|]. intros x Hx. apply C. auto.
Qed.

Lemma remove_nodup p (l : list nat) : NoDup l -> NoDup (remove Nat.eq_dec p l).
Proof.
  induction 1 as [|x l Hx Hl IH]; cbn; [constructor|]. destruct (Nat.eq_dec p x); [exact IH|]. constructor; [|exact IH].
  intros H. apply in_remove in H. tauto.
Qed.

(* Fewer pointers, same items. *)
Lemma inv_sub k st free held : inv k st -> NoDup (held ++ free) ->
  (forall p, In p (held ++ free) -> In p (p_held st ++ p_free st)) -> (forall p, In p free -> fit k (p_item st p)) ->
  inv k (Pool (p_next st) (p_item st) free held).
Proof.
  intros ((N & A) & B & C) Hn Hs Hf. split; [split|split]; cbn [p_held p_free p_item p_next]; [exact Hn|intros p q Hp Hq; apply A; auto|intros p Hp; apply B; auto|exact Hf].
Qed.

Lemma get_spec k st pick st' p : inv k st -> get k pick st = (st', p) ->
  inv k st' /\ fit k (p_item st' p) /\ p_held st' = p :: p_held st /\
  (forall q, In q (p_held st) -> q <> p /\ p_item st' q = p_item st q /\ i_arr (p_item st' q) <> i_arr (p_item st' p)).
Proof.
  intros Hinv H. pose proof Hinv as ((N & A) & B & C). pose proof (proj1 (nodup_app_inv _ _) N) as (N1 & N2 & N3).
  unfold get in H. destruct (nth_error (p_free st) pick) as [p0|] eqn:E.
  - injection H as <- <-. pose proof (nth_error_In _ _ E) as Hin. cbn [p_item p_held]. split; [|split; [exact (C p0 Hin)|split; [reflexivity|]]].
    + apply inv_sub; [exact Hinv| | |].
      * cbn [app]. constructor; [rewrite in_app_iff; intros [H|H]; [exact (N3 _ H Hin)|exact (drop_not _ _ _ N2 E H)]|].
        apply nodup_app_inv. split; [exact N1|]. split; [apply drop_nodup; exact N2|]. intros x Hx Hd. exact (N3 x Hx (drop_in _ _ _ Hd)).
      * intros q [<-|Hq]; rewrite in_app_iff in *; [auto|]. destruct Hq as [Hq|Hq]; [auto|right; exact (drop_in _ _ _ Hq)].
      * intros q Hq. apply C. exact (drop_in _ _ _ Hq).
    + intros q Hq. assert (q <> p0) by (intros ->; exact (N3 _ Hq Hin)). split; [assumption|]. split; [reflexivity|].
      intros Ha. apply H. apply A; rewrite ?in_app_iff; auto.
  - injection H as <- <-. cbn [set_item p_item p_held p_free p_next]. rewrite Nat.eqb_refl.
    assert (forall q, In q (p_held st ++ p_free st) -> Nat.eqb q (p_next st) = false) as Hne.
    { intros q Hq. apply Nat.eqb_neq. specialize (B q Hq). lia. }
    assert (i_arr (new_item k (p_next st)) = p_next st) as Harr by (destruct k; reflexivity).
    assert (fit k (new_item k (p_next st))) as Hfit by (destruct k; cbn; unfold buf_size; lia).
    split; [split; [split|split]|].
    + cbn [p_held p_free app]. constructor; [|exact N]. intros Hq. specialize (B _ Hq). lia.
    + cbn [p_held p_free p_item app]. intros a b [<-|Ha] [<-|Hb]; rewrite ?Nat.eqb_refl; auto.
      * rewrite (Hne _ Hb), Harr. specialize (B _ Hb). lia.
      * rewrite (Hne _ Ha), Harr. specialize (B _ Ha). lia.
      * rewrite (Hne _ Ha), (Hne _ Hb). apply A; assumption.
    + cbn [p_held p_free p_item p_next app]. intros q [<-|Hq]; [rewrite Nat.eqb_refl, Harr; lia|]. rewrite (Hne _ Hq). specialize (B _ Hq). lia.
    + cbn [p_free p_item]. intros q Hq. rewrite Hne by (apply in_app_iff; auto). exact (C q Hq).
    + split; [exact Hfit|]. split; [reflexivity|]. intros q Hq. assert (In q (p_held st ++ p_free st)) as Hq' by (apply in_app_iff; auto).
      rewrite (Hne _ Hq'), Harr. specialize (B _ Hq'). split; [lia|]. split; [reflexivity|]. lia.
Qed.

Lemma held_iff p (l : list nat) : existsb (Nat.eqb p) l = true <-> In p l.
Proof. rewrite existsb_exists. split; [intros (x & Hx & E); apply Nat.eqb_eq in E; congruence|intros H; exists p; split; [exact H|apply Nat.eqb_refl]]. Qed.

(* The item of one pointer changes, its array stays. *)
Lemma inv_set k st p it : inv k st -> i_arr it = i_arr (p_item st p) -> (In p (p_free st) -> fit k it) -> inv k (set_item st p it).
Proof.
  intros ((N & A) & B & C) Ha Hf.
  assert (forall q, i_arr (p_item (set_item st p it) q) = i_arr (p_item st q)) as Harr.
  { intros q. cbn. destruct (Nat.eqb_spec q p); [congruence|reflexivity]. }
  split; [split|split]; [exact N| | |].
  - intros a b Hi Hj. rewrite !Harr. apply A; assumption.
  - intros q Hq. rewrite Harr. exact (B q Hq).
  - intros q Hq. cbn. destruct (Nat.eqb_spec q p); [subst; apply Hf; exact Hq|exact (C q Hq)].
Qed.

Lemma put_spec k st p : inv k st -> In p (p_held st) -> inv k (put k p st) /\
  p_held (put k p st) = remove Nat.eq_dec p (p_held st) /\ (forall q, q <> p -> p_item (put k p st) q = p_item st q).
Proof.
  intros Hinv Hp. pose proof Hinv as ((N & A) & B & C). pose proof (proj1 (nodup_app_inv _ _) N) as (N1 & N2 & N3).
  assert (inv k (Pool (p_next st) (p_item st) (p_free st) (remove Nat.eq_dec p (p_held st)))) as Hgone.
  { apply inv_sub; [exact Hinv| | |exact C].
    - apply nodup_app_inv. split; [apply remove_nodup; exact N1|]. split; [exact N2|]. intros x Hx. apply in_remove in Hx. apply N3. tauto.
    - intros q. rewrite !in_app_iff. intros [H|H]; [apply in_remove in H; tauto|auto]. }
  assert (forall it, i_arr it = i_arr (p_item st p) -> fit k it ->
    inv k (Pool (p_next st) (fun q => if Nat.eqb q p then it else p_item st q) (p :: p_free st) (remove Nat.eq_dec p (p_held st)))) as Hback.
  { intros it Ha Hfit. pose proof (inv_set k st p it Hinv Ha ltac:(auto)) as Hs. pose proof Hs as (_ & _ & Cs).
    change (inv k (Pool (p_next (set_item st p it)) (p_item (set_item st p it)) (p :: p_free st) (remove Nat.eq_dec p (p_held st)))).
    apply inv_sub; [exact Hs| | |].
    - apply nodup_app_inv. split; [apply remove_nodup; exact N1|]. split; [constructor; [intros H; exact (N3 _ Hp H)|exact N2]|].
      intros x Hx [<-|Hf]; apply in_remove in Hx; [tauto|]. apply (N3 x); tauto.
    - intros q. cbn [set_item p_held p_free]. rewrite !in_app_iff. intros [H|[<-|H]]; [apply in_remove in H; tauto|auto|auto].
    - intros q [<-|Hq]; [cbn; rewrite Nat.eqb_refl; exact Hfit|exact (Cs q Hq)]. }
  unfold put. destruct k.
  - destruct (Z.eqb_spec (i_len (p_item st p)) buf_size) as [E1|], (Z.eqb_spec (i_cap (p_item st p)) buf_size) as [E2|]; cbn [negb orb]; try (split; [exact Hgone|split; reflexivity]).
    split; [|split; reflexivity]. cbn [p_next p_item p_free p_held].
    pose proof Hgone as ((Ng & Ag) & Bg & Cg). cbn [p_next p_item p_free p_held] in *.
    apply inv_sub; [exact Hinv| | |].
    + apply nodup_app_inv. split; [apply remove_nodup; exact N1|]. split; [constructor; [intros H; exact (N3 _ Hp H)|exact N2]|].
      intros x Hx [<-|Hf]; apply in_remove in Hx; [tauto|]. apply (N3 x); tauto.
    + intros q. rewrite !in_app_iff. intros [H|[<-|H]]; [apply in_remove in H; tauto|auto|auto].
    + intros q [<-|Hq]; [split; assumption|exact (C q Hq)].
  - destruct (Z.ltb_spec buf_size (i_cap (p_item st p))); [split; [exact Hgone|split; reflexivity]|].
    cbn [set_item p_next p_item p_free p_held]. split; [apply Hback; [reflexivity|cbn; unfold buf_size in *; lia]|]. split; [reflexivity|].
    intros q Hq. apply Nat.eqb_neq in Hq. rewrite Hq. reflexivity.
Qed.

Lemma pop_inv k st o st' : inv k st -> do_pop k st o = Some st' -> inv k st'.
Proof.
  intros Hinv H. pose proof Hinv as ((N & A) & B & C). pose proof (proj1 (nodup_app_inv _ _) N) as (N1 & N2 & N3). destruct o as [pick|p len cap fresh|p|n]; cbn [do_pop] in H.
  - injection H as <-. destruct (get k pick st) as [st' p] eqn:E. exact (proj1 (get_spec _ _ _ _ _ Hinv E)).
  - destruct (existsb (Nat.eqb p) (p_held st)) eqn:Eh; [|discriminate]. apply held_iff in Eh. cbn [andb] in H.
    destruct (Z.leb 0 len && Z.leb len cap && (fresh || Z.leb cap (i_cap (p_item st p)))); [|discriminate].
    assert (~ In p (p_free st)) as Hnf by (intros Hf; exact (N3 _ Eh Hf)). destruct fresh; injection H as <-.
    + cbn [set_item p_item p_free p_held]. split; [split|split]; cbn [p_item p_free p_held p_next]; [exact N| | |].
      * intros a b Ha Hb. pose proof (B a Ha). pose proof (B b Hb). destruct (Nat.eqb_spec a p), (Nat.eqb_spec b p); subst; auto; cbn [i_arr]; try lia; apply A; assumption.
      * intros q Hq. specialize (B q Hq). destruct (Nat.eqb q p); cbn [i_arr]; lia.
      * intros q Hq. destruct (Nat.eqb_spec q p); [subst; contradiction|exact (C q Hq)].
    + apply inv_set; [exact Hinv|reflexivity|contradiction].
  - destruct (existsb (Nat.eqb p) (p_held st)) eqn:Eh; [|discriminate]. apply held_iff in Eh. injection H as <-. apply put_spec; assumption.
  - injection H as <-. apply inv_sub; [exact Hinv| | |].
    + apply nodup_app_inv. split; [exact N1|]. split; [apply drop_nodup; exact N2|]. intros x Hx Hd. exact (N3 x Hx (drop_in _ _ _ Hd)).
    + intros q. rewrite !in_app_iff. intros [H|H]; [auto|right; exact (drop_in _ _ _ H)].
    + intros q Hq. apply C. exact (drop_in _ _ _ Hq).
Qed.

Lemma pops_inv k l : forall st st', inv k st -> do_pops k st l = Some st' -> inv k st'.
Proof.
  induction l as [|o l IH]; intros st st' Hi H; cbn [do_pops] in H; [injection H as <-; exact Hi|].
  destruct (do_pop k st o) as [st1|] eqn:E; [|discriminate]. exact (IH _ _ (pop_inv _ _ _ _ Hi E) H).
Qed.

Lemma inv_empty k : inv k empty_pool.
Proof. split; [split|split]; cbn; [constructor|tauto|tauto|tauto]. Qed.

Lemma reachable_get k l st pick st' p : do_pops k empty_pool l = Some st -> get k pick st = (st', p) ->
  fit k (p_item st' p) /\ p_held st' = p :: p_held st /\
  (forall q, In q (p_held st) -> q <> p /\ p_item st' q = p_item st q /\ i_arr (p_item st' q) <> i_arr (p_item st' p)).
Proof. intros H E. apply (get_spec k st pick st' p (pops_inv _ _ _ _ (inv_empty k) H) E). Qed.

Lemma reachable_apart k l st : do_pops k empty_pool l = Some st -> apart st (p_held st).
Proof.
  intros H. destruct (pops_inv _ _ _ _ (inv_empty k) H) as ((N & A) & _). split.
  - apply nodup_app_inv in N. tauto.
  - intros p q Hp Hq. apply A; apply in_app_iff; auto.
Qed.

Lemma reachable_put k l st p : do_pops k empty_pool l = Some st -> In p (p_held st) ->
  ~ In p (p_held (put k p st)) /\ (forall q, q <> p -> (In q (p_held (put k p st)) <-> In q (p_held st)) /\ p_item (put k p st) q = p_item st q) /\
  (In p (p_free (put k p st)) <->
   match k with KBytes => i_len (p_item st p) = 65536 /\ i_cap (p_item st p) = 65536 | KBuf => i_cap (p_item st p) <= 65536 end).
Proof.
  intros H Hp. pose proof (pops_inv _ _ _ _ (inv_empty k) H) as Hinv. destruct (put_spec k st p Hinv Hp) as (_ & Hh & Hi).
  destruct Hinv as ((N & _) & _). pose proof (proj1 (nodup_app_inv _ _) N) as (_ & _ & N3). rewrite Hh.
  split; [apply remove_In|]. split.
  - intros q Hq. split; [|exact (Hi q Hq)]. split; [intros Hr; apply in_remove in Hr; tauto|intros Hr; apply in_in_remove; auto].
  - unfold put. destruct k.
    + destruct (Z.eqb_spec (i_len (p_item st p)) buf_size) as [E1|E1], (Z.eqb_spec (i_cap (p_item st p)) buf_size) as [E2|E2]; cbn [negb orb p_free]; unfold buf_size in *;
        (split; [intros Hf|intros [? ?]]); first [contradiction|exfalso; exact (N3 _ Hp Hf)|split; assumption|left; reflexivity].
    + destruct (Z.ltb_spec buf_size (i_cap (p_item st p))); cbn [set_item p_free]; unfold buf_size in *; (split; [intros Hf|intros Hc]); first [lia|exfalso; exact (N3 _ Hp Hf)|left; reflexivity].
Qed.
