From Verif Require Import Common CommonLemmas HttpLane_Model HttpLane_Spec.
Open Scope Z_scope.

Definition extra (new : option pc) : list pc := match new with Some q => [q] | None => [] end.
Lemma put_len l i p : length (put l i p) = length l.
Proof. revert i. induction l as [|x r IH]; intros [|i]; cbn; auto. Qed.
Lemma put_same l i p x : nth_error l i = Some x -> nth_error (put l i p) i = Some p.
Proof. revert i. induction l as [|y r IH]; intros [|i]; cbn; intros E; try discriminate; auto. Qed.
Lemma put_other l i j p : i <> j -> nth_error (put l i p) j = nth_error l j.
Proof. revert i j. induction l as [|y r IH]; intros [|i] [|j] N; cbn; try reflexivity; try congruence. apply IH. congruence. Qed.
Lemma after_at l i p x new : nth_error l i = Some x -> nth_error (put l i p ++ extra new) i = Some p.
Proof.
  intros E. rewrite nth_error_app1; [exact (put_same _ _ _ _ E)|]. rewrite put_len. apply nth_error_Some. congruence.
Qed.
Lemma after_keeps l i p j q new : i <> j -> nth_error l j = Some q -> nth_error (put l i p ++ extra new) j = Some q.
Proof.
  intros N E. rewrite nth_error_app1; [rewrite put_other by exact N; exact E|]. rewrite put_len. apply nth_error_Some. congruence.
Qed.
Lemma after_inv l i p x new j q :
  nth_error l i = Some x -> nth_error (put l i p ++ extra new) j = Some q ->
  (j = i /\ q = p) \/ (j <> i /\ nth_error l j = Some q) \/ (j <> i /\ j = length l /\ new = Some q).
Proof.
  intros E F. destruct (Nat.eq_dec j i) as [->|N].
  - left. rewrite (after_at _ _ _ _ _ E) in F. apply some_inj in F. auto.
  - right. assert (j < length l \/ length l <= j)%nat as [L|L] by lia.
    + left. rewrite nth_error_app1 in F by (rewrite put_len; exact L). rewrite put_other in F by congruence. auto.
    + right. rewrite nth_error_app2 in F by (rewrite put_len; exact L). rewrite put_len in F. destruct new as [z|]; [|destruct (j - length l)%nat; discriminate].
      destruct (j - length l)%nat as [|[|k]] eqn:D; try discriminate. cbn in F. apply some_inj in F. split; [exact N|]. split; [lia | congruence].
Qed.
Lemma after_new l i p q : nth_error (put l i p ++ extra (Some q)) (length l) = Some q.
Proof. rewrite nth_error_app2 by (rewrite put_len; lia). rewrite put_len, Nat.sub_diag. reflexivity. Qed.

Lemma slice_len body from n : 0 <= n -> zlen (slice body from n) = n.
Proof. intros N. unfold zlen, slice. rewrite map_length, seq_length. lia. Qed.
Lemma slice_nth body from n k : 0 <= k < n -> nth_error (slice body from n) (Z.to_nat k) = Some (body (from + k)).
Proof.
  intros K. unfold slice. rewrite nth_error_map. rewrite nth_error_nth' with (d := O) by (rewrite seq_length; lia).
  rewrite seq_nth by lia. cbn. do 2 f_equal. lia.
Qed.

Section lane.
Variables (base : Z) (body : Z -> byte).

Lemma bytes_nil off : object_bytes base body off [].
Proof. intros k K. unfold zlen in K. cbn in K. lia. Qed.
Lemma bytes_app off a b : object_bytes base body off a -> object_bytes base body (off + zlen a) b -> object_bytes base body off (a ++ b).
Proof.
  intros A B k K. rewrite zlen_app in K. assert (k < zlen a \/ zlen a <= k) as [L|L] by lia.
  - rewrite nth_error_app1 by (unfold zlen in L; lia). apply A. lia.
  - rewrite nth_error_app2 by (unfold zlen in L; lia). specialize (B (k - zlen a)).
    replace (Z.to_nat k - length a)%nat with (Z.to_nat (k - zlen a)) by (unfold zlen in *; lia).
    rewrite B by lia. do 2 f_equal. lia.
Qed.
Lemma bytes_slice off n : 0 <= n -> object_bytes base body off (slice body (off - base) n).
Proof. intros N k K. rewrite slice_len in K by exact N. apply slice_nth. exact K. Qed.

(* The invariant. *)
Definition holding (p : pc) : Prop :=
  match p with Held _ _ | Opening _ _ | Reading _ _ _ | Leave _ _ _ | CHeld | CLeave => True | _ => False end.
Definition lane_ok (l : lane) : Prop :=
  base <= l_pos l /\
  match l_state l with
  | Pending => l_pos l = base /\ l_requests l = 0%nat /\ l_bodies l = 0%nat /\ l_closes l = 0%nat
  | Open => l_pos l = base + l_body l /\ l_requests l = 1%nat /\ l_bodies l = 1%nat /\ l_closes l = 0%nat
  | Dead => l_dead l = true /\ (l_bodies l <= l_requests l <= 1)%nat /\ l_closes l = l_bodies l
  end.
Definition pc_ok (l : lane) (p : pc) : Prop :=
  match p with
  | Look _ len | Match _ len | Swap _ len => 0 < len
  | Wait off len | Held off len => 0 < len /\ base <= off <= l_pos l
  | Opening off len => 0 < len /\ l_state l = Pending /\ l_pos l = off
  | Reading off len acc =>
      0 < len /\ l_state l = Open /\ l_pos l = off + zlen acc /\ base <= off /\ zlen acc <= len /\
      object_bytes base body off acc /\ (acc <> [] -> l_pos l <= l_limit l)
  | Leave off len (Served b e) =>
      read_right base (l_limit l) body off len (Served b e) /\ l_requests l <> 0%nat /\ l_pos l = off + zlen b
  | _ => True
  end.
Definition inflight (p : pc) : Z :=
  match p with Reading _ _ acc => zlen acc | Leave _ _ (Served b _) => zlen b | _ => 0 end.

Record inv (m : machine) : Prop := {
  i_lane : lane_ok (m_lane m);
  i_pcs : forall i p, nth_error (m_pcs m) i = Some p -> pc_ok (m_lane m) p;
  i_mu : forall i p, nth_error (m_pcs m) i = Some p -> (holding p <-> l_mu (m_lane m) = Some i);
  i_owner : forall i, l_mu (m_lane m) = Some i -> exists p, nth_error (m_pcs m) i = Some p;
  i_closer : l_dead (m_lane m) = true -> l_state (m_lane m) = Dead \/ exists i p, nth_error (m_pcs m) i = Some p /\ (p = CWait \/ p = CHeld);
  i_log : Forall (fun x => read_right base (l_limit (m_lane m)) body (fst (fst x)) (snd (fst x)) (snd x)) (m_log m);
  i_none : l_requests (m_lane m) = 0%nat -> Forall (fun x => snd x = NotServed) (m_log m);
  i_cont : contiguous base (m_log m);
  i_free : l_mu (m_lane m) = None -> l_pos (m_lane m) = base + zlen (handed_out (m_log m));
  i_busy : forall i p, l_mu (m_lane m) = Some i -> nth_error (m_pcs m) i = Some p ->
             l_pos (m_lane m) = base + zlen (handed_out (m_log m)) + inflight p }.

Lemma handed_snoc log off len r :
  handed_out (log ++ [(off, len, r)]) = handed_out log ++ match r with Served b _ => b | NotServed => [] end.
Proof.
  induction log as [|[[o n] [|b e]] t IH]; cbn.
  - destruct r; cbn; rewrite ?app_nil_r; reflexivity.
  - exact IH.
  - rewrite IH, app_assoc. reflexivity.
Qed.
Lemma contiguous_snoc log off len r : forall pos,
  contiguous pos log -> match r with Served _ _ => off = pos + zlen (handed_out log) | NotServed => True end ->
  contiguous pos (log ++ [(off, len, r)]).
Proof.
  induction log as [|[[o n] [|b e]] t IH]; intros pos C O; cbn in *.
  - destruct r; cbn; [exact I|]. split; [|exact I]. unfold zlen in O. cbn in O. lia.
  - apply IH; assumption.
  - destruct C as [C1 C2]. split; [exact C1|]. apply IH; [exact C2|]. destruct r; [exact I|]. rewrite zlen_app in O. lia.
Qed.

(* What a step may do to the lane without disturbing anyone else: the holder of the mutex, or
   anyone through the two atomics. *)
Lemma pc_ok_other l l' p :
  ~ holding p -> l_pos l <= l_pos l' -> pc_ok l p -> pc_ok l' p.
Proof. destruct p; cbn; try contradiction; auto; try lia; intros H; exfalso; apply H; exact I. Qed.

Lemma read_right_limit limit limit' off len r :
  match r with Served (_ :: _) _ => limit = limit' | _ => True end ->
  read_right base limit body off len r -> read_right base limit' body off len r.
Proof.
  destruct r as [|[|x b] e]; cbn [read_right].
  - auto.
  - intros _ (A & B & C & D & E). split; [exact A|]. split; [exact B|]. split; [exact C|]. split; [exact D|]. intros _ F. congruence.
  - intros <-. auto.
Qed.
Lemma log_limit log limit limit' :
  Forall (fun x => snd x = NotServed) log \/ limit = limit' ->
  Forall (fun x : Z * Z * result => read_right base limit body (fst (fst x)) (snd (fst x)) (snd x)) log ->
  Forall (fun x : Z * Z * result => read_right base limit' body (fst (fst x)) (snd (fst x)) (snd x)) log.
Proof.
  intros [N|<-] F; [|exact F]. apply Forall_forall. intros x I. rewrite Forall_forall in N, F. rewrite (N x I). exact Logic.I.
Qed.

(* A step of a goroutine that does not hold the mutex before or after. *)
Lemma keep_outside m i p p' l new :
  inv m -> nth_error (m_pcs m) i = Some p ->
  ~ holding p -> ~ holding p' -> pc_ok l p' -> l_mu l = l_mu (m_lane m) ->
  l_state l = l_state (m_lane m) -> l_body l = l_body (m_lane m) -> l_limit l = l_limit (m_lane m) -> l_pos l = l_pos (m_lane m) ->
  l_requests l = l_requests (m_lane m) -> l_bodies l = l_bodies (m_lane m) -> l_closes l = l_closes (m_lane m) ->
  (new = None \/ new = Some CWait) ->
  (l_dead l = l_dead (m_lane m) /\ p <> CWait /\ p <> CHeld \/ l_dead l = true /\ (new = Some CWait \/ p' = CWait)) ->
  inv {| m_lane := l; m_pcs := put (m_pcs m) i p' ++ extra new; m_log := m_log m |}.
Proof.
  intros [I1 I2 I3 I4 I5 I6 I7 I8 I9 I10] E NH NH' P' Mu St Bo Li Po Re Bd Cl New De.
  constructor; cbn [m_lane m_pcs m_log].
  - destruct I1 as [A B]. split; [rewrite Po; exact A|]. rewrite St, Po, Bo, Re, Bd, Cl. destruct (l_state (m_lane m)); try exact B.
    destruct B as [B1 B2]. split; [|exact B2]. destruct De as [[De _]|[De _]]; [congruence | exact De].
  - intros j q F. destruct (after_inv _ _ _ _ _ _ _ E F) as [[-> ->]|[[N G]|(N & L & G)]].
    + exact P'.
    + specialize (I2 j q G). assert (holding q \/ ~ holding q) as [H|H] by (destruct q; cbn; tauto).
      * destruct q as [ | | | | |o n|o n ac|o n r| | | | | | ]; try contradiction; cbn in *; rewrite ?St, ?Po, ?Li, ?Re; try exact I2;
          destruct r; cbn in *; rewrite ?Li, ?Po, ?Re; exact I2.
      * apply (pc_ok_other (m_lane m)); [exact H | lia | exact I2].
    + destruct New as [New|New]; rewrite New in G; [discriminate|]. apply some_inj in G. subst q. exact Logic.I.
  - intros j q F. rewrite Mu. destruct (after_inv _ _ _ _ _ _ _ E F) as [[-> ->]|[[N G]|(N & L & G)]].
    + specialize (I3 i p E). split; [intros H; contradiction | intros H; apply I3 in H; contradiction].
    + exact (I3 j q G).
    + destruct New as [New|New]; rewrite New in G; [discriminate|]. apply some_inj in G. subst q. cbn. split; [intros []|].
      intros H. destruct (I4 j H) as [z Hz]. assert (j < length (m_pcs m))%nat by (apply nth_error_Some; congruence). lia.
  - intros j H. rewrite Mu in H. destruct (I4 j H) as [z Hz]. destruct (Nat.eq_dec i j) as [->|N].
    + exists p'. exact (after_at _ _ _ _ _ E).
    + exists z. exact (after_keeps _ _ _ _ _ _ N Hz).
  - intros D. rewrite St. destruct De as [(De & N1 & N2)|[De [Hn|Hp]]].
    + rewrite De in D. destruct (I5 D) as [S|(j & q & G & Hq)]; [left; exact S|]. right. exists j, q. split; [|exact Hq].
      apply after_keeps; [|exact G]. intros ->. rewrite E in G. apply some_inj in G. subst q. destruct Hq; contradiction.
    + right. exists (length (m_pcs m)), CWait. split; [rewrite Hn; apply after_new | left; reflexivity].
    + right. exists i, CWait. split; [rewrite <- Hp; exact (after_at _ _ _ _ _ E) | left; reflexivity].
  - rewrite Li. exact I6.
  - rewrite Re. exact I7.
  - exact I8.
  - rewrite Mu, Po. exact I9.
  - intros j q H F. rewrite Mu in H. rewrite Po. destruct (after_inv _ _ _ _ _ _ _ E F) as [[-> ->]|[[N G]|(N & L & G)]].
    + apply (I3 i p E) in H. contradiction.
    + exact (I10 j q H G).
    + destruct (I4 j H) as [z Hz]. assert (j < length (m_pcs m))%nat by (apply nth_error_Some; congruence). lia.
Qed.

(* A step of the goroutine that holds the mutex, and goes on holding it. *)
Lemma keep_holding m i p p' l :
  inv m -> nth_error (m_pcs m) i = Some p ->
  holding p -> holding p' -> pc_ok l p' -> l_mu l = l_mu (m_lane m) -> lane_ok l ->
  (l_limit l = l_limit (m_lane m) \/ l_requests (m_lane m) = 0%nat) ->
  (l_requests l = 0%nat -> l_requests (m_lane m) = 0%nat) ->
  l_pos l - inflight p' = l_pos (m_lane m) - inflight p ->
  l_pos (m_lane m) <= l_pos l ->
  (l_dead l = true -> l_state l = Dead \/ (l_state l = l_state (m_lane m) /\ l_dead (m_lane m) = true /\ p <> CHeld) \/ (l_dead (m_lane m) = true /\ l_state (m_lane m) <> Dead /\ p <> CHeld)) ->
  inv {| m_lane := l; m_pcs := put (m_pcs m) i p' ++ extra None; m_log := m_log m |}.
Proof.
  intros [I1 I2 I3 I4 I5 I6 I7 I8 I9 I10] E H H' P' Mu Lo Li Re In Po De.
  assert (l_mu (m_lane m) = Some i) as Own by (apply (I3 i p E); exact H).
  assert (forall j q, j <> i -> nth_error (m_pcs m) j = Some q -> ~ holding q) as Others.
  { intros j q N G Hq. apply (I3 j q G) in Hq. congruence. }
  constructor; cbn [m_lane m_pcs m_log].
  - exact Lo.
  - intros j q F. destruct (after_inv _ _ _ _ _ _ _ E F) as [[-> ->]|[[N G]|(N & L & G)]]; [exact P'| |discriminate].
    apply (pc_ok_other (m_lane m)); [exact (Others j q N G) | exact Po | exact (I2 j q G)].
  - intros j q F. rewrite Mu. destruct (after_inv _ _ _ _ _ _ _ E F) as [[-> ->]|[[N G]|(N & L & G)]]; [tauto| exact (I3 j q G) |discriminate].
  - intros j Hj. rewrite Mu in Hj. destruct (I4 j Hj) as [z Hz]. destruct (Nat.eq_dec i j) as [->|N].
    + exists p'. exact (after_at _ _ _ _ _ E).
    + exists z. exact (after_keeps _ _ _ _ _ _ N Hz).
  - intros D. destruct (De D) as [S|[(S & D0 & NC)|(D0 & S & NC)]]; [left; exact S| |].
    + destruct (I5 D0) as [S0|(j & q & G & Hq)]; [left; congruence|]. right. exists j, q. split; [|exact Hq].
      apply after_keeps; [|exact G]. intros ->. rewrite E in G. apply some_inj in G. subst q. destruct Hq as [->| ->]; [destruct H | contradiction].
    + destruct (I5 D0) as [S0|(j & q & G & Hq)]; [contradiction|]. right. exists j, q. split; [|exact Hq].
      apply after_keeps; [|exact G]. intros ->. rewrite E in G. apply some_inj in G. subst q. destruct Hq as [->| ->]; [destruct H | contradiction].
  - apply (log_limit _ (l_limit (m_lane m))); [|exact I6]. destruct Li as [Li|Li]; [right; congruence | left; exact (I7 Li)].
  - intros R. apply I7. exact (Re R).
  - exact I8.
  - intros F. rewrite Mu, Own in F. discriminate.
  - intros j q Hj F. rewrite Mu, Own in Hj. apply some_inj in Hj. subst j. rewrite (after_at _ _ _ _ _ E) in F. apply some_inj in F. subst q.
    specialize (I10 i p Own E). lia.
Qed.

(* Taking the mutex. *)
Lemma take m i p p' :
  inv m -> nth_error (m_pcs m) i = Some p -> l_mu (m_lane m) = None -> holding p' -> inflight p' = 0 ->
  (pc_ok (m_lane m) p -> pc_ok (set_mu (m_lane m) (Some i)) p') -> (p = CWait -> p' = CHeld) ->
  inv {| m_lane := set_mu (m_lane m) (Some i); m_pcs := put (m_pcs m) i p' ++ extra None; m_log := m_log m |}.
Proof.
  intros [I1 I2 I3 I4 I5 I6 I7 I8 I9 I10] E Mu H' Fl P' Cl. constructor; cbn [m_lane m_pcs m_log].
  - exact I1.
  - intros j q F. destruct (after_inv _ _ _ _ _ _ _ E F) as [[-> ->]|[[N G]|(N & L & G)]]; [apply P'; exact (I2 i p E)| |discriminate].
    apply (pc_ok_other (m_lane m)); [|cbn; lia | exact (I2 j q G)]. intros Hq. apply (I3 j q G) in Hq. congruence.
  - intros j q F. cbn [set_mu l_mu]. destruct (after_inv _ _ _ _ _ _ _ E F) as [[-> ->]|[[N G]|(N & L & G)]]; [tauto| |discriminate].
    specialize (I3 j q G). rewrite Mu in I3. split; [intros Hq; apply I3 in Hq; discriminate | intros Hq; congruence].
  - intros j Hj. cbn [set_mu l_mu] in Hj. apply some_inj in Hj. subst j. exists p'. exact (after_at _ _ _ _ _ E).
  - intros D. cbn [set_mu l_dead l_state] in *. destruct (I5 D) as [S|(j & q & G & Hq)]; [left; exact S|]. right.
    destruct (Nat.eq_dec i j) as [->|N].
    + rewrite E in G. apply some_inj in G. subst q. destruct Hq as [->| ->].
      * exists j, CHeld. split; [rewrite <- (Cl eq_refl); exact (after_at _ _ _ _ _ E) | right; reflexivity].
      * exfalso. destruct (I3 j CHeld E) as [A _]. specialize (A Logic.I). congruence.
    + exists j, q. split; [exact (after_keeps _ _ _ _ _ _ N G) | exact Hq].
  - exact I6.
  - exact I7.
  - exact I8.
  - discriminate.
  - intros j q Hj F. cbn [set_mu l_mu] in Hj. apply some_inj in Hj. subst j. rewrite (after_at _ _ _ _ _ E) in F. apply some_inj in F. subst q.
    cbn [set_mu l_pos]. rewrite (I9 Mu), Fl. lia.
Qed.

(* Giving it back. *)
Lemma give m i p p' log :
  inv m -> nth_error (m_pcs m) i = Some p -> (p = CLeave /\ p' = CEnded /\ log = m_log m \/
    exists off len r, p = Leave off len r /\ p' = Ended off len r /\ log = m_log m ++ [(off, len, r)]) ->
  inv {| m_lane := set_mu (m_lane m) None; m_pcs := put (m_pcs m) i p' ++ extra None; m_log := log |}.
Proof.
  intros [I1 I2 I3 I4 I5 I6 I7 I8 I9 I10] E Sh.
  assert (holding p /\ ~ holding p' /\ pc_ok (set_mu (m_lane m) None) p' /\ p <> CWait /\ p <> CHeld) as (H & NH & P' & N1 & N2).
  { destruct Sh as [(-> & -> & _)|(off & len & r & -> & -> & _)]; cbn; repeat split; auto; discriminate. }
  assert (l_mu (m_lane m) = Some i) as Own by (apply (I3 i p E); exact H).
  pose proof (I10 i p Own E) as Ps. pose proof (I2 i p E) as Pk.
  assert (Forall (fun x => read_right base (l_limit (m_lane m)) body (fst (fst x)) (snd (fst x)) (snd x)) log /\
          (l_requests (m_lane m) = 0%nat -> Forall (fun x => snd x = NotServed) log) /\ contiguous base log /\
          l_pos (m_lane m) = base + zlen (handed_out log)) as (L1 & L2 & L3 & L4).
  { destruct Sh as [(-> & -> & ->)|(off & len & r & -> & -> & ->)].
    - split; [exact I6|]. split; [exact I7|]. split; [exact I8|]. cbn [inflight] in Ps. lia.
    - destruct r as [|b e].
      + split; [apply Forall_app; split; [exact I6 | constructor; [exact Logic.I | constructor]]|].
        split; [intros R; apply Forall_app; split; [exact (I7 R) | constructor; [reflexivity | constructor]]|].
        split; [apply contiguous_snoc; [exact I8 | exact Logic.I]|]. rewrite handed_snoc, app_nil_r. cbn [inflight] in Ps. lia.
      + cbn [pc_ok] in Pk. destruct Pk as (P1 & P2 & P3). cbn [inflight] in Ps.
        split; [apply Forall_app; split; [exact I6 | constructor; [exact P1 | constructor]]|].
        split; [intros R; contradiction|].
        split; [apply contiguous_snoc; [exact I8 | lia]|]. rewrite handed_snoc, zlen_app. lia. }
  constructor; cbn [m_lane m_pcs m_log set_mu l_mu l_state l_pos l_limit l_requests l_dead].
  - exact I1.
  - intros j q F. destruct (after_inv _ _ _ _ _ _ _ E F) as [[-> ->]|[[N G]|(N & L & G)]]; [exact P'| |discriminate].
    apply (pc_ok_other (m_lane m)); [|cbn; lia | exact (I2 j q G)]. intros Hq. apply (I3 j q G) in Hq. congruence.
  - intros j q F. destruct (after_inv _ _ _ _ _ _ _ E F) as [[-> ->]|[[N G]|(N & L & G)]]; [split; [intros; contradiction | discriminate]| |discriminate].
    split; [|discriminate]. intros Hq. apply (I3 j q G) in Hq. congruence.
  - discriminate.
  - intros D. destruct (I5 D) as [S|(j & q & G & Hq)]; [left; exact S|]. right. exists j, q. split; [|exact Hq].
    apply after_keeps; [|exact G]. intros ->. rewrite E in G. apply some_inj in G. subst q. destruct Hq; contradiction.
  - exact L1.
  - exact L2.
  - exact L3.
  - intros _. exact L4.
  - discriminate.
Qed.

Lemma kill_ok l : lane_ok l -> lane_ok (kill_locked l).
Proof.
  intros [A B]. split; [exact A|]. cbn. split; [reflexivity|]. destruct (l_state l); lia.
Qed.

Lemma put_id (l : list pc) i p : nth_error l i = Some p -> put l i p = l.
Proof. revert i. induction l as [|x r IH]; intros [|i] E; cbn in *; try discriminate; [apply some_inj in E; congruence | f_equal; auto]. Qed.
Lemma stay m i p : inv m -> nth_error (m_pcs m) i = Some p -> inv {| m_lane := m_lane m; m_pcs := put (m_pcs m) i p ++ extra None; m_log := m_log m |}.
Proof. intros V E. rewrite (put_id _ _ _ E). cbn [extra]. rewrite app_nil_r. destruct m. exact V. Qed.
Lemma read_right_eof limit off len b e :
  base <= off -> zlen b <= len -> object_bytes base body off b -> (e = KNil -> zlen b = len) ->
  (e = KEof -> b <> [] -> off + zlen b = limit) -> read_right base limit body off len (Served b e).
Proof. cbn. auto. Qed.

Lemma step_inv m ia : inv m -> inv (step base body m ia).
Proof.
  intros V. destruct ia as [i a]. unfold step. cbn [fst snd]. destruct (nth_error (m_pcs m) i) as [p|] eqn:E; [|exact V].
  pose proof (i_pcs _ V i p E) as P. pose proof (i_lane _ V) as [Lb Lo].
  set (l := m_lane m) in *.
  destruct p as [off len|off len|off len|off len|off len|off len|off len acc|off len r|off len r| | | | | ]; cbn [exec].
  - (* Look *) destruct (l_dead l) eqn:D.
    + apply (keep_outside m i (Look off len) (Ended off len NotServed) l None); cbn; auto; left; split; [auto | split; discriminate].
    + apply (keep_outside m i (Look off len) (Match off len) l None); cbn; auto; left; split; [auto | split; discriminate].
  - (* Match *) destruct (Z.eqb_spec (l_pos l) off) as [Q|Q].
    + apply (keep_outside m i (Match off len) (Wait off len) l None); cbn; auto; try (cbn in P; split; lia); left; split; [auto | split; discriminate].
    + apply (keep_outside m i (Match off len) (Swap off len) l None); cbn; auto; left; split; [auto | split; discriminate].
  - (* Swap *) destruct (l_dead l) eqn:D.
    + apply (keep_outside m i (Swap off len) (Ended off len NotServed) l None); cbn; auto; left; split; [auto | split; discriminate].
    + apply (keep_outside m i (Swap off len) (Ended off len NotServed) (mark_dead l) (Some CWait)); cbn; auto.
  - (* Wait *) destruct (l_mu l) as [h|] eqn:Mu.
    + apply (keep_outside m i (Wait off len) (Wait off len) l None); cbn; auto; left; split; [auto | split; discriminate].
    + apply (take m i (Wait off len) (Held off len)); cbn; auto; discriminate.
  - (* Held *) destruct (match l_state l with Dead => true | _ => false end || l_dead l || negb (l_pos l =? off)) eqn:B.
    + apply (keep_holding m i (Held off len) (Leave off len NotServed) l); cbn; auto; [split; assumption | fold l; lia |].
      intros D. right. left. split; [reflexivity|]. split; [exact D | discriminate].
    + apply orb_false_elim in B as [B B3]. apply orb_false_elim in B as [B1 B2]. apply negb_false_iff, Z.eqb_eq in B3. cbn in P.
      destruct (l_state l) eqn:S; [| |discriminate B1].
      * apply (keep_holding m i (Held off len) (Opening off len) l); cbn; auto;
          try tauto; try (split; [assumption | rewrite S; assumption]); try (fold l; lia); fold l; congruence.
      * apply (keep_holding m i (Held off len) (Reading off len []) l); cbn; auto;
          try (split; [assumption | rewrite S; assumption]); try (change (zlen []) with 0; fold l; lia); try (fold l; congruence).
        change (zlen []) with 0. split; [lia|]. split; [exact S|]. split; [lia|]. split; [lia|]. split; [lia|]. split; [apply bytes_nil | congruence].
  - (* Opening *) cbn in P. destruct P as (P1 & P2 & P3). rewrite P2 in Lo. destruct Lo as (Lp & Lr & Lbd & Lc).
    destruct (a_grant a) as [g|].
    + apply (keep_holding m i (Opening off len) (Reading off len []) (opened base l g)); cbn; auto.
      * change (zlen []) with 0. split; [lia|]. split; [reflexivity|]. split; [lia|]. split; [lia|]. split; [lia|]. split; [apply bytes_nil | congruence].
      * split; cbn; [lia|]. rewrite Lr, Lbd, Lc. auto with zarith.
      * change (zlen []) with 0. fold l. lia.
      * fold l. lia.
      * intros D. right. right. fold l. split; [exact D|]. split; [congruence | discriminate].
    + apply (keep_holding m i (Opening off len) (Leave off len (Served [] match a_refusal a with AtEnd => KEof | Otherwise => KFail end)) (refused l)); cbn [holding]; auto.
      * cbn [pc_ok]. split; [|split; [discriminate | cbn; unfold zlen; cbn; fold l; lia]].
        apply read_right_eof; [lia | unfold zlen; cbn; lia | apply bytes_nil | destruct (a_refusal a); discriminate | congruence].
      * split; cbn; [lia|]. rewrite P2, Lr, Lbd, Lc. auto.
      * cbn. fold l. unfold zlen. cbn. lia.
  - (* Reading *) cbn in P. destruct P as (P1 & P2 & P3 & P4 & P5 & P6 & P7). rewrite P2 in Lo. destruct Lo as (Lp & Lr & Lbd & Lc).
    cbv zeta. destruct (Z.leb_spec (l_limit l - l_pos l) 0) as [R|R].
    { apply (keep_holding m i (Reading off len acc) (Leave off len (Served acc KEof)) (kill_locked l)); cbn [holding]; auto.
      - cbn [pc_ok]. split; [|split; [cbn; lia | exact P3]].
        apply read_right_eof; [lia | lia | exact P6 | discriminate |]. intros _ N. specialize (P7 N). cbn. lia.
      - apply kill_ok. split; [assumption|]. rewrite P2. auto.
      - cbn. fold l. lia. }
    destruct (Z.eqb_spec (zlen acc) len) as [Q|Q].
    { apply (keep_holding m i (Reading off len acc) (Leave off len (Served acc KNil)) l); cbn [holding]; auto.
      - cbn [pc_ok]. split; [|split; [lia | exact P3]]. apply read_right_eof; [lia | lia | exact P6 | auto | discriminate].
      - split; [assumption|]. rewrite P2. auto.
      - fold l. lia.
      - intros D. right. left. fold l. split; [reflexivity|]. split; [exact D | discriminate]. }
    set (want := Z.min (len - zlen acc) (l_limit l - l_pos l)).
    set (n := Z.max 0 (Z.min (a_n a) want)).
    set (acc' := acc ++ slice body (l_body l) n).
    assert (0 <= n <= len - zlen acc /\ n <= l_limit l - l_pos l) as (N1 & N2).
    { pose proof (zlen_nonneg acc). subst n want. lia. }
    assert (zlen acc' = zlen acc + n) as La by (subst acc'; rewrite zlen_app, slice_len; lia).
    assert (object_bytes base body off acc') as Ob.
    { subst acc'. apply bytes_app; [exact P6|]. replace (l_body l) with (off + zlen acc - base) by lia. apply bytes_slice. lia. }
    assert (lane_ok (advanced l n (off + zlen acc'))) as Lok.
    { split; cbn; [pose proof (zlen_nonneg acc'); lia|]. rewrite P2. split; [lia | auto]. }
    clearbody n acc'. clear want.
    destruct (a_err a).
    + apply (keep_holding m i (Reading off len acc) (Reading off len acc') (advanced l n (off + zlen acc'))); cbn; auto.
      * split; [lia|]. split; [exact P2|]. split; [reflexivity|]. split; [lia|]. split; [lia|]. split; [exact Ob | intros _; lia].
      * fold l. lia.
      * fold l. lia.
      * intros D. right. left. split; [reflexivity|]. split; [exact D | discriminate].
    + cbn [advanced l_limit l_pos]. destruct (Z.leb_spec (l_limit l) (off + zlen acc')) as [K|K].
      * apply (keep_holding m i (Reading off len acc) (Leave off len (Served acc' KEof)) (kill_locked (advanced l n (off + zlen acc')))); cbn [holding]; auto.
        -- cbn [pc_ok]. split; [|split; [cbn; lia | cbn; lia]].
           apply read_right_eof; [lia | lia | exact Ob | discriminate | intros _ _; cbn; lia].
        -- apply kill_ok. exact Lok.
        -- cbn. fold l. lia.
        -- cbn. fold l. lia.
      * apply (keep_holding m i (Reading off len acc) (Leave off len (Served acc' KShort)) (kill_locked (advanced l n (off + zlen acc')))); cbn [holding]; auto.
        -- cbn [pc_ok]. split; [|split; [cbn; lia | cbn; lia]].
           apply read_right_eof; [lia | lia | exact Ob | discriminate | discriminate].
        -- apply kill_ok. exact Lok.
        -- cbn. fold l. lia.
        -- cbn. fold l. lia.
    + apply (keep_holding m i (Reading off len acc) (Leave off len (Served acc' KFail)) (kill_locked (advanced l n (off + zlen acc')))); cbn [holding]; auto.
      * cbn [pc_ok]. split; [|split; [cbn; lia | cbn; lia]].
        apply read_right_eof; [lia | lia | exact Ob | discriminate | discriminate].
      * apply kill_ok. exact Lok.
      * cbn. fold l. lia.
      * cbn. fold l. lia.
  - (* Leave *) apply (give m i (Leave off len r) (Ended off len r)); auto. right. exists off, len, r. auto.
  - (* Ended *) exact (stay m i _ V E).
  - (* CMark *) apply (keep_outside m i CMark CWait (mark_dead l) None); cbn; auto.
  - (* CWait *) destruct (l_mu l) as [h|] eqn:Mu.
    + exact (stay m i CWait V E).
    + apply (take m i CWait CHeld); cbn; auto.
  - (* CHeld *) apply (keep_holding m i CHeld CLeave (kill_locked l)); cbn; auto; try (apply (kill_ok l); split; assumption); fold l; lia.
  - (* CLeave *) apply (give m i CLeave CEnded); auto.
  - (* CEnded *) exact (stay m i _ V E).
Qed.

Lemma start_nth reads closers i p :
  nth_error (m_pcs (start base reads closers)) i = Some p -> (exists r, In r reads /\ p = Look (fst r) (snd r)) \/ p = CMark.
Proof.
  cbn. intros E. apply nth_error_In in E. apply in_app_or in E as [E|E].
  - apply in_map_iff in E as (r & <- & I). left. exists r. auto.
  - apply repeat_spec in E. auto.
Qed.
Lemma start_inv reads closers : sane reads -> inv (start base reads closers).
Proof.
  intros Sa. constructor.
  - cbn. split; [cbn; lia|]. cbn. auto.
  - intros i p E. destruct (start_nth _ _ _ _ E) as [(r & I & ->)| ->]; [|exact Logic.I]. cbn. exact (proj1 (Forall_forall _ _) Sa r I).
  - intros i p E. destruct (start_nth _ _ _ _ E) as [(r & I & ->)| ->]; cbn; split; try discriminate; intros [].
  - discriminate.
  - discriminate.
  - constructor.
  - constructor.
  - exact Logic.I.
  - intros _. cbn. unfold zlen. cbn. lia.
  - discriminate.
Qed.
Lemma run_inv sched : forall m, inv m -> inv (run base body m sched).
Proof. induction sched as [|s r IH]; intros m V; [exact V|]. cbn. apply IH, step_inv, V. Qed.
Lemma reached reads closers sched : sane reads -> inv (run base body (start base reads closers) sched).
Proof. intros S. apply run_inv, start_inv, S. Qed.

(* What the invariant gives. *)
Lemma inv_counts m : inv m ->
  (l_closes (m_lane m) <= l_bodies (m_lane m) /\ l_bodies (m_lane m) <= l_requests (m_lane m) /\ l_requests (m_lane m) <= 1)%nat.
Proof. intros V. destruct (i_lane _ V) as [_ L]. destruct (l_state (m_lane m)); lia. Qed.

Lemma contiguous_bytes limit log : forall pos,
  Forall (fun x : Z * Z * result => read_right base limit body (fst (fst x)) (snd (fst x)) (snd x)) log ->
  contiguous pos log -> object_bytes base body pos (handed_out log).
Proof.
  induction log as [|[[o n] [|b e]] t IH]; intros pos F C; cbn in *.
  - apply bytes_nil.
  - inversion F; subst. apply IH; assumption.
  - inversion F as [|x y Fx Ft]; subst. cbn in Fx. destruct C as [-> C]. apply bytes_app; [apply Fx | exact (IH _ Ft C)].
Qed.

Lemma not_over_dec p : over p \/ ~ over p.
Proof. destruct p; cbn; tauto. Qed.
Lemma some_unblocked m : inv m -> (exists i p, nth_error (m_pcs m) i = Some p /\ ~ over p) ->
  exists i p, nth_error (m_pcs m) i = Some p /\ ~ over p /\ ~ blocked (m_lane m) p.
Proof.
  intros V (i & p & E & O). destruct (l_mu (m_lane m)) as [h|] eqn:Mu.
  - destruct (i_owner _ V h Mu) as [q G]. assert (holding q) as H by (apply (i_mu _ V h q G); exact Mu).
    exists h, q. split; [exact G|]. destruct q; cbn in *; tauto.
  - exists i, p. split; [exact E|]. split; [exact O|]. destruct p; cbn; congruence.
Qed.

(* Work left. *)
Definition weight (p : pc) : Z :=
  match p with
  | Look _ len => len + 7 | Match _ len => len + 6 | Swap _ _ => 4 | Wait _ len => len + 5 | Held _ len => len + 4
  | Opening _ len => len + 3 | Reading _ len acc => len - zlen acc + 2 | Leave _ _ _ => 1 | Ended _ _ _ => 0
  | CMark => 4 | CWait => 3 | CHeld => 2 | CLeave => 1 | CEnded => 0
  end.
Definition work (l : list pc) : Z := fold_right (fun p n => weight p + n) 0 l.
Lemma work_app a b : work (a ++ b) = work a + work b.
Proof. unfold work. induction a as [|x r IH]; cbn; [reflexivity|]. rewrite IH. lia. Qed.
Lemma work_put l i p x : nth_error l i = Some x -> work (put l i p) = work l - weight x + weight p.
Proof.
  unfold work. revert i. induction l as [|y r IH]; intros [|i] E; cbn in *; try discriminate.
  - apply some_inj in E. subst y. lia.
  - rewrite (IH i E). lia.
Qed.
Lemma work_nonneg m : inv m -> 0 <= work (m_pcs m).
Proof.
  intros V. assert (forall p, In p (m_pcs m) -> 0 <= weight p) as W.
  { intros p I. apply In_nth_error in I as [i E]. pose proof (i_pcs _ V i p E) as P. destruct p as [ | | | | | |o n ac|o n r| | | | | | ]; cbn in *; try lia.
    }
  induction (m_pcs m) as [|x r IH]; cbn; [lia|]. specialize (W x (or_introl eq_refl)) as W1. unfold work in IH.
  assert (0 <= fold_right (fun p n => weight p + n) 0 r); [|lia]. apply IH. intros p I. apply W. right. exact I.
Qed.
Lemma work_less m s : inv m -> useful m s -> work (m_pcs (step base body m s)) + 1 <= work (m_pcs m).
Proof.
  intros V (p & E & O & B & A). destruct s as [i a]. cbn [fst snd] in *. unfold step. cbn [fst snd]. rewrite E.
  pose proof (i_pcs _ V i p E) as P.
  destruct (exec base body i a (m_lane m) p) as [[l p'] new] eqn:X. cbn [m_pcs].
  rewrite work_app, (work_put _ _ _ _ E).
  enough (weight p' + work (extra new) + 1 <= weight p) by (change (match new with Some q => [q] | None => [] end) with (extra new); lia).
  destruct p as [off len|off len|off len|off len|off len|off len|off len acc|off len r|off len r| | | | | ]; cbn [exec] in X; cbn in P.
  - destruct (l_dead (m_lane m)); apply pair_equal_spec in X as [X <-]; apply pair_equal_spec in X as [_ <-]; cbn; lia.
  - destruct (l_pos (m_lane m) =? off); apply pair_equal_spec in X as [X <-]; apply pair_equal_spec in X as [_ <-]; cbn; lia.
  - destruct (l_dead (m_lane m)); apply pair_equal_spec in X as [X <-]; apply pair_equal_spec in X as [_ <-]; cbn; lia.
  - cbn in B. destruct (l_mu (m_lane m)); [exfalso; apply B; discriminate|]. apply pair_equal_spec in X as [X <-]; apply pair_equal_spec in X as [_ <-]; cbn; lia.
  - destruct (match l_state (m_lane m) with Dead => true | _ => false end || l_dead (m_lane m) || negb (l_pos (m_lane m) =? off));
      [|destruct (l_state (m_lane m))]; apply pair_equal_spec in X as [X <-]; apply pair_equal_spec in X as [_ <-]; cbn; try change (zlen []) with 0; lia.
  - destruct (a_grant a); apply pair_equal_spec in X as [X <-]; apply pair_equal_spec in X as [_ <-]; cbn; try change (zlen []) with 0; lia.
  - destruct P as (P1 & P2 & P3 & P4 & P5 & _). cbv zeta in X.
    destruct (Z.leb_spec (l_limit (m_lane m) - l_pos (m_lane m)) 0) as [R|R]; [apply pair_equal_spec in X as [X <-]; apply pair_equal_spec in X as [_ <-]; cbn; lia|].
    destruct (Z.eqb_spec (zlen acc) len) as [Q|Q]; [apply pair_equal_spec in X as [X <-]; apply pair_equal_spec in X as [_ <-]; cbn; lia|].
    destruct (a_err a).
    + apply pair_equal_spec in X as [X <-]; apply pair_equal_spec in X as [_ <-]. cbn [weight extra work fold_right]. rewrite zlen_app, slice_len by lia. lia.
    + destruct (_ <=? _); apply pair_equal_spec in X as [X <-]; apply pair_equal_spec in X as [_ <-]; cbn; lia.
    + apply pair_equal_spec in X as [X <-]; apply pair_equal_spec in X as [_ <-]; cbn; lia.
  - apply pair_equal_spec in X as [X <-]; apply pair_equal_spec in X as [_ <-]; cbn; lia.
  - exfalso. apply O. exact I.
  - apply pair_equal_spec in X as [X <-]; apply pair_equal_spec in X as [_ <-]; cbn; lia.
  - cbn in B. destruct (l_mu (m_lane m)); [exfalso; apply B; discriminate|]. apply pair_equal_spec in X as [X <-]; apply pair_equal_spec in X as [_ <-]; cbn; lia.
  - apply pair_equal_spec in X as [X <-]; apply pair_equal_spec in X as [_ <-]; cbn; lia.
  - apply pair_equal_spec in X as [X <-]; apply pair_equal_spec in X as [_ <-]; cbn; lia.
  - exfalso. apply O. exact I.
Qed.
Lemma work_run sched : forall m, inv m -> all_useful base body m sched -> zlen sched <= work (m_pcs m).
Proof.
  induction sched as [|s r IH]; intros m V U.
  - exact (work_nonneg m V).
  - destruct U as [U1 U2]. specialize (IH _ (step_inv m s V) U2). pose proof (work_less m s V U1).
    replace (zlen (s :: r)) with (zlen r + 1) by (unfold zlen; cbn [length]; lia). lia.
Qed.
Lemma work_start reads closers : work (m_pcs (start base reads closers)) = bound reads closers.
Proof.
  unfold start, bound. cbn [m_pcs]. rewrite work_app. f_equal.
  - induction reads as [|r t IH]; cbn; [reflexivity|]. unfold work in IH. rewrite IH. lia.
  - induction closers as [|k IH]; cbn [repeat work fold_right]; [reflexivity|]. unfold work in IH. rewrite IH. cbn [weight]. lia.
Qed.

(* A goroutine that was to close marks the lane, and stays a closer; a read that came back served is in the log. *)
Definition closing (p : pc) : Prop := match p with CWait | CHeld | CLeave | CEnded => True | _ => False end.
Definition closed_by (i : nat) (m : machine) : Prop :=
  exists p, nth_error (m_pcs m) i = Some p /\ (p = CMark \/ (closing p /\ l_dead (m_lane m) = true)).
Lemma dead_stays i a l p l' p' new : exec base body i a l p = (l', p', new) -> l_dead l = true -> l_dead l' = true.
Proof.
  intros X D. destruct p; cbn [exec] in X; cbv zeta in X;
    repeat match type of X with (if ?c then _ else _) = _ => destruct c eqn:? | (match ?c with _ => _ end) = _ => destruct c eqn:? end;
    apply pair_equal_spec in X as [X _]; apply pair_equal_spec in X as [<- _]; cbn; auto; discriminate.
Qed.
Lemma closer_step i m s : closed_by i m -> closed_by i (step base body m s).
Proof.
  intros (p & E & Sh). destruct s as [j a]. unfold step. cbn [fst snd]. destruct (nth_error (m_pcs m) j) as [q|] eqn:F; [|exists p; auto].
  destruct (exec base body j a (m_lane m) q) as [[l q'] new] eqn:X. unfold closed_by. cbn [m_pcs m_lane].
  change (match new with Some q => [q] | None => [] end) with (extra new).
  destruct (Nat.eq_dec j i) as [->|N].
  - assert (q = p) as -> by congruence. exists q'. split; [exact (after_at _ _ _ _ _ F)|].
    destruct Sh as [->|[C D]].
    + cbn in X. apply pair_equal_spec in X as [X _]. apply pair_equal_spec in X as [<- <-]. right. split; [exact I | reflexivity].
    + right. pose proof (dead_stays _ _ _ _ _ _ _ X D) as D'. split; [|exact D'].
      destruct p; try contradiction; cbn in X; [destruct (l_mu (m_lane m))| | | ]; apply pair_equal_spec in X as [X _]; apply pair_equal_spec in X as [_ <-]; exact I.
  - exists p. split; [exact (after_keeps _ _ _ _ _ _ N E)|]. destruct Sh as [->|[C D]]; [auto|]. right. split; [exact C|].
    exact (dead_stays _ _ _ _ _ _ _ X D).
Qed.
Lemma closer_run i sched : forall m, closed_by i m -> closed_by i (run base body m sched).
Proof. induction sched as [|s r IH]; intros m C; [exact C|]. cbn. apply IH, closer_step, C. Qed.
Lemma all_closed reads closers sched : sane reads ->
  let m := run base body (start base reads closers) sched in
  (forall i p, nth_error (m_pcs m) i = Some p -> over p) ->
  l_mu (m_lane m) = None /\ (l_dead (m_lane m) = true -> l_closes (m_lane m) = l_bodies (m_lane m)) /\
  (l_dead (m_lane m) = false -> l_closes (m_lane m) = 0%nat) /\ ((0 < closers)%nat -> l_dead (m_lane m) = true).
Proof.
  intros S m O. pose proof (reached reads closers sched S : inv m) as V. split; [|split; [|split]].
  - destruct (l_mu (m_lane m)) as [h|] eqn:Mu; [|reflexivity]. destruct (i_owner _ V h Mu) as [q G].
    apply (i_mu _ V h q G) in Mu. specialize (O h q G). destruct q; contradiction.
  - intros D. destruct (i_closer _ V D) as [St|(i & p & G & Hp)].
    + destruct (i_lane _ V) as [_ L]. rewrite St in L. apply L.
    + specialize (O i p G). destruct Hp as [->| ->]; contradiction.
  - intros D. destruct (i_lane _ V) as [_ L]. destruct (l_state (m_lane m)); try lia.
  - intros Cl. assert (closed_by (length reads) (start base reads closers)) as C.
    { exists CMark. split; [|auto]. cbn. rewrite nth_error_app2 by (rewrite map_length; lia). rewrite map_length, Nat.sub_diag. destruct closers; [lia | reflexivity]. }
    apply (closer_run _ sched) in C. fold m in C. destruct C as (p & E & [->|[_ D]]); [|exact D]. specialize (O _ _ E). contradiction.
Qed.

Lemma logged_step m s : (forall i off len r, nth_error (m_pcs m) i = Some (Ended off len r) -> r <> NotServed -> In (off, len, r) (m_log m)) ->
  forall i off len r, nth_error (m_pcs (step base body m s)) i = Some (Ended off len r) -> r <> NotServed -> In (off, len, r) (m_log (step base body m s)).
Proof.
  intros H i off len r. destruct s as [j a]. unfold step. cbn [fst snd]. destruct (nth_error (m_pcs m) j) as [q|] eqn:F; [|apply H].
  destruct (exec base body j a (m_lane m) q) as [[l q'] new] eqn:X. cbn [m_pcs m_log].
  intros G N. change (nth_error (put (m_pcs m) j q' ++ extra new) i = Some (Ended off len r)) in G.
  assert (incl (m_log m) (match q with Leave off0 len0 r0 => m_log m ++ [(off0, len0, r0)] | _ => m_log m end)) as Inc.
  { destruct q; try apply incl_refl. apply incl_appl, incl_refl. }
  destruct (after_inv _ _ _ _ _ _ _ F G) as [[-> <-]|[[D G']|(D & L & ->)]].
  - destruct q as [o n|o n|o n|o n|o n|o n|o n ac|o n r0|o n r0| | | | | ]; cbn [exec] in X; cbv zeta in X;
      repeat match type of X with (if ?c then _ else _) = _ => destruct c | (match ?c with _ => _ end) = _ => destruct c end;
      apply pair_equal_spec in X as [X _]; apply pair_equal_spec in X as [_ X]; try discriminate X; try (exfalso; congruence);
      assert (r0 = r /\ o = off /\ n = len) as (-> & -> & ->) by (repeat split; congruence).
    + apply in_or_app. right. left. reflexivity.
    + exact (H j off len r F N).
  - apply Inc. exact (H i off len r G' N).
  - exfalso. destruct q; cbn [exec] in X; cbv zeta in X;
      repeat match type of X with (if ?c then _ else _) = _ => destruct c | (match ?c with _ => _ end) = _ => destruct c end;
      apply pair_equal_spec in X as [X Y]; discriminate Y.
Qed.
Lemma logged reads closers sched i off len r :
  let m := run base body (start base reads closers) sched in
  nth_error (m_pcs m) i = Some (Ended off len r) -> r <> NotServed -> In (off, len, r) (m_log m).
Proof.
  unfold run. assert (forall sched m, (forall i off len r, nth_error (m_pcs m) i = Some (Ended off len r) -> r <> NotServed -> In (off, len, r) (m_log m)) ->
    forall i off len r, nth_error (m_pcs (fold_left (step base body) sched m)) i = Some (Ended off len r) -> r <> NotServed ->
      In (off, len, r) (m_log (fold_left (step base body) sched m))) as G.
  { clear. induction sched as [|s t IH]; intros m H; [exact H|]. cbn. apply IH. apply logged_step. exact H. }
  refine (G sched (start base reads closers) _ i off len r). intros k o n r0 E. destruct (start_nth _ _ _ _ E) as [(z & _ & F)|F]; discriminate F.
Qed.
End lane.

(* Two goroutines: one reads four bytes and has two, the other asks for the byte after those. *)
Definition sa (i : nat) (n : Z) : nat * ans := (i, {| a_grant := Some 10; a_refusal := Otherwise; a_n := n; a_err := RNil |}).
Definition queue_up : list (nat * ans) := map (fun i => sa i 2) [0; 0; 0; 0; 0; 0; 1; 1]%nat.
Definition queue_off : list (nat * ans) := map (fun i => sa i 2) [0; 0; 0; 1; 1; 1]%nat.
Lemma queues_unserved : ~ unserved_never_queue.
Proof.
  intros U. specialize (U 0 (fun k => Z.to_N k) [(0, 4); (2, 1)] 0%nat queue_up queue_off 1%nat 2 1). cbv zeta in U. apply U.
  - vm_compute. reflexivity.
  - exists 2, 1. split; vm_compute; [reflexivity | discriminate].
Qed.

Lemma lane_counts base body reads closers sched : sane reads ->
  let l := m_lane (run base body (start base reads closers) sched) in
  (l_closes l <= l_bodies l /\ l_bodies l <= l_requests l /\ l_requests l <= 1)%nat.
Proof. intros S. apply (inv_counts base body). apply reached, S. Qed.
Lemma lane_right base body reads closers sched i off len r : sane reads ->
  let m := run base body (start base reads closers) sched in
  nth_error (m_pcs m) i = Some (Ended off len r) -> read_right base (l_limit (m_lane m)) body off len r.
Proof.
  intros S m E. destruct r as [|b e]; [exact I|]. assert (In (off, len, Served b e) (m_log m)) as L by (apply (logged base body reads closers sched i); [exact E | discriminate]).
  pose proof (i_log _ _ _ (reached base body reads closers sched S)) as F. rewrite Forall_forall in F. exact (F _ L).
Qed.
Lemma lane_in_order base body reads closers sched : sane reads ->
  let m := run base body (start base reads closers) sched in
  contiguous base (m_log m) /\ object_bytes base body base (handed_out (m_log m)) /\
  (l_mu (m_lane m) = None -> l_pos (m_lane m) = base + zlen (handed_out (m_log m))) /\
  (forall i off len r, nth_error (m_pcs m) i = Some (Ended off len r) -> r <> NotServed -> In (off, len, r) (m_log m)).
Proof.
  intros S m. pose proof (reached base body reads closers sched S : inv base body m) as V.
  split; [apply V|]. split; [apply (contiguous_bytes base body (l_limit (m_lane m))); apply V|]. split; [apply V|].
  intros i off len r. apply (logged base body reads closers sched).
Qed.
Lemma lane_returns base body reads closers sched : sane reads ->
  let m := run base body (start base reads closers) sched in
  ((exists i p, nth_error (m_pcs m) i = Some p /\ ~ over p) ->
   exists i p, nth_error (m_pcs m) i = Some p /\ ~ over p /\ ~ blocked (m_lane m) p) /\
  (all_useful base body (start base reads closers) sched -> zlen sched <= bound reads closers).
Proof.
  intros S m. split.
  - apply (some_unblocked base body). apply reached, S.
  - intros U. rewrite <- (work_start base body reads closers). apply (work_run base body); [apply start_inv, S | exact U].
Qed.
Lemma lane_ahead base body reads closers sched i off len : sane reads ->
  let m := run base body (start base reads closers) sched in
  nth_error (m_pcs m) i = Some (Wait off len) -> base <= off <= l_pos (m_lane m).
Proof. intros S m E. pose proof (i_pcs _ _ _ (reached base body reads closers sched S) i _ E) as P. apply P. Qed.
