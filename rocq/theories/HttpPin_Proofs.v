From Verif Require Import Common CommonLemmas ContentRange_Model ContentRange_Spec ContentRange_Proofs MultiRead_Model
  HttpRange_Model HttpRange_Spec HttpRange_Proofs HttpPin_Model HttpPin_Spec.
Open Scope nat_scope.

Lemma upd_nth {A} (l : list A) i j x :
  nth_error (upd l i x) j = if (i =? j) then match nth_error l j with None => None | Some _ => Some x end else nth_error l j.
Proof.
  revert i j; induction l as [|y l IH]; intros [|i] [|j]; cbn; try reflexivity.
  - destruct (i =? j); reflexivity. - apply IH.
Qed.

(* number of properties stated *)
Definition b2n (b : bool) : nat := if b then 1 else 0.
Definition rank (m : option meta) : nat :=
  match m with
  | None => 0
  | Some m => 1 + b2n (stated (m_etag m)) + b2n (stated (m_lastmod m)) + b2n (stated (m_origin m))
      + b2n (m_known m) + b2n (m_verified m) + b2n (match m_header m with None => false | Some _ => true end)
  end.

Lemma rank_le m : rank m <= 7.
Proof.
  destruct m as [m|]; cbn [rank]; [|lia]. unfold b2n.
  repeat match goal with |- context [if ?c then 1 else 0] => destruct c end; lia.
Qed.

Lemma completed_rank m o f : completed_by m o = (f, true) -> rank m < rank (Some f).
Proof.
  destruct m as [m|]; cbn [completed_by]; intros H.
  2:{ cbn [rank]. lia. }
  injection H as <- Ht. cbn [rank m_etag m_lastmod m_origin m_known m_verified m_header].
  assert (forall a b, stated (fill a b) = stated a || stated b) as Hf.
  { intros a b. unfold fill. destruct a; reflexivity. }
  assert (forall a b, b2n (a || b) = b2n a + b2n (negb a && b)) as Hb by (intros [] []; reflexivity).
  assert (match (match m_header m with Some h => Some h | None => m_header o end) with None => false | Some _ => true end
          = (match m_header m with None => false | Some _ => true end)
            || (match m_header m, m_header o with None, Some _ => true | _, _ => false end)) as ->
    by (destruct (m_header m), (m_header o); reflexivity).
  rewrite !Hf, !Hb.
  assert (negb (match m_header m with None => false | Some _ => true end)
          && (match m_header m, m_header o with None, Some _ => true | _, _ => false end)
          = (match m_header m, m_header o with None, Some _ => true | _, _ => false end)) as ->
    by (destruct (m_header m), (m_header o); reflexivity).
  revert Ht.
  repeat match goal with |- context [negb ?x && ?y] => generalize (negb x && y); intros ? end.
  generalize (match m_header m, m_header o with None, Some _ => true | _, _ => false end); intros hh.
  intros Ht. repeat (apply orb_true_iff in Ht as [Ht|Ht]); rewrite Ht; cbn [b2n]; lia.
Qed.

Lemma mismatch_contradicts m r t : mismatch m r t = true <-> contradicts m r t.
Proof.
  unfold mismatch, contradicts. destruct m as [m|]; [|split; [discriminate|intros (? & ? & _); discriminate]].
  assert (forall a b, differ a b = true <-> a <> [] /\ b <> [] /\ a <> b) as Hd.
  { intros a b. unfold differ. rewrite !andb_true_iff, negb_true_iff, !stated_true.
    split; [intros [[? ?] E]|intros (? & ? & E)]; repeat split; auto.
    - intros ->. assert (bytes_eqb b b = true) by now apply bytes_eqb_eq. congruence.
    - destruct (bytes_eqb a b) eqn:Eb; [|reflexivity]. apply bytes_eqb_eq in Eb. contradiction. }
  rewrite !orb_true_iff, !Hd, andb_true_iff, negb_true_iff, Z.eqb_neq. split.
  - intros H. exists m. split; [reflexivity|]. intuition congruence.
  - intros (mm & E & H). injection E as <-. intuition congruence.
Qed.

Lemma contradicts_extends m m' r t : contradicts m r t -> extends m m' -> contradicts m' r t.
Proof.
  intros (mm & -> & H) He. destruct m' as [b|]; [|contradiction]. exists b. split; [reflexivity|].
  destruct He as (E1 & E2 & E3 & E4 & _). unfold keeps in *.
  destruct H as [[H1 H2]|[(H1 & H2 & H3)|[(H1 & H2 & H3)|(H1 & H2 & H3)]]].
  - left. destruct (E4 H1). split; congruence.
  - right; left. specialize (E1 H2). rewrite E1. auto.
  - right; right; left. specialize (E2 H2). rewrite E2. auto.
  - right; right; right. specialize (E3 H2). rewrite E3. auto.
Qed.

(* what completing does, without the mismatch test *)
Lemma completed_pin m r t : mismatch m r t = false ->
  let '(f, took) := completed_by m (meta_of_resp r t) in
  (took = true -> extends m (Some f) /\ pinned_by (Some f) r t) /\
  (took = false -> pinned_by m r t).
Proof.
  intros Hm. pose proof (pin_spec m r t) as Hp. unfold pin_or_verify in Hp. rewrite Hm in Hp.
  destruct (completed_by m (meta_of_resp r t)) as [f took]. split; intros ->.
  - destruct (Hp _ eq_refl) as (A & B & _). auto.
  - destruct (Hp _ eq_refl) as (A & B & _). auto.
Qed.

Definition id_lt (c : cell) (n : nat) : Prop := match c with None => True | Some (i, _) => i < n end.

(* a pointer someone loaded earlier, against the pointer now *)
Definition loaded_ok (p c : cell) : Prop :=
  p = c \/ (same_ptr c p = false /\ rank (contents p) < rank (contents c) /\ extends (contents p) (contents c)).

Definition thread_ok (sh : shared) (t : thread) : Prop :=
  match th_pc t with
  | PLoad => True
  | PCas p => loaded_ok p (sh_cell sh) /\ id_lt p (sh_next sh)
  | PDone true => pinned_by (contents (sh_cell sh)) (th_resp t) (th_total t)
  | PDone false => contradicts (contents (sh_cell sh)) (th_resp t) (th_total t)
  end.

Definition winv (w : world) : Prop :=
  id_lt (sh_cell (fst w)) (sh_next (fst w)) /\ Forall (thread_ok (fst w)) (snd w).

Definition potential (sh : shared) (t : thread) : nat :=
  match th_pc t with
  | PDone _ => 0
  | PCas p => 1 + 2 * (7 - rank (contents p))
  | PLoad => 2 + 2 * (7 - rank (contents (sh_cell sh)))
  end.

(* How a step may change the shared pointer. *)
Definition sh_le (a b : shared) : Prop :=
  (sh_cell a = sh_cell b /\ sh_next a = sh_next b) \/
  (extends (contents (sh_cell a)) (contents (sh_cell b)) /\
   rank (contents (sh_cell a)) < rank (contents (sh_cell b)) /\
   (exists f, sh_cell b = Some (sh_next a, f)) /\ sh_next b = S (sh_next a)).

Lemma id_lt_S c n : id_lt c n -> id_lt c (S n).
Proof. destruct c as [[i m]|]; cbn; lia. Qed.

Lemma thread_ok_mono a b t : sh_le a b -> thread_ok a t -> thread_ok b t /\ potential b t <= potential a t.
Proof.
  intros [[E1 E2]|(E1 & E2 & (f & E3) & E4)] H.
  - unfold thread_ok, potential in *. rewrite <- E1, <- E2. split; [exact H|destruct (th_pc t); lia].
  - unfold thread_ok, potential in *. destruct (th_pc t) as [|p|[|]].
    + split; [exact I|lia].
    + destruct H as [Hl Hi]. split; [|lia]. split; [|rewrite E4; now apply id_lt_S].
      right. split; [rewrite E3; destruct p as [[i m]|]; cbn in *; [|reflexivity]; apply Nat.eqb_neq; lia|].
      destruct Hl as [->|(_ & Hr & He)]; [split; assumption|].
      split; [lia|]. eapply extends_trans; eassumption.
    + split; [|lia]. eapply pinned_by_extends; eassumption.
    + split; [|lia]. eapply contradicts_extends; eassumption.
Qed.

Lemma tstep_spec sh t sh' t' :
  id_lt (sh_cell sh) (sh_next sh) -> thread_ok sh t -> tstep sh t = (sh', t') ->
  sh_le sh sh' /\ id_lt (sh_cell sh') (sh_next sh') /\ thread_ok sh' t' /\
  (potential sh' t' < potential sh t \/ th_pc t' = th_pc t /\ potential sh' t' = 0) /\
  th_resp t' = th_resp t /\ th_total t' = th_total t.
Proof.
  intros Hid Hok H. unfold tstep in H. unfold thread_ok in Hok.
  assert (sh_le sh sh) as Hrefl by (left; auto).
  destruct (th_pc t) as [|p|ok] eqn:Epc.
  - injection H as <- <-. split; [exact Hrefl|]. split; [exact Hid|].
    split; [cbn; split; [now left|exact Hid]|]. split; [|auto].
    left. unfold potential. cbn [th_pc]. rewrite Epc. lia.
  - destruct Hok as [Hl Hip].
    destruct (mismatch (contents p) (th_resp t) (th_total t)) eqn:Em.
    { injection H as <- <-. split; [exact Hrefl|]. split; [exact Hid|].
      apply mismatch_contradicts in Em. split.
      - cbn. destruct Hl as [->|(_ & _ & He)]; [exact Em|]. eapply contradicts_extends; eassumption.
      - split; [left; unfold potential; cbn [th_pc]; rewrite Epc; lia|auto]. }
    pose proof (completed_pin _ _ _ Em) as Hc.
    destruct (completed_by (contents p) (meta_of_resp (th_resp t) (th_total t))) as [f took] eqn:Ec.
    destruct took; cbn [negb] in H.
    + destruct Hc as [Hc _]. destruct (Hc eq_refl) as [Hx Hp]. pose proof (completed_rank _ _ _ Ec) as Hr.
      destruct (same_ptr (sh_cell sh) p) eqn:Es.
      * injection H as <- <-. destruct Hl as [->|(K & _)]; [|congruence].
        split; [|split; [|split; [|split]]].
        -- right. cbn [sh_cell sh_next contents option_map snd]. repeat split; auto. eauto.
        -- cbn. lia.
        -- cbn. exact Hp.
        -- left; unfold potential; cbn [th_pc]; rewrite Epc; lia.
        -- auto.
      * injection H as <- <-. split; [exact Hrefl|]. split; [exact Hid|]. split; [exact I|]. split; [|auto].
        left. unfold potential. cbn [th_pc]. rewrite Epc.
        destruct Hl as [->|(_ & Hlt & _)].
        -- exfalso. destruct (sh_cell sh) as [[i m]|]; cbn in Es; [apply Nat.eqb_neq in Es; congruence|discriminate].
        -- pose proof (rank_le (contents (sh_cell sh))). lia.
    + injection H as <- <-. destruct Hc as [_ Hc]. specialize (Hc eq_refl).
      split; [exact Hrefl|]. split; [exact Hid|]. split.
      * cbn. destruct Hl as [->|(_ & _ & He)]; [exact Hc|]. eapply pinned_by_extends; eassumption.
      * split; [left; unfold potential; cbn [th_pc]; rewrite Epc; lia|auto].
  - injection H as <- <-. split; [exact Hrefl|]. split; [exact Hid|].
    split; [unfold thread_ok; rewrite Epc; exact Hok|]. split; [|auto].
    right. unfold potential. rewrite Epc. auto.
Qed.

Lemma Forall_upd {A} (P : A -> Prop) l i x : Forall P l -> P x -> Forall P (upd l i x).
Proof.
  intros H; revert i; induction H as [|y l Hy Hl IH]; intros [|i] Hx; cbn; auto.
Qed.

Lemma wstep_spec w i : winv w ->
  winv (wstep w i) /\ sh_le (fst w) (fst (wstep w i)) /\
  (forall j t, nth_error (snd w) j = Some t -> exists t', nth_error (snd (wstep w i)) j = Some t' /\
     th_resp t' = th_resp t /\ th_total t' = th_total t /\
     potential (fst (wstep w i)) t' <= potential (fst w) t /\
     (i = j -> potential (fst (wstep w i)) t' < potential (fst w) t \/ exists ok, th_pc t' = PDone ok)).
Proof.
  intros [Hid Hts]. unfold wstep. destruct (nth_error (snd w) i) as [t|] eqn:Ei.
  - assert (thread_ok (fst w) t) as Hok by (eapply Forall_forall; [exact Hts|]; eapply nth_error_In; eassumption).
    destruct (tstep (fst w) t) as [sh t'] eqn:Et.
    destruct (tstep_spec _ _ _ _ Hid Hok Et) as (Hle & Hid' & Hok' & Hpot & Hr1 & Hr2). cbn [fst snd].
    split; [split|split]; cbn [fst snd]; auto.
    + apply Forall_upd; [|exact Hok']. eapply Forall_impl; [|exact Hts].
      intros a Ha. now apply (thread_ok_mono _ _ _ Hle).
    + intros j tj Hj. rewrite upd_nth. rewrite Hj. destruct (Nat.eqb_spec i j) as [->|Hne].
      * assert (tj = t) by congruence. subst tj. exists t'. repeat split; auto.
        -- destruct Hpot as [|[_ Hp]]; lia.
        -- intros _. destruct Hpot as [|[Hp Hz]]; [now left|right].
           unfold potential in Hz. destruct (th_pc t'); try lia. eauto.
      * exists tj. repeat split; auto; [|intros; congruence].
        assert (thread_ok (fst w) tj) as Hokj by (eapply Forall_forall; [exact Hts|]; eapply nth_error_In; eassumption).
        now apply (thread_ok_mono _ _ _ Hle).
  - split; [split; assumption|]. split; [left; auto|]. intros j t Hj. exists t. repeat split; auto.
    intros ->. congruence.
Qed.

Lemma sh_le_extends a b : sh_le a b -> extends (contents (sh_cell a)) (contents (sh_cell b)).
Proof. intros [[E _]|(E & _)]; [rewrite E; apply extends_refl|exact E]. Qed.

Lemma wrun_spec sched : forall w, winv w ->
  winv (wrun w sched) /\ extends (contents (sh_cell (fst w))) (contents (sh_cell (fst (wrun w sched)))) /\
  (forall j t, nth_error (snd w) j = Some t -> exists t', nth_error (snd (wrun w sched)) j = Some t' /\
     th_resp t' = th_resp t /\ th_total t' = th_total t /\
     (potential (fst w) t <= count_occ Nat.eq_dec sched j -> exists ok, th_pc t' = PDone ok) /\
     potential (fst (wrun w sched)) t' <= potential (fst w) t).
Proof.
  induction sched as [|i sched IH]; intros w Hw; cbn [wrun fold_left].
  - split; [exact Hw|]. split; [apply extends_refl|]. intros j t Hj. exists t. repeat split; auto.
    cbn [count_occ]. unfold potential. destruct (th_pc t); try lia. eauto.
  - destruct (wstep_spec w i Hw) as (H1 & H2 & H3). destruct (IH _ H1) as (I1 & I2 & I3).
    split; [exact I1|]. split; [eapply extends_trans; [apply sh_le_extends; exact H2|exact I2]|].
    intros j t Hj. destruct (H3 j t Hj) as (t1 & Hj1 & R1 & R2 & R3 & R4).
    destruct (I3 j t1 Hj1) as (t2 & Hj2 & S1 & S2 & S3 & S4).
    exists t2. split; [exact Hj2|]. split; [congruence|]. split; [congruence|]. split; [|unfold wrun in S4; lia].
    intros Hc. cbn [count_occ] in Hc. destruct (Nat.eq_dec i j) as [->|Hne].
    + destruct (R4 eq_refl) as [Hlt|(ok & Hd)]; [apply S3; lia|].
      apply S3. unfold potential. rewrite Hd. lia.
    + apply S3. lia.
Qed.

Lemma winit_inv m rs : winv (winit m rs).
Proof.
  split; [destruct m; cbn; lia|]. cbn [winit snd fst]. apply Forall_map. apply Forall_forall. intros x _. exact I.
Qed.

Lemma winit_contents m rs : contents (sh_cell (fst (winit m rs))) = m.
Proof. destruct m; reflexivity. Qed.

Lemma pin_keeps m rs sched1 sched2 :
  let w1 := wrun (winit m rs) sched1 in
  let w2 := wrun w1 sched2 in
  extends m (contents (sh_cell (fst w1))) /\
  extends (contents (sh_cell (fst w1))) (contents (sh_cell (fst w2))).
Proof.
  cbn zeta. destruct (wrun_spec sched1 _ (winit_inv m rs)) as (A & B & _). rewrite winit_contents in B.
  split; [exact B|]. destruct (wrun_spec sched2 _ A) as (_ & C & _). exact C.
Qed.

Lemma pin_verdicts m rs sched i r t :
  let w := wrun (winit m rs) sched in
  (verdict w i r t true -> pinned_by (contents (sh_cell (fst w))) r t) /\
  (verdict w i r t false -> contradicts (contents (sh_cell (fst w))) r t).
Proof.
  cbn zeta. destruct (wrun_spec sched _ (winit_inv m rs)) as ([_ Hts] & _ & _).
  split; intros Hv; unfold verdict in Hv; apply nth_error_In in Hv;
    rewrite Forall_forall in Hts; apply Hts in Hv; exact Hv.
Qed.

Lemma pinned_same m r1 t1 r2 t2 : pinned_by m r1 t1 -> pinned_by m r2 t2 -> same_object r1 t1 r2 t2.
Proof.
  intros (a & Ha & A1 & A2 & A3 & A4 & A5 & A6) (b & Hb & B1 & B2 & B3 & B4 & B5 & B6).
  assert (a = b) by congruence. subst b. unfold same_object, keeps in *.
  split; [congruence|]. repeat split; intros H1 H2.
  - rewrite <- (A4 H1). now apply B4. - rewrite <- (A5 H1). now apply B5. - rewrite <- (A6 H1). now apply B6.
Qed.

Lemma pin_agree m rs sched i j r1 t1 r2 t2 :
  let w := wrun (winit m rs) sched in
  verdict w i r1 t1 true -> verdict w j r2 t2 true -> same_object r1 t1 r2 t2.
Proof.
  cbn zeta. intros H1 H2. eapply pinned_same; eapply pin_verdicts; eassumption.
Qed.

Lemma pin_terminates m rs sched i r t :
  nth_error rs i = Some (r, t) -> 16 <= count_occ Nat.eq_dec sched i ->
  exists ok, verdict (wrun (winit m rs) sched) i r t ok.
Proof.
  intros Hi Hc. destruct (wrun_spec sched _ (winit_inv m rs)) as (_ & _ & H).
  destruct (H i {| th_resp := r; th_total := t; th_pc := PLoad |}) as (t' & Hj & H1 & H2 & H3 & _).
  { cbn [winit snd]. rewrite nth_error_map, Hi. reflexivity. }
  destruct H3 as (ok & Hd).
  { unfold potential. cbn [th_pc]. pose proof (rank_le (contents (sh_cell (fst (winit m rs))))). lia. }
  exists ok. unfold verdict. rewrite Hj. f_equal. destruct t'; cbn in *; congruence.
Qed.


(* ---- probing ---- *)

Lemma empty_bodiless r : empty_entity r = true <-> bodiless r.
Proof.
  unfold empty_entity, bodiless. destruct (Z.eqb_spec (rs_clen r) 0) as [E|N]; [tauto|].
  destruct (Z.eqb_spec (rs_clen r) (-1)) as [E|N2]; [|split; [discriminate|intros [X|[X _]]; congruence]].
  destruct (bd_read (rs_body r) 0 0 1) as [n e] eqn:Eb. split.
  - intros H. right. split; [exact E|]. destruct n; [|discriminate|discriminate]. destruct e; congruence.
  - intros [X|[_ X]]; [congruence|]. inversion X. reflexivity.
Qed.

Lemma pin_some m r total : mismatch m r total = false -> exists m', pin_or_verify m r total = Some m'.
Proof. intros H. unfold pin_or_verify. rewrite H. destruct (completed_by m (meta_of_resp r total)) as [f []]; eauto. Qed.

Lemma parse_unsat v s e t : parse_content_range v = Some (s, e, t) -> s = (-1)%Z -> denotes_unsatisfied v t /\ (0 <= t)%Z.
Proof.
  intros H Hs. apply parse_iff in H as [((w1 & u & sp & f & l & t0 & w2 & _ & _ & _ & _ & _ & F & _) & _)|(H & _)].
  - pose proof (number_nonneg _ _ F). lia.
  - split; [exact H|]. destruct H as (w1 & u & sp & t0 & w2 & _ & _ & _ & _ & _ & T). exact (number_nonneg _ _ T).
Qed.

Lemma probe_answer srv s e s' : probe srv s = (e, s') ->
  exists rq a, s_log s' = s_log s ++ [(rq, a)] /\ asks_first_byte rq /\ a = srv (length (s_log s)) rq /\ s_lane s' = s_lane s /\
    (e = HNil <-> exists r total, a = Some r /\ describes r total /\ ~ contradicts (s_meta s) r total) /\
    (forall r total, e = HNil -> a = Some r -> describes r total -> pinned_by (s_meta s') r total).
Proof.
  unfold probe, send. set (rq := {| rq_start := 0; rq_end := Some 0%Z; rq_ifrange := []; rq_stream := false |}).
  intros H. exists rq, (srv (length (s_log s)) rq). cbn zeta in H.
  assert (asks_first_byte rq) as Hrq by (repeat split).
  assert (forall r total m', pin_or_verify (s_meta s) r total = Some m' -> mismatch (s_meta s) r total = false /\ pinned_by m' r total) as Hpin.
  { intros r total m' E. destruct (pin_spec _ _ _ _ E) as (_ & P1 & P2). auto. }
  set (s1 := {| s_meta := s_meta s; s_lane := s_lane s; s_log := s_log s ++ [(rq, srv (length (s_log s)) rq)] |}) in H.
  assert (forall e0 m, (e0, set_meta s1 m) = (e, s') -> s_log s' = s_log s ++ [(rq, srv (length (s_log s)) rq)] /\ s_lane s' = s_lane s /\ e = e0 /\ s_meta s' = m) as Hset
    by (intros e0 m E; inversion E; auto).
  assert (forall e0, (e0, s1) = (e, s') -> s_log s' = s_log s ++ [(rq, srv (length (s_log s)) rq)] /\ s_lane s' = s_lane s /\ e = e0 /\ s_meta s' = s_meta s) as Hno
    by (intros e0 E; inversion E; auto).
  change (s_meta s1) with (s_meta s) in H.
  destruct (srv (length (s_log s)) rq) as [r|] eqn:Ea.
  2:{ apply Hno in H as (H1 & H2 & -> & H4). split; [exact H1|]. split; [exact Hrq|]. split; [reflexivity|]. split; [exact H2|].
      split; [split; [discriminate|intros (r & t & X & _); discriminate]|discriminate]. }
  (* a refusal: nothing describes the object, or it contradicts *)
  assert (forall e0, e0 <> HNil -> (forall t, describes r t -> contradicts (s_meta s) r t) -> s_log s' = s_log s ++ [(rq, Some r)] -> s_lane s' = s_lane s -> e = e0 ->
    s_log s' = s_log s ++ [(rq, Some r)] /\ asks_first_byte rq /\ Some r = Some r /\ s_lane s' = s_lane s /\
    (e = HNil <-> exists r0 total, Some r = Some r0 /\ describes r0 total /\ ~ contradicts (s_meta s) r0 total) /\
    (forall r0 total, e = HNil -> Some r = Some r0 -> describes r0 total -> pinned_by (s_meta s') r0 total)) as Hbad.
  { intros e0 N Hd H1 H2 ->. split; [exact H1|]. split; [exact Hrq|]. split; [reflexivity|]. split; [exact H2|]. split.
    - split; [contradiction|]. intros (r0 & t & E & D & C). apply some_inj in E. subst r0. exfalso. apply C. apply Hd. exact D.
    - intros r0 t E. contradiction. }
  assert (forall total m', describes r total -> (forall t, describes r t -> t = total) -> pin_or_verify (s_meta s) r total = Some m' -> (HNil, set_meta s1 m') = (e, s') ->
    s_log s' = s_log s ++ [(rq, Some r)] /\ asks_first_byte rq /\ Some r = Some r /\ s_lane s' = s_lane s /\
    (e = HNil <-> exists r0 total, Some r = Some r0 /\ describes r0 total /\ ~ contradicts (s_meta s) r0 total) /\
    (forall r0 total, e = HNil -> Some r = Some r0 -> describes r0 total -> pinned_by (s_meta s') r0 total)) as Hgood.
  { intros total m' D U P E. apply Hset in E as (H1 & H2 & -> & H4). destruct (Hpin r total m' P) as [M Pn].
    split; [exact H1|]. split; [exact Hrq|]. split; [reflexivity|]. split; [exact H2|]. split.
    - split; [|reflexivity]. intros _. exists r, total. split; [reflexivity|]. split; [exact D|]. intros C. apply mismatch_contradicts in C. congruence.
    - intros r0 t _ Er Dt. apply some_inj in Er. subst r0. rewrite (U t Dt), H4. exact Pn. }
  assert (forall total, pin_or_verify (s_meta s) r total = None -> contradicts (s_meta s) r total) as Hcon.
  { intros total P. apply mismatch_contradicts. destruct (mismatch (s_meta s) r total) eqn:M; [reflexivity|]. destruct (pin_some _ _ _ M) as (m' & X). congruence. }
  destruct (rs_enc_ok r) eqn:Eenc; cbn [negb] in H.
  2:{ apply Hno in H as (H1 & H2 & E & _). apply (Hbad HProto); auto; [discriminate|]. intros t (X & _). congruence. }
  destruct (Z.eqb_spec (rs_status r) 206) as [E206|N206].
  { assert (forall t, describes r t -> parse_content_range (rs_crange r) = Some (0%Z, 0%Z, t)) as Hd.
    { intros t (_ & [(_ & D & L)|[(X & _)|(X & _)]]); [|congruence|congruence]. apply parse_iff. left. repeat split; auto; lia. }
    destruct (parse_content_range (rs_crange r)) as [[[st en] total]|] eqn:Ep.
    2:{ apply Hno in H as (H1 & H2 & E & _). apply (Hbad HProto); auto; [discriminate|]. intros t D. specialize (Hd t D). discriminate. }
    destruct (Z.eqb_spec st 0) as [->|N]; cbn [negb orb] in H.
    2:{ apply Hno in H as (H1 & H2 & E & _). apply (Hbad HChanged); auto; [discriminate|]. intros t D. specialize (Hd t D). inversion Hd. contradiction. }
    destruct (Z.eqb_spec en 0) as [->|N]; cbn [negb orb] in H.
    2:{ apply Hno in H as (H1 & H2 & E & _). apply (Hbad HChanged); auto; [discriminate|]. intros t D. specialize (Hd t D). inversion Hd. contradiction. }
    assert (forall t, describes r t -> t = total) as U by (intros t D; specialize (Hd t D); inversion Hd; reflexivity).
    destruct (pin_or_verify (s_meta s) r total) as [m'|] eqn:P.
    - apply (Hgood total m'); auto. split; [exact Eenc|]. left. destruct (parse_206 _ _ _ _ Ep ltac:(lia)) as (D & _ & L). repeat split; auto; lia.
    - apply Hno in H as (H1 & H2 & E & _). apply (Hbad HChanged); auto; [discriminate|]. intros t D. rewrite (U t D). apply Hcon. exact P. }
  destruct (Z.eqb_spec (rs_status r) 416) as [E416|N416].
  { assert (forall t, describes r t -> parse_content_range (rs_crange r) = Some ((-1)%Z, (-1)%Z, 0%Z) /\ t = 0%Z) as Hd.
    { intros t (_ & [(X & _)|[(_ & D & ->)|(X & _)]]); [congruence| |congruence]. split; [|reflexivity]. apply parse_iff. right. repeat split; auto. unfold max_int64. lia. }
    destruct (parse_content_range (rs_crange r)) as [[[st en] total]|] eqn:Ep.
    2:{ apply Hno in H as (H1 & H2 & E & _). apply (Hbad (HStatus (rs_status r))); auto; [discriminate|]. intros t D. destruct (Hd t D). discriminate. }
    destruct (Z.eqb_spec st (-1)) as [->|N]; cbn [negb] in H.
    2:{ apply Hno in H as (H1 & H2 & E & _). apply (Hbad (HStatus (rs_status r))); auto; [discriminate|]. intros t D. destruct (Hd t D) as [X _]. inversion X. congruence. }
    destruct (parse_unsat _ _ _ _ Ep eq_refl) as [Du Lu].
    destruct (pin_or_verify (s_meta s) r total) as [m'|] eqn:P.
    2:{ apply Hno in H as (H1 & H2 & E & _). apply (Hbad HChanged); auto; [discriminate|]. intros t D. destruct (Hd t D) as [X ->]. inversion X; subst. apply Hcon. exact P. }
    destruct (total >? 0)%Z eqn:Et.
    - apply Hset in H as (H1 & H2 & E & _). apply (Hbad HChanged); auto; [discriminate|]. intros t D. destruct (Hd t D) as [X ->]. inversion X; subst. discriminate.
    - assert (total = 0%Z) as -> by lia. apply (Hgood 0%Z m'); auto.
      + split; [exact Eenc|]. right. left. auto.
      + intros t D. apply (Hd t D). }
  destruct (Z.eqb_spec (rs_status r) 200) as [E200|N200].
  2:{ apply Hno in H as (H1 & H2 & E & _). apply (Hbad (HStatus (rs_status r))); auto; [discriminate|].
      intros t (_ & [(X & _)|[(X & _)|(X & _)]]); congruence. }
  assert (forall t, describes r t -> stated (rs_crange r) = false /\ empty_entity r = true /\ t = 0%Z) as Hd.
  { intros t (_ & [(X & _)|[(X & _)|(_ & -> & B & ->)]]); [congruence|congruence|]. split; [reflexivity|]. split; [|reflexivity]. apply empty_bodiless. exact B. }
  destruct (stated (rs_crange r)) eqn:Es; cbn [orb] in H.
  { apply Hno in H as (H1 & H2 & E & _). apply (Hbad HIgnored); auto; [discriminate|]. intros t D. destruct (Hd t D) as (X & _). discriminate. }
  destruct (empty_entity r) eqn:Ee; cbn [negb] in H.
  2:{ apply Hno in H as (H1 & H2 & E & _). apply (Hbad HIgnored); auto; [discriminate|]. intros t D. destruct (Hd t D) as (_ & X & _). discriminate. }
  destruct (pin_or_verify (s_meta s) r 0) as [m'|] eqn:P.
  - apply (Hgood 0%Z m'); auto.
    + split; [exact Eenc|]. right. right. split; [exact E200|]. split; [destruct (rs_crange r); [reflexivity|discriminate]|]. split; [apply empty_bodiless; exact Ee|reflexivity].
    + intros t D. apply (Hd t D).
  - apply Hno in H as (H1 & H2 & E & _). apply (Hbad HChanged); auto; [discriminate|]. intros t D. destruct (Hd t D) as (_ & _ & ->). apply Hcon. exact P.
Qed.
