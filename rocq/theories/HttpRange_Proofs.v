From Verif Require Import Common CommonLemmas ContentRange_Model ContentRange_Spec ContentRange_Proofs
  MultiRead_Model HttpRange_Model HttpRange_Spec.
Open Scope Z_scope.

(* ---------- views ---------- *)

Lemma v_end_spec v : view_ok v -> v_end v = section_end v /\ v_base v <= section_end v <= max_int64.
Proof.
  intros [Hb Hl]. unfold v_end, section_end.
  rewrite (wrap64_id (max_int64 - v_base v)) by (unfold in_int64, min_int64, max_int64 in *; lia).
  destruct (Z.geb_spec (v_length v) (max_int64 - v_base v)).
  - split; lia.
  - rewrite wrap64_id by (unfold in_int64, min_int64, max_int64 in *; lia). split; lia.
Qed.

Lemma locate_spec v len off : view_ok v -> 0 <= off <= max_int64 ->
  locate v len off =
  if off >=? section_end v - v_base v then None
  else Some (Z.min len (section_end v - (v_base v + off)), v_base v + off).
Proof.
  intros Hv Ho. destruct (v_end_spec v Hv) as [He Hr]. destruct Hv as [Hb Hl].
  unfold locate. rewrite He.
  rewrite (wrap64_id (section_end v - v_base v)) by (unfold in_int64, min_int64, max_int64 in *; lia).
  destruct (Z.geb_spec off (section_end v - v_base v)); [reflexivity|].
  rewrite (wrap64_id (v_base v + off)) by (unfold in_int64, min_int64, max_int64 in *; lia).
  rewrite wrap64_id by (unfold in_int64, min_int64, max_int64 in *; lia).
  destruct (Z.gtb_spec len (section_end v - (v_base v + off))); f_equal; f_equal; lia.
Qed.

Lemma range_view_spec off n v : in_int64 n -> off <= max_int64 -> range_view off n = Some v ->
  view_ok v /\ v_base v = off /\ v_base v + v_length v <= max_int64 /\
  (0 <= n -> section_end v = Z.min max_int64 (off + n)) /\ (n < 0 -> section_end v = max_int64).
Proof.
  unfold range_view. intros Hn Hmax. destruct (Z.ltb_spec off 0) as [|Hoff]; [discriminate|].
  intros H. apply some_inj in H. subst v.
  unfold view_ok, section_end. cbn [v_base v_length].
  destruct (Z.lt_ge_cases n 0) as [Hneg|Hpos].
  - assert (wrap64 (max_int64 - n) < 0) as Hw.
    { apply wrap64_over; unfold in_int64, min_int64, max_int64 in *; lia. }
    destruct (Z.leb_spec off (wrap64 (max_int64 - n))); [lia|].
    rewrite wrap64_id by (unfold in_int64, min_int64, max_int64 in *; lia).
    repeat split; unfold max_int64 in *; lia.
  - rewrite (wrap64_id (max_int64 - n)) by (unfold in_int64, min_int64, max_int64 in *; lia).
    destruct (Z.leb_spec off (max_int64 - n)).
    + rewrite (wrap64_id (off + n)) by (unfold in_int64, min_int64, max_int64 in *; lia).
      rewrite wrap64_id by (unfold in_int64, min_int64, max_int64 in *; lia).
      repeat split; unfold max_int64 in *; lia.
    + rewrite wrap64_id by (unfold in_int64, min_int64, max_int64 in *; lia).
      repeat split; unfold max_int64 in *; lia.
Qed.

Lemma whole_view_ok : view_ok whole_view /\ section_end whole_view = max_int64.
Proof. unfold view_ok, section_end, whole_view, max_int64; cbn; lia. Qed.

(* ---------- pinning ---------- *)

Lemma stated_true s : stated s = true <-> s <> [].
Proof. destruct s; cbn; split; congruence. Qed.

Lemma fill_keeps a b : keeps a (fill a b).
Proof. unfold keeps, fill. intros H. apply stated_true in H. now rewrite H. Qed.

Lemma extends_refl m : extends m m.
Proof. destruct m as [m|]; cbn [extends]; [|exact I]. unfold keeps. repeat split; auto. Qed.

Lemma extends_trans a b c : extends a b -> extends b c -> extends a c.
Proof.
  destruct a as [a|], b as [b|], c as [c|]; cbn [extends]; try tauto.
  intros (A1 & A2 & A3 & A4 & A5 & A6) (B1 & B2 & B3 & B4 & B5 & B6).
  assert (forall x y z : list N, keeps x y -> keeps y z -> keeps x z) as K.
  { unfold keeps. intros x y z H1 H2 H. rewrite <- (H1 H). apply H2. rewrite (H1 H). exact H. }
  split; [eapply K; eassumption|]. split; [eapply K; eassumption|]. split; [eapply K; eassumption|].
  split; [|split; auto].
  intros H. destruct (A4 H) as [H1 H2]. destruct (B4 H1) as [H3 H4]. split; [assumption|congruence].
Qed.

Lemma pinned_by_extends m m' r t : pinned_by m r t -> extends m m' -> pinned_by m' r t.
Proof.
  intros (mm & -> & H1 & H2 & H3 & H4 & H5 & H6) He. destruct m' as [b|]; [|contradiction].
  cbn [extends] in He. destruct He as (E1 & E2 & E3 & E4 & E5 & E6).
  destruct (E4 H1) as [K1 K2]. exists b.
  assert (forall x y z : list N, keeps x y -> keeps y z -> keeps x z) as K.
  { unfold keeps. intros x y z G1 G2 G. rewrite <- (G1 G). apply G2. rewrite (G1 G). exact G. }
  repeat split; auto; try congruence; eapply K; eassumption.
Qed.

Lemma differ_false got want : differ got want = false -> keeps got (fill want got) .
Proof.
  unfold differ, keeps, fill. intros H Hg. apply stated_true in Hg. rewrite Hg in H. cbn [andb] in H.
  destruct (stated want); [|reflexivity]. cbn [andb] in H. apply negb_false_iff, bytes_eqb_eq in H. congruence.
Qed.

Lemma pin_spec m r total m' : pin_or_verify m r total = Some m' ->
  extends m m' /\ pinned_by m' r total /\ mismatch m r total = false.
Proof.
  unfold pin_or_verify. intros H. destruct (mismatch m r total) eqn:Hm; [discriminate|].
  destruct m as [m|].
  2:{ cbn [completed_by] in H. injection H as <-. split; [exact I|]. split; [|reflexivity].
      eexists; split; [reflexivity|]. cbn. unfold keeps. repeat split; auto. }
  cbn [completed_by] in H. cbn [mismatch] in Hm.
  apply orb_false_iff in Hm as [Hm Ho]. apply orb_false_iff in Hm as [Hm Hlm].
  apply orb_false_iff in Hm as [Hsz Het].
  match type of H with (if ?took then Some (Some ?f) else _) = _ => set (F := f) in *; set (T := took) in * end.
  assert (extends (Some m) (Some F)) as Hext.
  { cbn [extends]. subst F. cbn. repeat split; try apply fill_keeps.
    - now rewrite H0. - now rewrite H0.
    - intros h Hh. now rewrite Hh. - intros ->. reflexivity. }
  assert (pinned_by (Some F) r total) as Hpin.
  { exists F. split; [reflexivity|]. subst F; cbn.
    rewrite !orb_true_r. repeat split; try (apply differ_false; assumption).
    destruct (m_known m); [|reflexivity]. cbn [andb] in Hsz.
    apply negb_false_iff, Z.eqb_eq in Hsz. congruence. }
  destruct T eqn:ET; injection H as <-; split; auto; [apply extends_refl|].
  split; [|reflexivity].
  (* nothing taken: F has the same content as m *)
  subst T. cbn in ET. repeat rewrite orb_false_iff in ET. destruct ET as [[[[[E1 E2] E3] E4] E5] E6].
  destruct Hpin as (mm & Heq & H1 & H2 & H3 & H4 & H5 & H6). injection Heq as <-.
  exists m. subst F; cbn in *.
  assert (forall a b, negb (stated a) && stated b = false -> fill a b = a) as Hfill.
  { intros a b Hab. unfold fill. destruct a; cbn in *; [|reflexivity]. destruct b; [reflexivity|discriminate]. }
  rewrite Hfill in H4 by assumption. rewrite Hfill in H5 by assumption. rewrite Hfill in H6 by assumption.
  destruct (m_known m); [|discriminate]. destruct (m_verified m); [|discriminate].
  repeat split; auto.
Qed.

Lemma pinned_size m r t : pinned_by m r t -> known_size m = Some t.
Proof. intros (mm & -> & H1 & H2 & _). cbn. rewrite H1. congruence. Qed.

Lemma known_size_some m z : known_size m = Some z -> exists mm, m = Some mm /\ m_known mm = true /\ m_size mm = z.
Proof.
  destruct m as [mm|]; cbn; [|discriminate]. destruct (m_known mm) eqn:E; [|discriminate].
  intros H; injection H as <-. eauto.
Qed.

Lemma known_size_extends m m' z : known_size m = Some z -> extends m m' -> known_size m' = Some z.
Proof.
  intros H He. apply known_size_some in H as (mm & -> & H1 & H2). destruct m' as [b|]; [|contradiction].
  destruct He as (_ & _ & _ & E4 & _). destruct (E4 H1) as [K1 K2]. cbn. rewrite K1. congruence.
Qed.

(* ---------- bodies ---------- *)

Lemma zslice_join (l : list byte) a n m : 0 <= a -> 0 <= n -> 0 <= m ->
  zslice l a n ++ zslice l (a + n) m = zslice l a (n + m).
Proof. intros. symmetry. apply zslice_split; lia. Qed.

Lemma read_full_spec fuel b k pos want acc :
  body_ok b -> 0 <= pos <= zlen (bd_data b) -> 0 <= want < Z.of_nat fuel ->
  exists n e, read_full fuel b k pos want acc = Some (acc ++ zslice (bd_data b) pos n, e) /\
    0 <= n <= want /\ pos + n <= zlen (bd_data b) /\ (e = RNil -> n = want) /\ (e <> RNil -> n < want).
Proof.
  intros Hb. revert k pos want acc. induction fuel as [|fuel IH]; intros k pos want acc Hpos Hw; [lia|].
  cbn [read_full]. destruct (Z.leb_spec want 0).
  - exists 0, RNil. rewrite zslice_zero, app_nil_r by lia. repeat split; try lia; congruence.
  - pose proof (Hb k pos want Hpos ltac:(lia)) as Hr.
    destruct (bd_read b k pos want) as [n e]. destruct Hr as (Hn & Hpn & Hnil & Heof).
    destruct e.
    + specialize (Hnil eq_refl).
      destruct (IH (S k) (pos + n) (want - n) (acc ++ zslice (bd_data b) pos n)) as (n2 & e2 & E & H1 & H2 & H3 & H4); try lia.
      exists (n + n2), e2. rewrite E. rewrite <- app_assoc, zslice_join by lia.
      repeat split; try lia; try (intros He; specialize (H3 He); lia); intros He; specialize (H4 He); lia.
    + destruct (Z.geb_spec n want).
      * exists n, RNil. repeat split; try lia; try congruence.
      * exists n, REof. repeat split; try lia; congruence.
    + destruct (Z.geb_spec n want).
      * exists n, RNil. repeat split; try lia; try congruence.
      * exists n, (ROther code). repeat split; try lia; congruence.
Qed.

Lemma stream_loop_spec fuel b bpos calls pos limit want acc :
  body_ok b -> 0 <= bpos <= zlen (bd_data b) -> 0 <= want < Z.of_nat fuel -> pos <= limit ->
  exists n e l, stream_loop fuel b bpos calls pos limit want acc = (acc ++ zslice (bd_data b) bpos n, e, l) /\
    0 <= n <= want /\ bpos + n <= zlen (bd_data b) /\ pos + n <= limit /\ e <> HHang /\
    (e = HNil -> n = want /\ pos + n < limit /\ exists c, l = LOpen b (bpos + n) c (pos + n) limit) /\
    (e <> HNil -> l = LDead) /\
    (e = HEof -> pos + n = limit).
Proof.
  intros Hb. revert bpos calls pos want acc. induction fuel as [|fuel IH]; intros bpos calls pos want acc Hpos Hw Hl; [lia|].
  cbn [stream_loop]. destruct (Z.leb_spec (limit - pos) 0).
  - exists 0, HEof, LDead. rewrite zslice_zero, app_nil_r by lia. repeat split; try lia; congruence.
  - destruct (Z.leb_spec want 0).
    + exists 0, HNil, (LOpen b bpos calls pos limit). rewrite zslice_zero, app_nil_r by lia.
      rewrite !Z.add_0_r. repeat split; try lia; try congruence. eauto.
    + set (len := if want >? limit - pos then limit - pos else want).
      assert (0 < len <= want /\ len <= limit - pos) as Hlen.
      { unfold len. destruct (Z.gtb_spec want (limit - pos)); lia. }
      pose proof (Hb calls bpos len Hpos ltac:(lia)) as Hr.
      destruct (bd_read b calls bpos len) as [n e]. destruct Hr as (Hn & Hpn & Hnil & Heof).
      destruct e.
      * specialize (Hnil eq_refl).
        destruct (IH (bpos + n) (S calls) (pos + n) (want - n) (acc ++ zslice (bd_data b) bpos n))
          as (n2 & e2 & l2 & E & H1 & H2 & H3 & H4 & H5 & H6 & H7); try lia.
        exists (n + n2), e2, l2. rewrite E. rewrite <- app_assoc, zslice_join by lia.
        split; [reflexivity|]. split; [lia|]. split; [lia|]. split; [lia|]. split; [exact H4|].
        split; [|split; [exact H6|]].
        -- intros He. destruct (H5 He) as (K1 & K2 & c & K3). split; [lia|]. split; [lia|].
           exists c. rewrite K3. f_equal; lia.
        -- intros He. specialize (H7 He). lia.
      * destruct (Z.geb_spec (pos + n) limit).
        -- exists n, HEof, LDead. repeat split; try lia; congruence.
        -- exists n, HUnexpectedEof, LDead. repeat split; try lia; try congruence.
      * exists n, (HBody code), LDead. repeat split; try lia; congruence.
Qed.

(* ---------- one read against any server ---------- *)

(* The lane's part of the state invariant. *)
Definition lane_inv (v : view) (s : st) : Prop :=
  match s_lane s with
  | LNone => streams (s_log s) = 0%nat
  | LPending pos => pos = v_base v /\ v_base v < section_end v /\ streams (s_log s) = 0%nat
  | LDead => (streams (s_log s) <= 1)%nat
  | LOpen b bpos calls pos limit =>
      (streams (s_log s) <= 1)%nat /\
      exists rq r last t, In (rq, Some r) (s_log s) /\ b = rs_body r /\ body_ok b /\
        rs_status r = 206 /\ rs_enc_ok r = true /\
        denotes_range (rs_crange r) (v_base v) last t /\ last < t /\ pinned_by (s_meta s) r t /\
        limit = last + 1 /\ 0 <= bpos <= zlen (bd_data b) /\ pos = v_base v + bpos /\ pos <= limit /\
        limit <= section_end v /\ (limit = section_end v \/ limit = t)
  end.

(* Where a known size came from. *)
Definition stated_by (r : resp) (t : Z) : Prop :=
  (rs_status r = 206 /\ exists a b, denotes_range (rs_crange r) a b t) \/
  (rs_status r = 416 /\ denotes_unsatisfied (rs_crange r) t) \/
  (rs_status r = 200 /\ rs_crange r = [] /\ empty_entity r = true /\ t = 0).

Definition size_inv (m0 : option meta) (s : st) : Prop :=
  forall z, known_size (s_meta s) = Some z ->
    known_size m0 = Some z \/ exists rq r, In (rq, Some r) (s_log s) /\ stated_by r z.

Record inv (m0 : option meta) (v : view) (s : st) : Prop := {
  i_lane : lane_inv v s;
  i_ext : extends m0 (s_meta s);
  i_size : size_inv m0 s }.

Arguments streams : simpl never.
Lemma streams_app l1 l2 : streams (l1 ++ l2) = (streams l1 + streams l2)%nat.
Proof. unfold streams. now rewrite filter_app, app_length. Qed.

Lemma pin_size_inv m0 m m' r t (log : list (request * option resp)) rq :
  pin_or_verify m r t = Some m' -> stated_by r t -> In (rq, Some r) log ->
  forall z, known_size m' = Some z ->
    known_size m0 = Some z \/ exists rq r, In (rq, Some r) log /\ stated_by r z.
Proof.
  intros Hp Hs Hin z Hz. apply pin_spec in Hp as (_ & Hp & _). apply pinned_size in Hp.
  assert (z = t) by congruence. subst. right. eauto.
Qed.

Lemma stated_nil s : stated s = false -> s = [].
Proof. destruct s; [reflexivity|discriminate]. Qed.

Lemma gate_spec m r off c e m' :
  0 <= off -> gate m r off c = inl (e, m') ->
  extends m m' /\ e <> HNil /\ e <> HHang /\
  (m' = m \/ exists t, stated_by r t /\ pin_or_verify m r t = Some m') /\
  (e = HEof -> exists mm, m' = Some mm /\ m_known mm = true /\ m_size mm <= off).
Proof.
  intros Hoff. unfold gate. destruct (rs_enc_ok r); cbn [negb].
  2:{ intros H; injection H as <- <-. repeat split; try congruence; auto using extends_refl. }
  destruct (Z.eqb_spec (rs_status r) 206); [discriminate|].
  destruct (Z.eqb_spec (rs_status r) 416) as [E416|].
  - unfold read_unsatisfied. intros H.
    destruct (parse_content_range (rs_crange r)) as [[[a b] t]|] eqn:Ep.
    2:{ injection H as <- <-. repeat split; try congruence; auto using extends_refl. }
    destruct (Z.eqb_spec a (-1)) as [->|]; cbn [negb] in H.
    2:{ injection H as <- <-. repeat split; try congruence; auto using extends_refl. }
    assert (stated_by r t) as Hst.
    { right; left. split; [assumption|]. apply parse_sound in Ep as [(_ & ? & _)|(? & _)]; [lia|assumption]. }
    destruct (pin_or_verify m r t) as [m1|] eqn:Epin.
    2:{ injection H as <- <-. repeat split; try congruence; auto using extends_refl. }
    destruct (pin_spec _ _ _ _ Epin) as (Hext & Hpin & _).
    destruct (Z.ltb_spec off t); injection H as <- <-; repeat split; try congruence; eauto.
    intros _. destruct Hpin as (mm & -> & K1 & K2 & _). exists mm. repeat split; auto; lia.
  - destruct (Z.eqb_spec (rs_status r) 200) as [E200|].
    + unfold read_whole. intros H. destruct (negb (stated (rs_crange r)) && empty_entity r) eqn:Ee.
      * apply andb_true_iff in Ee as [Es Ee]. apply negb_true_iff, stated_nil in Es.
        assert (stated_by r 0) as Hst by (right; right; auto).
        destruct (pin_or_verify m r 0) as [m1|] eqn:Epin; injection H as <- <-.
        -- destruct (pin_spec _ _ _ _ Epin) as (Hext & Hpin & _).
           repeat split; try congruence; eauto.
           intros _. destruct Hpin as (mm & -> & K1 & K2 & _). exists mm. repeat split; auto; lia.
        -- repeat split; try congruence; auto using extends_refl.
      * destruct c; injection H as <- <-; repeat split; try congruence; auto using extends_refl.
    + intros H; injection H as <- <-. repeat split; try congruence; auto using extends_refl.
Qed.

Lemma gate_206 m r off c u : gate m r off c = inr u -> rs_status r = 206 /\ rs_enc_ok r = true.
Proof.
  unfold gate. destruct (rs_enc_ok r); cbn [negb]; [|discriminate].
  destruct (Z.eqb_spec (rs_status r) 206); [auto|].
  destruct (rs_status r =? 416); [discriminate|]. destruct (rs_status r =? 200); discriminate.
Qed.

Lemma parse_206 v s e t : parse_content_range v = Some (s, e, t) -> 0 <= s ->
  denotes_range v s e t /\ s <= e /\ e < t <= max_int64.
Proof.
  intros H Hs. apply parse_sound in H as [(H & H1 & H2)|(_ & H1 & _)]; [|lia]. repeat split; auto; lia.
Qed.

(* Everything a read does to the log. *)
Definition log_step (v : view) (s s' : st) : Prop :=
  exists new, s_log s' = s_log s ++ new /\ (length new <= 1)%nat /\
    Forall (fun p => in_window v (s_meta s) (fst p)) new.

Lemma log_step_refl v s s' : s_log s' = s_log s -> log_step v s s'.
Proof. intros H. exists []. rewrite app_nil_r. repeat split; auto. Qed.

Lemma evidenced_nil log m abs : evidenced log m abs [].
Proof. left; reflexivity. Qed.

Lemma bounded_read_spec srv m0 v s len abs len0 data e s' :
  server_ok srv -> view_ok v -> inv m0 v s ->
  (s_lane s = LNone \/ s_lane s = LDead) ->
  v_base v <= abs < section_end v -> 0 < len -> abs + len <= section_end v ->
  (match known_size (s_meta s) with Some z => abs + len <= z | None => True end) ->
  len <= len0 ->
  (len < len0 -> abs + len = section_end v \/ known_size (s_meta s) = Some (abs + len)) ->
  bounded_read srv v s len abs = (data, e, s') ->
  inv m0 v s' /\ read_contract v len0 (abs - v_base v) data e s' /\
  extends (s_meta s) (s_meta s') /\ log_step v s s' /\ s_lane s' = s_lane s.
Proof.
  intros Hsrv Hv [HL HE HS] Hlane Habs Hlen Hfit Hsz Hle0 Hclamp H.
  destruct (v_end_spec v Hv) as [Hve Hvr]. pose proof Hv as [Hvb Hvl].
  unfold bounded_read in H. unfold send in H.
  rewrite (wrap64_id (abs + len - 1)) in H by (unfold in_int64, min_int64, max_int64 in *; lia).
  set (rq := {| rq_start := abs; rq_end := Some (abs + len - 1);
                rq_ifrange := if_range_value (s_meta s); rq_stream := false |}) in *.
  set (a := srv (length (s_log s)) rq) in *.
  set (s1 := {| s_meta := s_meta s; s_lane := s_lane s; s_log := s_log s ++ [(rq, a)] |}) in *.
  assert (forall m, log_step v s (set_meta s1 m)) as Hlog.
  { intros m. exists [(rq, a)]. cbn. repeat split; auto. repeat constructor; cbn; lia. }
  assert (forall m, extends (s_meta s) m ->
            (forall z, known_size m = Some z ->
               known_size m0 = Some z \/ exists rq' r', In (rq', Some r') (s_log s ++ [(rq, a)]) /\ stated_by r' z) ->
            inv m0 v (set_meta s1 m)) as Hinv.
  { intros m He Hz. constructor; cbn.
    - unfold lane_inv in *. cbn. rewrite streams_app. change (streams [(rq, a)]) with 0%nat.
      destruct Hlane as [El|El]; rewrite El in *; cbn in *; lia.
    - eapply extends_trans; eassumption.
    - exact Hz. }
  assert (forall z, known_size (s_meta s) = Some z ->
               known_size m0 = Some z \/ exists rq' r', In (rq', Some r') (s_log s ++ [(rq, a)]) /\ stated_by r' z) as Hold.
  { intros z Hz. destruct (HS z Hz) as [|(rq' & r' & Hin & Hst)]; [left; assumption|right].
    exists rq', r'. split; [apply in_or_app; now left|assumption]. }
  assert (forall m er, extends (s_meta s) m -> er <> HNil -> er <> HHang ->
     (er = HEof -> exists mm, m = Some mm /\ m_known mm = true /\ m_size mm <= abs) ->
     read_contract v len0 (abs - v_base v) [] er (set_meta s1 m)) as Hempty.
  { intros m er He H1 H2 H3. unfold read_contract. cbn zeta. change (zlen (@nil N)) with 0.
    repeat split; try lia; try congruence; try apply evidenced_nil.
    intros Eo. destruct (H3 Eo) as (mm & K1 & K2 & K3). right. exists mm. repeat split; auto. lia. }
  destruct a as [r|] eqn:Ea.
  2:{ injection H as <- <- <-.
      replace s1 with (set_meta s1 (s_meta s)) by reflexivity.
      split; [apply Hinv; auto using extends_refl|].
      split; [apply Hempty; try congruence; auto using extends_refl|]. repeat split; auto using extends_refl. }
  assert (In (rq, Some r) (s_log s ++ [(rq, Some r)])) as Hin by (apply in_or_app; right; now left).
  pose proof (Hsrv _ _ _ Ea) as Hbody.
  destruct (gate (s_meta s1) r abs (stated (if_range_value (s_meta s)))) as [[eg mg]|u] eqn:Eg.
  { injection H as <- <- <-. apply gate_spec in Eg as (G1 & G2 & G3 & G4 & G5); [|lia].
    cbn [s1 s_meta] in G1, G4.
    assert (inv m0 v (set_meta s1 mg)) as Hi.
    { apply Hinv; [assumption|]. destruct G4 as [->|(t & Hst & Hp)]; [assumption|].
      eapply pin_size_inv; eassumption. }
    split; [exact Hi|]. split; [now apply Hempty|]. repeat split; auto. }
  apply gate_206 in Eg as [G206 Genc].
  unfold check_partial in H. cbn [s1 s_meta] in H.
  rewrite (wrap64_id (abs + len - 1)) in H by (unfold in_int64, min_int64, max_int64 in *; lia).
  destruct (parse_content_range (rs_crange r)) as [[[cs ce] ct]|] eqn:Ep.
  2:{ injection H as <- <- <-. split; [apply Hinv; auto using extends_refl|].
      split; [apply Hempty; try congruence; auto using extends_refl|]. repeat split; auto using extends_refl. }
  destruct (negb (cs =? abs) || (ce >? abs + len - 1)
            || (negb (ce =? abs + len - 1) && negb (ce =? ct - 1))) eqn:Ec.
  { injection H as <- <- <-. split; [apply Hinv; auto using extends_refl|].
    split; [apply Hempty; try congruence; auto using extends_refl|]. repeat split; auto using extends_refl. }
  assert (cs = abs) by lia. subst cs.
  assert (ce <= abs + len - 1 /\ (ce = abs + len - 1 \/ ce = ct - 1)) as [Hce Hce2] by lia.
  destruct (parse_206 _ _ _ _ Ep ltac:(lia)) as (Hden & Hse & Het).
  destruct (pin_or_verify (s_meta s) r ct) as [m'|] eqn:Epin.
  2:{ injection H as <- <- <-. split; [apply Hinv; auto using extends_refl|].
      split; [apply Hempty; try congruence; auto using extends_refl|]. repeat split; auto using extends_refl. }
  destruct (pin_spec _ _ _ _ Epin) as (Hext & Hpin & _).
  destruct (read_full_spec (S (Z.to_nat (ce - abs + 1))) (rs_body r) 0 0 (ce - abs + 1) [] Hbody) as (n & er & Erf & N1 & N2 & N3 & N4); try lia.
  { pose proof (zlen_nonneg (bd_data (rs_body r))). lia. }
  rewrite Erf in H. cbn [app] in H.
  set (data0 := zslice (bd_data (rs_body r)) 0 n) in *.
  assert (zlen data0 = n) as Hlen0 by (unfold data0; rewrite zslice_length by lia; lia).
  assert (inv m0 v (set_meta s1 m')) as Hi.
  { apply Hinv; [assumption|]. eapply pin_size_inv; try eassumption. left; split; [assumption|eauto]. }
  assert (forall er', (er' = HNil -> n = len0) -> er' <> HHang ->
     (er' = HEof -> section_end v <= abs + n \/ ct <= abs + n) ->
     read_contract v len0 (abs - v_base v) data0 er' (set_meta s1 m')) as Hfull.
  { intros er' K1 K2 K3. unfold read_contract. cbn zeta. rewrite Hlen0.
    replace (v_base v + (abs - v_base v)) with abs by lia.
    repeat split; try lia; auto.
    - right. exists rq, r, abs, ce, ct. cbn [set_meta s_log s_meta s1]. rewrite Hlen0.
      replace (abs - abs) with 0 by lia. repeat split; auto; try lia. 
    - intros Ho. destruct (K3 Ho); [now left|right].
      cbn [set_meta s_meta]. destruct Hpin as (mm & -> & P1 & P2 & _). exists mm. repeat split; auto; lia. }
  destruct er.
  - specialize (N3 eq_refl).
    rewrite Hlen0 in H. rewrite (wrap64_id (abs + n)) in H by (unfold in_int64, min_int64, max_int64 in *; lia).
    rewrite Hve in H.
    destruct ((abs + n =? ct) || (abs + n =? section_end v)) eqn:Er; injection H as <- <- <-.
    + split; [exact Hi|]. split; [apply Hfull; try congruence; lia|]. repeat split; auto.
    + split; [exact Hi|]. split.
      * apply Hfull; try congruence. intros _.
        assert (ce = abs + len - 1) by lia.
        destruct (Z.eq_dec len len0); [lia|]. exfalso.
        destruct Hclamp as [K|K]; [lia|lia|].
        pose proof (known_size_extends _ _ _ K Hext) as K2.
        rewrite (pinned_size _ _ _ Hpin) in K2. injection K2 as K2. lia.
      * repeat split; auto.
  - injection H as <- <- <-. split; [exact Hi|]. split; [apply Hfull; try discriminate|].
    repeat split; auto.
  - injection H as <- <- <-. split; [exact Hi|]. split; [apply Hfull; try discriminate|].
    repeat split; auto.
Qed.

(* ---------- the lane ---------- *)

Lemma want_end_spec v m : view_ok v -> v_base v < section_end v ->
  let w := if negb (v_end v =? max_int64) then
             match known_size m with
             | Some size => if v_end v <? size then v_end v - 1 else -1
             | None => v_end v - 1
             end
           else -1 in
  (0 <= w /\ w = section_end v - 1) \/
  (w = -1 /\ (section_end v = max_int64 \/ exists size, known_size m = Some size /\ size <= section_end v)).
Proof.
  intros Hv Hb. destruct (v_end_spec v Hv) as [-> Hr]. destruct Hv as [Hvb _]. cbn zeta.
  destruct (Z.eqb_spec (section_end v) max_int64); cbn [negb]; [right; auto|].
  destruct (known_size m) as [z|]; [|left; lia].
  destruct (Z.ltb_spec (section_end v) z); [left; lia|right]. split; [reflexivity|right; eauto].
Qed.

Lemma open_stream_spec srv m0 v s oe s' :
  server_ok srv -> view_ok v -> inv m0 v s -> s_lane s = LPending (v_base v) ->
  (match known_size (s_meta s) with Some z => v_base v < z | None => True end) ->
  open_stream srv v s = (oe, s') ->
  inv m0 v s' /\ extends (s_meta s) (s_meta s') /\ log_step v s s' /\
  match oe with
  | None => exists b limit, s_lane s' = LOpen b 0 0 (v_base v) limit
  | Some e => s_lane s' = LDead /\ e <> HNil /\ e <> HHang /\
      (e = HEof -> exists mm, s_meta s' = Some mm /\ m_known mm = true /\ m_size mm <= v_base v)
  end.
Proof.
  intros Hsrv Hv [HL HE HS] Hlane Hsz H.
  unfold lane_inv in HL. rewrite Hlane in HL. destruct HL as (_ & Hlt & Hst0).
  destruct (v_end_spec v Hv) as [Hve Hvr]. pose proof Hv as [Hvb Hvl].
  unfold open_stream in H.
  pose proof (want_end_spec v (s_meta s) Hv Hlt) as Hw. cbn zeta in Hw.
  match type of Hw with (0 <= ?x /\ _) \/ _ => set (w := x) in * end.
  unfold send in H.
  match type of H with context [srv (length (s_log s)) ?q] => set (rq := q) in * end.
  set (a := srv (length (s_log s)) rq) in *.
  set (s1 := {| s_meta := s_meta s; s_lane := s_lane s; s_log := s_log s ++ [(rq, a)] |}) in *.
  assert (forall m l, log_step v s (set_lane (set_meta s1 m) l)) as Hlog.
  { intros m l. exists [(rq, a)]. cbn. repeat split; auto. constructor; [|constructor].
    unfold in_window; subst rq; cbn. split; [lia|].
    destruct (Z.ltb_spec w 0); [|destruct Hw as [Hw|Hw]; lia].
    split; [reflexivity|]. destruct Hw as [Hw|[_ Hw]]; [lia|exact Hw]. }
  assert (streams (s_log s ++ [(rq, a)]) = 1%nat) as Hst1.
  { rewrite streams_app, Hst0. reflexivity. }
  assert (forall z, known_size (s_meta s) = Some z ->
               known_size m0 = Some z \/ exists rq' r', In (rq', Some r') (s_log s ++ [(rq, a)]) /\ stated_by r' z) as Hold.
  { intros z Hz. destruct (HS z Hz) as [|(rq' & r' & Hin & Hst)]; [left; assumption|right].
    exists rq', r'. split; [apply in_or_app; now left|assumption]. }
  assert (forall m, extends (s_meta s) m ->
            (forall z, known_size m = Some z ->
               known_size m0 = Some z \/ exists rq' r', In (rq', Some r') (s_log s ++ [(rq, a)]) /\ stated_by r' z) ->
            inv m0 v (set_lane (set_meta s1 m) LDead)) as Hinv.
  { intros m He Hz. constructor.
    - unfold lane_inv. cbn [set_lane s_lane set_meta s_log s1]. lia.
    - cbn. eapply extends_trans; eassumption.
    - exact Hz. }
  assert (forall m e, extends (s_meta s) m -> e <> HNil -> e <> HHang ->
       (e = HEof -> exists mm, m = Some mm /\ m_known mm = true /\ m_size mm <= v_base v) ->
            (forall z, known_size m = Some z ->
               known_size m0 = Some z \/ exists rq' r', In (rq', Some r') (s_log s ++ [(rq, a)]) /\ stated_by r' z) ->
       inv m0 v (set_lane (set_meta s1 m) LDead) /\ extends (s_meta s) (s_meta (set_lane (set_meta s1 m) LDead)) /\
       log_step v s (set_lane (set_meta s1 m) LDead) /\
       s_lane (set_lane (set_meta s1 m) LDead) = LDead /\ e <> HNil /\ e <> HHang /\
      (e = HEof -> exists mm, s_meta (set_lane (set_meta s1 m) LDead) = Some mm /\ m_known mm = true /\ m_size mm <= v_base v)) as Hfail.
  { intros m e K1 K2 K3 K4 K5. split; [now apply Hinv|]. split; [exact K1|]. split; [apply Hlog|].
    split; [reflexivity|]. split; [exact K2|]. split; [exact K3|exact K4]. }
  destruct a as [r|] eqn:Ea.
  2:{ injection H as <- <-.
      replace (set_lane s1 LDead) with (set_lane (set_meta s1 (s_meta s)) LDead) by reflexivity.
      apply Hfail; try congruence; auto using extends_refl. }
  assert (In (rq, Some r) (s_log s ++ [(rq, Some r)])) as Hin by (apply in_or_app; right; now left).
  pose proof (Hsrv _ _ _ Ea) as Hbody.
  destruct (gate (s_meta s1) r (v_base v) (stated (if_range_value (s_meta s)))) as [[eg mg]|u] eqn:Eg.
  { injection H as <- <-. apply gate_spec in Eg as (G1 & G2 & G3 & G4 & G5); [|lia].
    cbn [s1 s_meta] in G1, G4. apply Hfail; auto.
    destruct G4 as [->|(t & Hst & Hp)]; [assumption|]. eapply pin_size_inv; eassumption. }
  apply gate_206 in Eg as [G206 Genc].
  destruct (parse_content_range (rs_crange r)) as [[[cs ce] ct]|] eqn:Ep.
  2:{ injection H as <- <-. cbn [s1 s_meta]. apply Hfail; try congruence; auto using extends_refl. }
  destruct (negb (cs =? v_base v) || ((0 <=? w) && (ce >? w))
            || (negb (ce =? w) && negb (ce =? ct - 1))) eqn:Ec.
  { injection H as <- <-. cbn [s1 s_meta]. apply Hfail; try congruence; auto using extends_refl. }
  assert (cs = v_base v) by lia. subst cs.
  destruct (parse_206 _ _ _ _ Ep ltac:(lia)) as (Hden & Hse & Het).
  cbn [s1 s_meta] in H.
  destruct (pin_or_verify (s_meta s) r ct) as [m'|] eqn:Epin.
  2:{ injection H as <- <-. cbn [s1 s_meta]. apply Hfail; try congruence; auto using extends_refl. }
  destruct (pin_spec _ _ _ _ Epin) as (Hext & Hpin & _).
  injection H as <- <-.
  assert (ce + 1 <= section_end v /\ (ce + 1 = section_end v \/ ce + 1 = ct)) as [L1 L2].
  { destruct Hw as [[W1 W2]|[W1 W2]]; [lia|].
    assert (ce = ct - 1) by lia. split; [|right; lia].
    destruct W2 as [W2|(size & W2 & W3)]; [lia|].
    pose proof (known_size_extends _ _ _ W2 Hext) as K2.
    rewrite (pinned_size _ _ _ Hpin) in K2. injection K2 as K2. lia. }
  split; [|split; [exact Hext|split; [apply Hlog|]]].
  - constructor.
    + unfold lane_inv. cbn [set_lane s_lane set_meta s_log s_meta s1]. split; [lia|].
      exists rq, r, ce, ct. pose proof (zlen_nonneg (bd_data (rs_body r))).
      repeat split; auto; try lia.
    + cbn. eapply extends_trans; eassumption.
    + unfold size_inv. cbn [set_lane s_lane set_meta s_log s_meta s1].
      eapply pin_size_inv; try eassumption. left; split; [assumption|eauto].
  - exists (rs_body r), (ce + 1). reflexivity.
Qed.

(* Serving from an open lane. *)
Lemma open_lane_spec m0 v s b bpos calls pos limit len len0 data e l :
  view_ok v -> inv m0 v s -> s_lane s = LOpen b bpos calls pos limit ->
  0 < len -> len <= len0 -> pos + len <= section_end v ->
  (len < len0 -> pos + len = section_end v \/ known_size (s_meta s) = Some (pos + len)) ->
  stream_loop (S (Z.to_nat len)) b bpos calls pos limit len [] = (data, e, l) ->
  inv m0 v (set_lane s l) /\ read_contract v len0 (pos - v_base v) data e (set_lane s l) /\
  (e = HNil -> exists c, l = LOpen b (bpos + zlen data) c (pos + zlen data) limit).
Proof.
  intros Hv [HL HE HS] Hlane Hlen Hle Hfit Hclamp H.
  unfold lane_inv in HL. rewrite Hlane in HL.
  destruct HL as (Hst & rq & r & last & t & Hin & Hb & Hbok & H206 & Henc & Hden & Hlt & Hpin & Hlim & Hbp & Hpos & Hpl & Hle2 & Hend).
  destruct (stream_loop_spec (S (Z.to_nat len)) b bpos calls pos limit len []) as
    (n & e1 & l1 & E & N1 & N2 & N3 & N4 & N5 & N6 & N7); try lia; auto.
  cbn [app] in E. rewrite E in H. injection H as <- <- <-.
  assert (zlen (zslice (bd_data b) bpos n) = n) as Hz by (rewrite zslice_length by lia; lia).
  rewrite Hz.
  pose proof (pinned_size _ _ _ Hpin) as Hks.
  split; [|split].
  - constructor; cbn [set_lane s_meta]; auto.
    unfold lane_inv. cbn [set_lane s_lane s_log s_meta].
    assert (e1 = HNil \/ e1 <> HNil) as [He|He] by (destruct e1; auto; right; discriminate).
    + destruct (N5 He) as (K1 & K2 & c & ->). split; [exact Hst|].
      exists rq, r, last, t. repeat split; auto; lia.
    + rewrite (N6 He). exact Hst.
  - unfold read_contract. cbn zeta. rewrite Hz. cbn [set_lane s_log s_meta].
    replace (v_base v + (pos - v_base v)) with pos by lia.
    repeat split; try lia; auto.
    + intros He. destruct (N5 He) as (K1 & K2 & _).
      destruct (Z.eq_dec len len0); [lia|]. exfalso.
      destruct Hclamp as [K|K]; [lia|lia|].
      rewrite Hks in K. injection K as K. lia.
    + right. exists rq, r, (v_base v), last, t. rewrite Hz. subst b.
      replace (pos - v_base v) with bpos by lia. repeat split; auto; lia.
    + intros He. specialize (N7 He). destruct Hend as [K|K]; [left; lia|right].
      apply known_size_some in Hks as (mm & M1 & M2 & M3). exists mm. repeat split; auto; lia.
  - intros He. destruct (N5 He) as (K1 & K2 & c & K3). exists c. exact K3.
Qed.

Lemma contract_ext v len off data e s s' :
  read_contract v len off data e s -> s_log s' = s_log s -> s_meta s' = s_meta s ->
  read_contract v len off data e s'.
Proof. unfold read_contract. intros H -> ->. exact H. Qed.

Lemma inv_dead m0 v s : inv m0 v s -> s_lane s <> LNone -> inv m0 v (set_lane s LDead).
Proof.
  intros [HL HE HS] Hn. constructor; cbn; auto. unfold lane_inv in *. cbn.
  destruct (s_lane s); try congruence; try tauto; lia.
Qed.

Lemma log_step_trans0 v s s1 s' : s_log s1 = s_log s -> s_meta s1 = s_meta s ->
  log_step v s1 s' -> log_step v s s'.
Proof. intros E1 E2 (new & H1 & H2 & H3). exists new. rewrite <- E1, <- E2. auto. Qed.

Definition read_post (m0 : option meta) (v : view) (s : st) (len off : Z) (data : list byte) (e : herr) (s' : st) : Prop :=
  inv m0 v s' /\ read_contract v len off data e s' /\ extends (s_meta s) (s_meta s') /\ log_step v s s'.

Lemma read_go_spec srv m0 v s len abs len0 data e s' :
  server_ok srv -> view_ok v -> inv m0 v s ->
  v_base v <= abs < section_end v -> 0 < len -> abs + len <= section_end v ->
  (match known_size (s_meta s) with Some z => abs + len <= z | None => True end) ->
  len <= len0 ->
  (len < len0 -> abs + len = section_end v \/ known_size (s_meta s) = Some (abs + len)) ->
  match lane_read_at srv v s len abs with
  | (Some (d, er), s1) => (d, er, s1)
  | (None, s1) => bounded_read srv v s1 len abs
  end = (data, e, s') ->
  read_post m0 v s len0 (abs - v_base v) data e s'.
Proof.
  intros Hsrv Hv Hinv Habs Hlen Hfit Hsz Hle Hclamp H. unfold read_post.
  assert (forall s1, inv m0 v s1 -> s_lane s1 = LNone \/ s_lane s1 = LDead -> s_meta s1 = s_meta s ->
            s_log s1 = s_log s -> bounded_read srv v s1 len abs = (data, e, s') ->
            inv m0 v s' /\ read_contract v len0 (abs - v_base v) data e s' /\
            extends (s_meta s) (s_meta s') /\ log_step v s s') as Hbound.
  { intros s1 Hi Hl Hm Hlg Hb.
    destruct (bounded_read_spec srv m0 v s1 len abs len0 data e s' Hsrv Hv Hi Hl Habs Hlen Hfit) as (A & B & C & D & _);
      rewrite ?Hm; auto.
    split; [exact A|]. split; [exact B|]. split; [rewrite <- Hm; exact C|].
    eapply log_step_trans0; eassumption. }
  unfold lane_read_at in H. destruct (s_lane s) as [|pos|b bpos calls pos limit|] eqn:El.
  - apply (Hbound s); auto.
  - pose proof (i_lane _ _ _ Hinv) as HL. unfold lane_inv in HL. rewrite El in HL. destruct HL as (-> & Hlt & Hst0).
    destruct (Z.eqb_spec (v_base v) abs) as [Eabs|Hne]; cbn [negb] in H.
    + destruct (open_stream srv v s) as [oe s1] eqn:Eo.
      destruct (open_stream_spec srv m0 v s oe s1 Hsrv Hv Hinv El) as (Hi1 & He1 & Hl1 & Hoe); auto.
      { destruct (known_size (s_meta s)); lia. }
      destruct oe as [eo|].
      * injection H as <- <- <-. destruct Hoe as (Hd & K1 & K2 & K3).
        split; [exact Hi1|]. split; [|split; assumption].
        unfold read_contract. cbn zeta. change (zlen (@nil N)) with 0.
        repeat split; try lia; try congruence; try apply evidenced_nil.
        intros Ee. destruct (K3 Ee) as (mm & M1 & M2 & M3). right. exists mm. repeat split; auto; lia.
      * destruct Hoe as (b & limit & Hopen). rewrite Hopen in H.
        destruct (stream_loop (S (Z.to_nat len)) b 0 0 (v_base v) limit len []) as [[acc er] l] eqn:Esl.
        injection H as <- <- <-.
        destruct (open_lane_spec m0 v s1 b 0 0 (v_base v) limit len len0 acc er l Hv Hi1 Hopen) as (A & B & _); auto; try lia.
        -- intros Hc. destruct Hclamp as [K|K]; [lia|left; lia|right].
           rewrite Eabs. eapply known_size_extends; eassumption.
        -- split; [exact A|]. split; [rewrite <- Eabs; exact B|]. split; [exact He1|exact Hl1].
    + apply (Hbound (set_lane s LDead)); auto. apply inv_dead; [assumption|congruence].
  - destruct (Z.eqb_spec pos abs) as [Eabs|Hne]; cbn [negb] in H.
    + destruct (stream_loop (S (Z.to_nat len)) b bpos calls pos limit len []) as [[acc er] l] eqn:Esl.
      injection H as <- <- <-. subst pos.
      destruct (open_lane_spec m0 v s b bpos calls abs limit len len0 acc er l Hv Hinv El) as (A & B & _); auto; try lia.
      * split; [exact A|]. split; [exact B|]. split; [apply extends_refl|]. now apply log_step_refl.
    + apply (Hbound (set_lane s LDead)); auto. apply inv_dead; [assumption|congruence].
  - apply (Hbound s); auto.
Qed.

Lemma read_at_spec srv m0 v s len off data e s' :
  server_ok srv -> view_ok v -> inv m0 v s -> 0 <= len -> 0 <= off <= max_int64 ->
  read_at srv v s len off = (data, e, s') -> read_post m0 v s len off data e s'.
Proof.
  intros Hsrv Hv Hinv Hlen Hoff H. unfold read_at in H.
  destruct (Z.ltb_spec off 0); [lia|]. rewrite locate_spec in H by assumption.
  destruct (v_end_spec v Hv) as [Hve Hvr]. pose proof Hv as [Hvb Hvl].
  assert (forall er, er <> HNil -> er <> HHang -> (er = HEof -> section_end v <= v_base v + off \/
               exists mm, s_meta s = Some mm /\ m_known mm = true /\ m_size mm <= v_base v + off) ->
          read_post m0 v s len off [] er s) as Hempty.
  { intros er K1 K2 K3. unfold read_post, read_contract. cbn zeta. change (zlen (@nil N)) with 0.
    rewrite Z.add_0_r. repeat split; try lia; try congruence; auto using extends_refl; try apply Hinv; try apply evidenced_nil.
    - apply log_step_refl; reflexivity. }
  destruct (Z.geb_spec off (section_end v - v_base v)).
  { injection H as <- <- <-. apply Hempty; try congruence. intros _; left; lia. }
  set (len1 := Z.min len (section_end v - (v_base v + off))) in *.
  assert (0 <= len1 <= len) as Hl1 by lia.
  assert (forall len2, 0 <= len2 <= len1 -> (len2 < len1 -> known_size (s_meta s) = Some (v_base v + off + len2)) ->
    (match known_size (s_meta s) with Some z => v_base v + off + len2 <= z | None => True end) ->
    (if len2 =? 0 then ([], HNil, s)
     else match lane_read_at srv v s len2 (v_base v + off) with
          | (Some (d, er), s1) => (d, er, s1)
          | (None, s1) => bounded_read srv v s1 len2 (v_base v + off)
          end) = (data, e, s') ->
    (len2 = 0 -> len = 0) -> read_post m0 v s len off data e s') as Hgo.
  { intros len2 H2 Hk Hz Hr Hzero. destruct (Z.eqb_spec len2 0) as [E0|Hne].
    - injection Hr as <- <- <-. specialize (Hzero E0). subst len.
      unfold read_post, read_contract. cbn zeta. change (zlen (@nil N)) with 0.
      repeat split; try lia; try congruence; auto using extends_refl; try apply Hinv; try apply evidenced_nil.
      apply log_step_refl; reflexivity.
    - replace off with (v_base v + off - v_base v) by lia.
      eapply read_go_spec; try eassumption; try lia.
      intros Hc. destruct (Z.lt_ge_cases len2 len1) as [Hlt|Hge]; [right; auto|left; lia]. }
  destruct (known_size (s_meta s)) as [size|] eqn:Ek.
  - destruct (Z.geb_spec (v_base v + off) size).
    + injection H as <- <- <-. apply Hempty; try congruence. intros _; right.
      apply known_size_some in Ek as (mm & M1 & M2 & M3). exists mm. repeat split; auto; lia.
    + apply (Hgo (if len1 >? size - (v_base v + off) then size - (v_base v + off) else len1)); auto;
        destruct (Z.gtb_spec len1 (size - (v_base v + off))); try lia.
      intros _. f_equal. lia.
  - apply (Hgo len1); auto; lia.
Qed.

(* ---------- probes, closing, histories ---------- *)

Lemma lane_inv_probe v s rq a m : lane_inv v s -> extends (s_meta s) m -> rq_stream rq = false ->
  lane_inv v {| s_meta := m; s_lane := s_lane s; s_log := s_log s ++ [(rq, a)] |}.
Proof.
  intros HL He Hrq. unfold lane_inv in *. cbn [s_lane s_log s_meta].
  assert (streams (s_log s ++ [(rq, a)]) = streams (s_log s)) as ->.
  { rewrite streams_app. unfold streams at 2. cbn. rewrite Hrq. cbn. lia. }
  destruct (s_lane s); auto.
  destruct HL as (Hst & rq' & r & last & t & Hin & Hb & Hbok & H206 & Henc & Hden & Hlt & Hpin & Hrest).
  split; [exact Hst|]. exists rq', r, last, t.
  repeat split; auto; try apply Hrest.
  - apply in_or_app; now left.
  - eapply pinned_by_extends; eassumption.
Qed.

Lemma probe_spec srv m0 v s e s' : inv m0 v s -> probe srv s = (e, s') ->
  inv m0 v s' /\ extends (s_meta s) (s_meta s') /\ e <> HHang /\ e <> HEof.
Proof.
  intros [HL HE HS] H. unfold probe, send in H.
  match type of H with context [srv (length (s_log s)) ?q] => set (rq := q) in * end.
  set (a := srv (length (s_log s)) rq) in *.
  set (s1 := {| s_meta := s_meta s; s_lane := s_lane s; s_log := s_log s ++ [(rq, a)] |}) in *.
  assert (forall m, extends (s_meta s) m ->
            (m = s_meta s \/ exists r t, a = Some r /\ stated_by r t /\ pin_or_verify (s_meta s) r t = Some m) ->
            inv m0 v (set_meta s1 m) /\ extends (s_meta s) (s_meta (set_meta s1 m))) as Hinv.
  { intros m He Hm. split; [|exact He]. constructor; cbn.
    - apply (lane_inv_probe v s rq a m); auto.
    - eapply extends_trans; eassumption.
    - intros z Hz. cbn in *. destruct Hm as [->|(r & t & Ea & Hst & Hp)].
      + destruct (HS z Hz) as [|(rq' & r' & Hin & Hst)]; [left; assumption|right].
        exists rq', r'. split; [apply in_or_app; now left|assumption].
      + eapply pin_size_inv; try eassumption. apply in_or_app; right; left. now rewrite Ea. }
  assert (forall er, er <> HHang -> er <> HEof -> (er, s1) = (e, s') ->
     inv m0 v s' /\ extends (s_meta s) (s_meta s') /\ e <> HHang /\ e <> HEof) as Hsame.
  { intros er K1 K2 Eq. injection Eq as <- <-.
    destruct (Hinv (s_meta s) (extends_refl _) (or_introl eq_refl)) as [I1 I2].
    split; [exact I1|]. split; [exact I2|]. split; assumption. }
  assert (forall r t m er, a = Some r -> stated_by r t -> pin_or_verify (s_meta s) r t = Some m ->
     er <> HHang -> er <> HEof -> (er, set_meta s1 m) = (e, s') ->
     inv m0 v s' /\ extends (s_meta s) (s_meta s') /\ e <> HHang /\ e <> HEof) as Hpin.
  { intros r t m er Ea Hst Hp K1 K2 Eq. injection Eq as <- <-.
    destruct (pin_spec _ _ _ _ Hp) as (Hx & _).
    destruct (Hinv m Hx (or_intror (ex_intro _ r (ex_intro _ t (conj Ea (conj Hst Hp)))))) as [I1 I2].
    split; [exact I1|]. split; [exact I2|]. split; assumption. }
  destruct a as [r|] eqn:Ea; [|eapply Hsame; [..|exact H]; discriminate].
  destruct (rs_enc_ok r); cbn [negb] in H; [|eapply Hsame; [..|exact H]; discriminate].
  cbn [s1 s_meta] in H.
  destruct (Z.eqb_spec (rs_status r) 206) as [E206|].
  - destruct (parse_content_range (rs_crange r)) as [[[a0 b0] t]|] eqn:Ep; [|eapply Hsame; [..|exact H]; discriminate].
    destruct (negb (a0 =? 0) || negb (b0 =? 0)) eqn:Ec; [eapply Hsame; [..|exact H]; discriminate|].
    destruct (pin_or_verify (s_meta s) r t) as [m|] eqn:Epin; [|eapply Hsame; [..|exact H]; discriminate].
    eapply Hpin; try exact H; try eassumption; try discriminate; try reflexivity.
    left. split; [assumption|]. destruct (parse_206 _ _ _ _ Ep ltac:(lia)) as (Hd & _). eauto.
  - destruct (Z.eqb_spec (rs_status r) 416) as [E416|].
    + destruct (parse_content_range (rs_crange r)) as [[[a0 b0] t]|] eqn:Ep; [|eapply Hsame; [..|exact H]; discriminate].
      destruct (Z.eqb_spec a0 (-1)) as [->|]; cbn [negb] in H; [|eapply Hsame; [..|exact H]; discriminate].
      destruct (pin_or_verify (s_meta s) r t) as [m|] eqn:Epin; [|eapply Hsame; [..|exact H]; discriminate].
      eapply Hpin; try exact H; try eassumption; try (destruct (t >? 0); discriminate); try reflexivity.
      right; left. split; [assumption|]. apply parse_sound in Ep as [(_ & ? & _)|(? & _)]; [lia|assumption].
    + destruct (Z.eqb_spec (rs_status r) 200) as [E200|]; [|eapply Hsame; [..|exact H]; discriminate].
      destruct (stated (rs_crange r) || negb (empty_entity r)) eqn:Ee; [eapply Hsame; [..|exact H]; discriminate|].
      destruct (pin_or_verify (s_meta s) r 0) as [m|] eqn:Epin; [|eapply Hsame; [..|exact H]; discriminate].
      apply orb_false_iff in Ee as [E1 E2]. apply negb_false_iff in E2. apply stated_nil in E1.
      eapply Hpin; try exact H; try eassumption; try discriminate; try reflexivity.
      right; right. auto.
Qed.

(* what one operation's result must satisfy *)
Definition op_contract (v : view) (o : hop) (res : list byte * herr) (s' : st) : Prop :=
  match o with
  | OpRead len off =>
      if off <? 0 then res = ([], HNegative) else read_contract v len off (fst res) (snd res) s'
  | _ => snd res <> HHang
  end.

Lemma hstep_spec srv m0 v s o res s' :
  server_ok srv -> view_ok v -> inv m0 v s -> op_ok o -> hstep srv v s o = (res, s') ->
  inv m0 v s' /\ extends (s_meta s) (s_meta s') /\ op_contract v o res s'.
Proof.
  intros Hsrv Hv Hinv Hok H. destruct o as [len off| |]; cbn [hstep] in H.
  - destruct (read_at srv v s len off) as [[d e] s1] eqn:Er. injection H as <- <-. cbn [op_contract fst snd].
    destruct (Z.ltb_spec off 0).
    + unfold read_at in Er. destruct (Z.ltb_spec off 0); [|lia]. injection Er as <- <- <-.
      repeat split; auto using extends_refl; apply Hinv.
    + destruct Hok as [Hl Ho]. destruct (read_at_spec srv m0 v s len off d e s1 Hsrv Hv Hinv Hl (conj H Ho) Er) as (A & B & C & D). auto.
  - destruct (probe srv s) as [e s1] eqn:Er. injection H as <- <-.
    destruct (probe_spec _ m0 v _ _ _ Hinv Er) as (A & B & C & D). cbn. auto.
  - injection H as <- <-. cbn.
    assert (forall s1, s1 = s \/ (s1 = set_lane s LDead /\ s_lane s <> LNone) ->
       inv m0 v s1 /\ extends (s_meta s) (s_meta s1) /\ HNil <> HHang) as Hc.
    { intros s1 [->|[-> Hne]]; [split; [exact Hinv|]; split; [apply extends_refl|discriminate]|].
      split; [now apply inv_dead|]. split; [apply extends_refl|discriminate]. }
    destruct (s_lane s) eqn:El; apply Hc; auto; right; split; congruence.
Qed.

Lemma hrun_app srv v s ops1 ops2 :
  hrun srv v s (ops1 ++ ops2) =
  let '(r1, s1) := hrun srv v s ops1 in
  let '(r2, s2) := hrun srv v s1 ops2 in (r1 ++ r2, s2).
Proof.
  revert s. induction ops1 as [|o ops1 IH]; intros s; cbn [hrun app].
  - destruct (hrun srv v s ops2); reflexivity.
  - destruct (hstep srv v s o) as [r s1]. rewrite IH.
    destruct (hrun srv v s1 ops1) as [r1 s2]. destruct (hrun srv v s2 ops2) as [r2 s3]. reflexivity.
Qed.

Lemma hrun_inv srv m0 v s ops rs s' :
  server_ok srv -> view_ok v -> inv m0 v s -> Forall op_ok ops -> hrun srv v s ops = (rs, s') ->
  inv m0 v s' /\ extends (s_meta s) (s_meta s').
Proof.
  intros Hsrv Hv Hinv Hops. revert s Hinv rs s'. induction Hops as [|o ops Ho Hops IH]; intros s Hinv rs s' H; cbn [hrun] in H.
  - injection H as <- <-. split; [exact Hinv|apply extends_refl].
  - destruct (hstep srv v s o) as [r s1] eqn:E1. destruct (hrun srv v s1 ops) as [rs1 s2] eqn:E2.
    injection H as <- <-.
    destruct (hstep_spec _ _ _ _ _ _ _ Hsrv Hv Hinv Ho E1) as (A & B & _).
    destruct (IH _ A _ _ E2) as [C D]. split; [exact C|]. eapply extends_trans; eassumption.
Qed.

(* starting states *)
Lemma whole_starts m v s : init_whole m = (v, s) -> v_base v = 0 /\ section_end v = max_int64 /\ s_meta s = m /\ s_lane s = LNone /\ s_log s = [].
Proof. intros E. injection E as <- <-. repeat split. Qed.
Lemma prior_spec etag lastmod size :
  (prior_meta etag lastmod size = None <-> etag = [] /\ lastmod = [] /\ size <= 0) /\
  (forall mm, prior_meta etag lastmod size = Some mm -> m_etag mm = etag /\ m_lastmod mm = lastmod /\ m_origin mm = [] /\ m_header mm = None /\ m_verified mm = false) /\
  (forall z, known_size (prior_meta etag lastmod size) = Some z <-> z = size /\ 0 < size).
Proof.
  unfold prior_meta, known_size, stated. rewrite Z.gtb_ltb. destruct etag, lastmod, (Z.ltb_spec 0 size) as [L|L]; cbn; (split; [split; intros H; try discriminate; try (destruct H as (?&?&?); try discriminate; lia); repeat split; lia|]);
    (split; [intros mm E; try discriminate; injection E as <-; repeat split|]); intros z; (split; [intros E; try discriminate; injection E as <-; auto|intros [-> ?]; try lia; reflexivity]).
Qed.
Lemma init_whole_inv m : inv m whole_view (snd (init_whole m)).
Proof. constructor; cbn; auto using extends_refl. intros z Hz; left; exact Hz. Qed.

Lemma init_range_inv m off n v s : in_int64 n -> off <= max_int64 ->
  init_range m off n = Some (v, s) -> view_ok v /\ inv m v s /\ s_meta s = m /\ s_log s = [].
Proof.
  intros Hn Ho H. unfold init_range in H. destruct (range_view off n) as [w|] eqn:Er; [|discriminate].
  apply some_inj in H. injection H as Ev Es. subst w. subst s.
  destruct (range_view_spec _ _ _ Hn Ho Er) as (Hv & Hb & Hfit & _). split; [exact Hv|].
  split; [|split; reflexivity]. constructor; cbn [s_meta s_lane s_log].
  - unfold lane_inv. cbn [s_lane s_log]. destruct (Z.gtb_spec (v_length v) 0); [|reflexivity].
    split; [reflexivity|]. split; [|reflexivity].
    destruct Hv as [V1 V2]. unfold section_end. lia.
  - apply extends_refl.
  - intros z Hz; left; exact Hz.
Qed.

Lemma starts_inv m v s : starts m v s -> view_ok v /\ inv m v s /\ s_meta s = m /\ s_log s = [].
Proof.
  intros [H|(off & n & Hn & Ho & H)].
  - unfold init_whole in H; injection H as -> ->. split; [apply whole_view_ok|]. split; [apply init_whole_inv|]. split; reflexivity.
  - eapply init_range_inv; eassumption.
Qed.

Lemma history_contract srv m v s ops rs s1 len off data e s2 :
  server_ok srv -> starts m v s -> Forall op_ok ops -> hrun srv v s ops = (rs, s1) ->
  0 <= len -> 0 <= off <= max_int64 -> read_at srv v s1 len off = (data, e, s2) ->
  read_contract v len off data e s2 /\ extends m (s_meta s1) /\ extends (s_meta s1) (s_meta s2).
Proof.
  intros Hsrv Hst Hops Hrun Hlen Hoff Hr.
  destruct (starts_inv _ _ _ Hst) as (Hv & Hi & Hm & _).
  destruct (hrun_inv _ _ _ _ _ _ _ Hsrv Hv Hi Hops Hrun) as [Hi1 He1].
  destruct (read_at_spec _ _ _ _ _ _ _ _ _ Hsrv Hv Hi1 Hlen Hoff Hr) as (A & B & C & D).
  split; [exact B|]. split; [|exact C]. rewrite <- Hm. exact He1.
Qed.

Lemma history_requests srv m v s ops rs s1 len off data e s2 :
  server_ok srv -> starts m v s -> Forall op_ok ops -> hrun srv v s ops = (rs, s1) ->
  0 <= len -> 0 <= off <= max_int64 -> read_at srv v s1 len off = (data, e, s2) ->
  (streams (s_log s2) <= 1)%nat /\
  exists new, s_log s2 = s_log s1 ++ new /\ (length new <= 1)%nat /\
    Forall (fun p => in_window v (s_meta s1) (fst p)) new.
Proof.
  intros Hsrv Hst Hops Hrun Hlen Hoff Hr.
  destruct (starts_inv _ _ _ Hst) as (Hv & Hi & Hm & _).
  destruct (hrun_inv _ _ _ _ _ _ _ Hsrv Hv Hi Hops Hrun) as [Hi1 He1].
  destruct (read_at_spec _ _ _ _ _ _ _ _ _ Hsrv Hv Hi1 Hlen Hoff Hr) as (A & B & C & D).
  split; [|exact D]. pose proof (i_lane _ _ _ A) as HL. unfold lane_inv in HL.
  destruct (s_lane s2); lia.
Qed.

(* ---------- truthful servers ---------- *)

Lemma log_from_server srv v s ops rs s' :
  hrun srv v s ops = (rs, s') ->
  (forall rq r, In (rq, Some r) (s_log s) -> exists k, srv k rq = Some r) ->
  (forall rq r, In (rq, Some r) (s_log s') -> exists k, srv k rq = Some r).
Proof.
  assert (forall s rq0 a s1, send srv s rq0 = (a, s1) ->
    (forall rq r, In (rq, Some r) (s_log s) -> exists k, srv k rq = Some r) ->
    (forall rq r, In (rq, Some r) (s_log s1) -> exists k, srv k rq = Some r)) as Hsend.
  { unfold send. intros s0 rq0 a s1 H Hs rq r Hin. injection H as <- <-. cbn in Hin.
    apply in_app_or in Hin as [Hin|[Hin|[]]]; [eauto|]. injection Hin as <- Hr. eauto. }
  set (P := fun s0 : st => forall rq r, In (rq, Some r) (s_log s0) -> exists k, srv k rq = Some r).
  assert (forall s0 m, P s0 -> P (set_meta s0 m)) as Pm by (intros; exact H).
  assert (forall s0 l, P s0 -> P (set_lane s0 l)) as Pl by (intros; exact H).
  assert (forall s0 rq0 a s1, send srv s0 rq0 = (a, s1) -> P s0 -> P s1) as Ps by exact Hsend.
  assert (forall s0 len abs d e s1, bounded_read srv v s0 len abs = (d, e, s1) -> P s0 -> P s1) as Hbr.
  { intros s0 len abs d e s1 H HP. unfold bounded_read in H.
    destruct (send srv s0 _) as [a s2] eqn:Es. apply Ps in Es; [|exact HP].
    destruct a as [r|]; [|injection H as <- <- <-; exact Es].
    destruct (gate _ _ _ _) as [[e1 m1]|]; [injection H as <- <- <-; auto|].
    destruct (check_partial _ _ _ _) as [[e1 m1]|[[av tt] m1]]; [injection H as <- <- <-; auto|].
    destruct (read_full _ _ _ _ _ _) as [[d1 e1]|]; [|injection H as <- <- <-; auto].
    destruct e1; [destruct (_ || _); injection H as <- <- <-; auto|..]; injection H as <- <- <-; auto. }
  assert (forall s0 oe s1, open_stream srv v s0 = (oe, s1) -> P s0 -> P s1) as Hos.
  { intros s0 oe s1 H HP. unfold open_stream in H.
    match type of H with context [send srv s0 ?q] => destruct (send srv s0 q) as [a s2] eqn:Es end.
    apply Ps in Es; [|exact HP].
    destruct a as [r|]; [|injection H as <- <-; auto].
    destruct (gate _ _ _ _) as [[e1 m1]|]; [injection H as <- <-; auto|].
    destruct (parse_content_range _) as [[[a0 b0] t0]|]; [|injection H as <- <-; auto].
    match type of H with (if ?c then _ else _) = _ => destruct c end; [injection H as <- <-; auto|].
    destruct (pin_or_verify _ _ _); injection H as <- <-; auto. }
  assert (forall s0 len abs o s1, lane_read_at srv v s0 len abs = (o, s1) -> P s0 -> P s1) as Hlr.
  { intros s0 len abs o s1 H HP. unfold lane_read_at in H. destruct (s_lane s0).
    - injection H as <- <-; auto.
    - destruct (negb _); [injection H as <- <-; auto|].
      destruct (open_stream srv v s0) as [oe s2] eqn:Eo. apply Hos in Eo; [|exact HP].
      destruct oe; [injection H as <- <-; auto|]. destruct (s_lane s2); try (injection H as <- <-; auto; fail).
      destruct (stream_loop _ _ _ _ _ _ _ _) as [[ac er] l]. injection H as <- <-; auto.
    - destruct (negb _); [injection H as <- <-; auto|].
      destruct (stream_loop _ _ _ _ _ _ _ _) as [[ac er] l]. injection H as <- <-; auto.
    - injection H as <- <-; auto. }
  assert (forall s0 o r s1, hstep srv v s0 o = (r, s1) -> P s0 -> P s1) as Hstep.
  { intros s0 o r s1 H HP. destruct o as [len off| |]; cbn [hstep] in H.
    - destruct (read_at srv v s0 len off) as [[d e] s2] eqn:Er. injection H as <- <-.
      unfold read_at in Er. destruct (off <? 0); [injection Er as <- <- <-; auto|].
      destruct (locate v len off) as [[l1 abs]|]; [|injection Er as <- <- <-; auto].
      assert (forall l2, (if l2 =? 0 then ([], HNil, s0)
         else match lane_read_at srv v s0 l2 abs with
          | (Some (d, er), s1) => (d, er, s1)
          | (None, s1) => bounded_read srv v s1 l2 abs end) = (d, e, s2) -> P s2) as Hg.
      { intros l2 E. destruct (l2 =? 0); [injection E as <- <- <-; auto|].
        destruct (lane_read_at srv v s0 l2 abs) as [[[d1 e1]|] s3] eqn:El; apply Hlr in El; auto.
        - injection E as <- <- <-; auto. - eapply Hbr; eassumption. }
      destruct (known_size (s_meta s0)); [destruct (_ >=? _); [injection Er as <- <- <-; auto|]|]; eapply Hg; eassumption.
    - destruct (probe srv s0) as [e s2] eqn:Er. injection H as <- <-. unfold probe in Er.
      match type of Er with context [send srv s0 ?q] => destruct (send srv s0 q) as [a s3] eqn:Es end.
      apply Ps in Es; [|exact HP].
      destruct a as [r|]; [|injection Er as <- <-; auto].
      destruct (rs_enc_ok r); cbn [negb] in Er; [|injection Er as <- <-; auto].
      destruct (rs_status r =? 206).
      { destruct (parse_content_range _) as [[[a0 b0] t0]|]; [|injection Er as <- <-; auto].
        destruct (_ || _); [injection Er as <- <-; auto|].
        destruct (pin_or_verify _ _ _); injection Er as <- <-; auto. }
      destruct (rs_status r =? 416).
      { destruct (parse_content_range _) as [[[a0 b0] t0]|]; [|injection Er as <- <-; auto].
        destruct (negb _); [injection Er as <- <-; auto|].
        destruct (pin_or_verify _ _ _); injection Er as <- <-; auto. }
      destruct (rs_status r =? 200); [|injection Er as <- <-; auto].
      destruct (_ || _); [injection Er as <- <-; auto|].
      destruct (pin_or_verify _ _ _); injection Er as <- <-; auto.
    - injection H as <- <-. destruct (s_lane s0); auto. }
  revert s rs s'. induction ops as [|o ops IH]; intros s rs s' H Hs; cbn [hrun] in H.
  - injection H as <- <-. exact Hs.
  - destruct (hstep srv v s o) as [r s1] eqn:E1. destruct (hrun srv v s1 ops) as [rs1 s2] eqn:E2.
    injection H as <- <-. eapply IH; [exact E2|]. eapply Hstep; eassumption.
Qed.

Lemma history_section d srv m v s ops rs s1 len off data e s2 :
  server_ok srv -> honest d srv -> starts m v s ->
  (forall z, known_size m = Some z -> z = zlen d) ->
  Forall op_ok ops -> hrun srv v s ops = (rs, s1) ->
  0 <= len -> 0 <= off <= max_int64 -> read_at srv v s1 len off = (data, e, s2) ->
  section_contract d v len off data e /\ e <> HHang.
Proof.
  intros Hsrv Hhon Hst Hm0 Hops Hrun Hlen Hoff Hr.
  destruct (starts_inv _ _ _ Hst) as (Hv & Hi & Hm & Hlg).
  destruct (hrun_inv _ _ _ _ _ _ _ Hsrv Hv Hi Hops Hrun) as [Hi1 He1].
  destruct (read_at_spec _ _ _ _ _ _ _ _ _ Hsrv Hv Hi1 Hlen Hoff Hr) as (A & B & C & D).
  assert (hrun srv v s (ops ++ [OpRead len off]) = (rs ++ [(data, e)], s2)) as Hrun2.
  { rewrite hrun_app, Hrun. cbn [hrun hstep]. rewrite Hr. reflexivity. }
  pose proof (log_from_server _ _ _ _ _ _ Hrun2 ltac:(rewrite Hlg; intros ? ? [])) as Hfrom.
  destruct B as (B1 & B2 & B3 & B4 & B5 & B6). cbn zeta in *.
  set (abs := v_base v + off) in *.
  split; [|exact B3]. unfold section_contract. fold abs. cbn zeta.
  assert (data = [] \/ (data <> [] /\ data = zslice d abs (zlen data) /\ abs + zlen data <= zlen d)) as Hdata.
  { destruct B4 as [->|(rq & r & cs & ce & ct & Hin & H206 & Henc & Hden & Hle & Hle2 & Hlt & Hdat & Hpin)]; [now left|].
    destruct data as [|x0 data0]; [now left|right]. set (data := x0 :: data0) in *. split; [discriminate|].
    destruct (Hfrom _ _ Hin) as (k & Hk). destruct (Hhon _ _ _ Hk) as (T1 & _).
    destruct (T1 H206 _ _ _ Hden) as [-> Hbytes].
    pose proof (zlen_nonneg data) as Hnn. pose proof (zlen_nonneg d) as Hdn.
    assert (abs + zlen data <= zlen d) as Hfit by lia.
    assert (0 <= abs) as Habs. { destruct Hv as [V1 V2]. unfold abs. lia. }
    split; [|exact Hfit].
    apply zget_ext. intros i.
    assert (i < 0 \/ zlen data <= i \/ 0 <= i < zlen data) as [Hir|[Hir|Hir]] by lia.
    - rewrite !zget_out by lia. reflexivity.
    - rewrite !zget_out; [reflexivity| |lia]. rewrite zslice_length by lia. lia.
    - rewrite zget_zslice by lia.
      assert (zget data i = zget (bd_data (rs_body r)) (abs - cs + i)) as ->.
      { rewrite Hdat at 1. apply zget_zslice; lia. }
      destruct (zget_in_range (bd_data (rs_body r)) (abs - cs + i)) as (x & Hx).
      { destruct (Z.lt_ge_cases (abs - cs + i) (zlen (bd_data (rs_body r)))) as [|Hbad]; [lia|exfalso].
        assert (zget data i = None) as Hn.
        { rewrite Hdat. rewrite zget_zslice by lia. apply zget_out. lia. }
        destruct (zget_in_range data i ltac:(lia)) as (y & Hy). congruence. }
      rewrite Hx. symmetry. replace (abs + i) with (cs + (abs - cs + i)) by lia. apply Hbytes; [lia|exact Hx]. }
  split; [|split; [exact B1|split; [|split; [exact B2|]]]].
  - destruct Hdata as [->|(_ & K & _)]; [|exact K]. change (zlen (@nil N)) with 0. now rewrite zslice_zero by lia.
  - intros Hne. destruct Hdata as [->|(_ & _ & K)]; [congruence|]. specialize (B5 Hne). lia.
  - intros Ee. destruct (B6 Ee) as [K|(mm & M1 & M2 & M3)]; [lia|].
    assert (known_size (s_meta s2) = Some (m_size mm)) as Hks by (rewrite M1; cbn; now rewrite M2).
    assert (m_size mm = zlen d) as Hsz; [|lia].
    destruct (i_size _ _ _ A _ Hks) as [K|(rq & r & Hin & Hst2)]; [now apply Hm0|].
    destruct (Hfrom _ _ Hin) as (k & Hk). destruct (Hhon _ _ _ Hk) as (T1 & T2 & T3).
    destruct Hst2 as [(S1 & a0 & b0 & S2)|[(S1 & S2)|(S1 & S2 & S3 & S4)]].
    + now destruct (T1 S1 _ _ _ S2).
    + now apply T2.
    + rewrite (T3 S1 S2 S3), S4. reflexivity.
Qed.

(* ---------- in-order reading ---------- *)

(* Reads front to back, each starting where the last one ended, none failing. *)
Fixpoint in_order (srv : server) (v : view) (s : st) (off : Z) (lens : list Z) : option st :=
  match lens with
  | [] => Some s
  | len :: lens' =>
      let '(data, e, s') := read_at srv v s len off in
      match e with HNil => in_order srv v s' (off + zlen data) lens' | _ => None end
  end.

Lemma in_order_one_request_gen srv m0 v lens : server_ok srv -> view_ok v ->
  Forall (fun len => 0 <= len) lens -> forall s s' off, inv m0 v s -> 0 <= off ->
  (s_lane s = LPending (v_base v) /\ off = 0 /\ s_log s = [] \/
   exists b bpos c limit, s_lane s = LOpen b bpos c (v_base v + off) limit /\ (length (s_log s) <= 1)%nat) ->
  in_order srv v s off lens = Some s' -> (length (s_log s') <= 1)%nat.
Proof.
  intros Hsrv Hv Hlens. induction Hlens as [|len lens Hlen Hlens IH]; intros s s' off Hi Hoff Hl H; cbn [in_order] in H.
  { injection H as <-. destruct Hl as [(_ & _ & ->)|(b & bp & c & l & _ & Hl)]; cbn; [lia|exact Hl]. }
  destruct (read_at srv v s len off) as [[data e] s1] eqn:Er. destruct e; try discriminate.
  assert (off <= max_int64) as Hoffmax.
  { destruct Hl as [(_ & -> & _)|(b & bp & c & l & El & _)]; [unfold max_int64; lia|].
    pose proof (i_lane _ _ _ Hi) as HL. unfold lane_inv in HL. rewrite El in HL.
    destruct HL as (_ & rq & r & last & t & HL). destruct (v_end_spec v Hv) as [_ Hvr].
    destruct Hv as [V1 V2]. lia. }
  destruct (read_at_spec srv m0 v s len off data HNil s1 Hsrv Hv Hi Hlen (conj Hoff Hoffmax) Er) as (Hi1 & Hc & _ & _).
  apply (IH s1 s' (off + zlen data) Hi1); [pose proof (zlen_nonneg data); lia| |exact H].
  (* follow the read *)
  unfold read_at in Er. destruct (Z.ltb_spec off 0); [lia|]. rewrite locate_spec in Er by (auto; lia).
  destruct (Z.geb_spec off (section_end v - v_base v)); [discriminate|].
  assert (forall l2, 0 <= l2 -> v_base v + off + l2 <= section_end v ->
     (forall z, known_size (s_meta s) = Some z -> v_base v + off < z) ->
     (if l2 =? 0 then ([], HNil, s)
         else match lane_read_at srv v s l2 (v_base v + off) with
          | (Some (d, er), s1) => (d, er, s1)
          | (None, s1) => bounded_read srv v s1 l2 (v_base v + off) end) = (data, HNil, s1) ->
     s_lane s1 = LPending (v_base v) /\ off + zlen data = 0 /\ s_log s1 = [] \/
     exists b bpos c limit, s_lane s1 = LOpen b bpos c (v_base v + (off + zlen data)) limit /\ (length (s_log s1) <= 1)%nat) as Hgo.
  { intros l2 H2 Hfit Hkz E. destruct (Z.eqb_spec l2 0).
    { injection E as <- <-. change (zlen (@nil N)) with 0. rewrite Z.add_0_r. exact Hl. }
    unfold lane_read_at in E. destruct Hl as [(El & -> & Hlog)|(b & bp & c & l & El & Hlog)]; rewrite El in E.
    - rewrite Z.add_0_r, Z.eqb_refl in E. cbn [negb] in E.
      destruct (open_stream srv v s) as [oe s2] eqn:Eo.
      destruct (open_stream_spec srv m0 v s oe s2 Hsrv Hv Hi El) as (Hi2 & He2 & (new & Hl2 & Hlen2 & _) & Hoe); auto.
      { destruct (known_size (s_meta s)) as [z|]; [|exact I]. specialize (Hkz z eq_refl). lia. }
      destruct oe as [eo|]; [injection E as _ -> _; destruct Hoe as (_ & K & _); congruence|].
      destruct Hoe as (b & limit & Hopen). rewrite Hopen in E.
      destruct (stream_loop (S (Z.to_nat l2)) b 0 0 (v_base v) limit l2 []) as [[acc er] l] eqn:Esl.
      injection E as <- -> <-.
      destruct (open_lane_spec m0 v s2 b 0 0 (v_base v) limit l2 l2 acc HNil l Hv Hi2 Hopen) as (_ & _ & K); auto; try lia.
      destruct (K eq_refl) as (c & ->). right. exists b, (0 + zlen acc), c, limit.
      cbn [set_lane s_lane s_log]. rewrite Z.add_0_l. split; [reflexivity|]. rewrite Hl2, Hlog. cbn. exact Hlen2.
    - rewrite Z.eqb_refl in E. cbn [negb] in E.
      destruct (stream_loop (S (Z.to_nat l2)) b bp c (v_base v + off) l l2 []) as [[acc er] ln] eqn:Esl.
      injection E as <- -> <-.
      destruct (open_lane_spec m0 v s b bp c (v_base v + off) l l2 l2 acc HNil ln Hv Hi El) as (_ & _ & K); auto; try lia.
      destruct (K eq_refl) as (c' & ->). right. exists b, (bp + zlen acc), c', l.
      cbn [set_lane s_lane s_log]. split; [f_equal; lia|exact Hlog]. }
  set (l1 := Z.min len (section_end v - (v_base v + off))) in *.
  destruct (known_size (s_meta s)) as [size|] eqn:Ek.
  - destruct (Z.geb_spec (v_base v + off) size); [discriminate|].
    apply (Hgo (if l1 >? size - (v_base v + off) then size - (v_base v + off) else l1)); auto;
      try (destruct (Z.gtb_spec l1 (size - (v_base v + off))); lia).
    intros z Hz. injection Hz as <-. lia.
  - apply (Hgo l1); auto; try lia. congruence.
Qed.

Lemma in_order_one_request srv m off n v s lens s' :
  server_ok srv -> in_int64 n -> off <= max_int64 -> init_range m off n = Some (v, s) ->
  0 < v_length v -> Forall (fun len => 0 <= len) lens ->
  in_order srv v s 0 lens = Some s' -> (length (s_log s') <= 1)%nat.
Proof.
  intros Hsrv Hn Ho Hi Hlen Hl H. destruct (init_range_inv _ _ _ _ _ Hn Ho Hi) as (Hv & Hinv & Hm & Hlog).
  eapply (in_order_one_request_gen srv m v lens Hsrv Hv Hl s s' 0 Hinv); [lia| |exact H].
  left. split; [|split; [reflexivity|exact Hlog]].
  unfold init_range in Hi. destruct (range_view off n) as [w|]; [|discriminate].
  apply some_inj in Hi. injection Hi as -> <-. cbn [s_lane]. destruct (Z.gtb_spec (v_length v) 0); [reflexivity|lia].
Qed.

Lemma gate_whole m r off c : whole_answer r -> gate m r off c = inl ((if c then HChanged else HIgnored), m).
Proof.
  intros (He & Hs & Hw). unfold gate. rewrite He, Hs. cbn [negb]. change (200 =? 206) with false. change (200 =? 416) with false. change (200 =? 200) with true. cbn iota.
  unfold read_whole. assert (negb (stated (rs_crange r)) && empty_entity r = false) as ->.
  { destruct Hw as [Hw| ->]; [|apply andb_false_r]. destruct (rs_crange r); [contradiction|reflexivity]. }
  destruct c; reflexivity.
Qed.

Lemma whole_answer_refused srv v s len abs : 
  (forall data e s' rq r, bounded_read srv v s len abs = (data, e, s') -> s_log s' = s_log s ++ [(rq, Some r)] -> whole_answer r ->
     data = [] /\ e = refusal rq /\ s_meta s' = s_meta s /\ s_lane s' = s_lane s) /\
  (forall oe s' rq r, open_stream srv v s = (oe, s') -> s_log s' = s_log s ++ [(rq, Some r)] -> whole_answer r ->
     oe = Some (refusal rq) /\ s_meta s' = s_meta s /\ s_lane s' = LDead).
Proof.
  split.
  - intros data e s' rq r H Hl Hw. unfold bounded_read in H. cbv zeta in H.
    match type of H with (let '(a, s1) := send srv s ?q in _) = _ => set (rq0 := q) in H end. unfold send in H. cbv zeta in H. destruct (srv (length (s_log s)) rq0) as [r0|] eqn:Er.
    2: { inversion H; subst. cbn [s_log] in Hl. apply app_inv_head in Hl. discriminate. }
    assert (r0 = r /\ rq0 = rq) as [-> Erq].
    { assert (s_log s' = s_log s ++ [(rq0, Some r0)]) as Hl'.
      { destruct (gate _ _ _ _) as [[e1 m1]|u]; [inversion H; subst; reflexivity|]. destruct (check_partial _ _ _ _) as [[e1 m1]|[[av tot] m1]]; [inversion H; subst; reflexivity|].
        cbv zeta in H. destruct (read_full _ _ _ _ _ _) as [[bs er]|]; repeat match type of H with context [if ?b then _ else _] => destruct b end; try destruct er; inversion H; subst; reflexivity. }
      rewrite Hl' in Hl. apply app_inv_head in Hl. split; congruence. }
    rewrite gate_whole in H by exact Hw. inversion H; subst. split; [reflexivity|]. split; [|split; reflexivity]. unfold refusal. cbn [rq_ifrange]. destruct (if_range_value (s_meta s)); reflexivity.
  - intros oe s' rq r H Hl Hw. unfold open_stream in H. cbv zeta in H.
    match type of H with (let '(a, s1) := send srv s ?q in _) = _ => set (rq0 := q) in H end. unfold send in H. cbv zeta in H. destruct (srv (length (s_log s)) rq0) as [r0|] eqn:Er.
    2: { inversion H; subst. cbn [s_log set_lane set_meta] in Hl. apply app_inv_head in Hl. discriminate. }
    assert (r0 = r /\ rq0 = rq) as [-> Erq].
    { assert (s_log s' = s_log s ++ [(rq0, Some r0)]) as Hl'.
      { destruct (gate _ _ _ _) as [[e1 m1]|u]; [inversion H; subst; reflexivity|]. destruct (parse_content_range _) as [[[a b] c]|]; [|inversion H; subst; reflexivity].
        destruct (negb _ || _ || _); [inversion H; subst; reflexivity|]. destruct (pin_or_verify _ _ _); inversion H; subst; reflexivity. }
      rewrite Hl' in Hl. apply app_inv_head in Hl. split; congruence. }
    rewrite gate_whole in H by exact Hw. inversion H; subst. split; [|split; reflexivity]. unfold refusal. cbn [rq_ifrange]. destruct (if_range_value (s_meta s)); reflexivity.
Qed.
