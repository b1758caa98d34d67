(* Proofs about the requests of httprange. *)
From Verif Require Import Common CommonLemmas ContentRange_Model ContentRange_Spec ContentRange_Proofs MultiRead_Model
  HttpRange_Model HttpRange_Spec HttpRange_Proofs HttpWire_Model HttpWire_Spec.
Open Scope Z_scope.

Lemma same_iff a b : same a b = true <-> map small a = map small b.
Proof. unfold same. destruct (list_eq_dec _ _ _); split; congruence. Qed.
Lemma same_refl a : same a a = true.
Proof. apply same_iff. reflexivity. Qed.
Lemma same_sym a b : same a b = same b a.
Proof.
  destruct (same b a) eqn:E.
  - apply same_iff. apply same_iff in E. congruence.
  - destruct (same a b) eqn:F; [|reflexivity]. apply same_iff in F. assert (same b a = true) by (apply same_iff; congruence). congruence.
Qed.

Lemma to_lower_small b : to_lower b = small b.
Proof.
  unfold to_lower, small. replace (64 <? b)%N with (65 <=? b)%N by lia. replace (b <? 91)%N with (b <=? 90)%N by lia. reflexivity.
Qed.

(* ---------- canonical names ---------- *)
Lemma small_upper b : small (to_upper b) = small b.
Proof.
  unfold small, to_upper.
  destruct (N.leb_spec 97 b), (N.leb_spec b 122); cbn [andb]; try reflexivity.
  destruct (N.ltb_spec 64 (b - 32)), (N.ltb_spec (b - 32) 91), (N.ltb_spec 64 b), (N.ltb_spec b 91); cbn [andb]; lia.
Qed.
Lemma small_small b : small (small b) = small b.
Proof.
  unfold small. destruct (N.ltb_spec 64 b), (N.ltb_spec b 91); cbn [andb]; try (destruct (N.ltb_spec 64 b), (N.ltb_spec b 91); cbn [andb]; lia).
  destruct (N.ltb_spec 64 (b + 32)), (N.ltb_spec (b + 32) 91); cbn [andb]; lia.
Qed.
Lemma upper_small b : to_upper (small b) = to_upper b.
Proof.
  unfold small, to_upper. destruct (N.ltb_spec 64 b), (N.ltb_spec b 91); cbn [andb]; try reflexivity.
  destruct (N.leb_spec 97 (b + 32)), (N.leb_spec (b + 32) 122), (N.leb_spec 97 b), (N.leb_spec b 122); cbn [andb]; lia.
Qed.
Lemma dash_small b : (small b =? 45)%N = (b =? 45)%N.
Proof. unfold small. destruct (N.ltb_spec 64 b), (N.ltb_spec b 91); cbn [andb]; lia. Qed.
Lemma token_small b : token_byte (small b) = token_byte b.
Proof.
  unfold small. destruct (N.ltb_spec 64 b), (N.ltb_spec b 91); cbn [andb]; try reflexivity.
  unfold token_byte. replace ((97 <=? b + 32) && (b + 32 <=? 122))%N with true by (symmetry; apply andb_true_intro; lia).
  replace ((65 <=? b) && (b <=? 90))%N with true by (symmetry; apply andb_true_intro; lia).
  cbn [orb]. rewrite orb_true_r. reflexivity.
Qed.

Lemma canon_small up s : canon up (map small s) = canon up s.
Proof.
  revert up. induction s as [|b s IH]; intros up; cbn [map canon]; [reflexivity|].
  rewrite dash_small, IH. f_equal. destruct up; [apply upper_small|]. rewrite !to_lower_small. apply small_small.
Qed.
Lemma small_canon up s : map small (canon up s) = map small s.
Proof.
  revert up. induction s as [|b s IH]; intros up; cbn [map canon]; [reflexivity|]. rewrite IH. f_equal.
  destruct up; [apply small_upper|]. rewrite to_lower_small. apply small_small.
Qed.
Lemma tokens_small s : forallb token_byte (map small s) = forallb token_byte s.
Proof. induction s as [|b s IH]; cbn [map forallb]; [reflexivity|]. rewrite token_small, IH. reflexivity. Qed.

Lemma small_canonical s : map small (canonical s) = map small s.
Proof. unfold canonical. destruct (forallb token_byte s); [apply small_canon|reflexivity]. Qed.
Lemma same_canonical f k : same f (canonical k) = same f k.
Proof. unfold same. rewrite small_canonical. reflexivity. Qed.

(* a name spelt like a canonical one without regard to case, made canonical, is that one *)
Lemma canonical_of r k : forallb token_byte r = true -> canonical r = r -> same r k = true -> canonical k = r.
Proof.
  intros Ht Hr Hs. apply same_iff in Hs. unfold canonical in *. rewrite Ht in Hr.
  assert (forallb token_byte k = true) as -> by (rewrite <- tokens_small, <- Hs, tokens_small; exact Ht).
  rewrite <- canon_small, <- Hs, canon_small. exact Hr.
Qed.

Lemma reserved_canonical r : In r reserved -> forallb token_byte r = true /\ canonical r = r.
Proof. intros [<-|[<-|[<-|[]]]]; split; reflexivity. Qed.

(* ---------- the calls, by the lines they leave ---------- *)
Lemma lines_cons f k vs h : lines f ((k, vs) :: h) = (if same f k then vs else []) ++ lines f h.
Proof. unfold lines. cbn [filter fst]. destruct (same f k); reflexivity. Qed.

Lemma lines_del_other f k h : same f k = false -> lines f (h_del k h) = lines f h.
Proof.
  intros Hf. induction h as [|[k' vs] h IH]; [reflexivity|]. unfold h_del in *. cbn [filter]. unfold is_key at 1. cbn [fst].
  destruct (bytes_eqb k' (canonical k)) eqn:E; cbn [negb].
  - apply bytes_eqb_eq in E. subst k'. rewrite lines_cons, same_canonical, Hf. exact IH.
  - rewrite !lines_cons, IH. reflexivity.
Qed.

Lemma in_del k h e : In e (h_del k h) -> In e h.
Proof. unfold h_del. intros H. apply filter_In in H. apply H. Qed.
Lemma del_gone k h k' vs : In (k', vs) (h_del k h) -> k' <> canonical k.
Proof.
  unfold h_del. intros H. apply filter_In in H as [_ H]. intros ->. unfold is_key in H. cbn [fst] in H.
  rewrite (proj2 (bytes_eqb_eq _ _) eq_refl) in H. discriminate.
Qed.

Lemma lines_none f h : (forall k vs, In (k, vs) h -> same f k = true -> False) -> lines f h = [].
Proof.
  intros H. induction h as [|[k vs] h IH]; [reflexivity|]. rewrite lines_cons.
  destruct (same f k) eqn:E; [exfalso; exact (H k vs (or_introl eq_refl) E)|]. apply IH. intros k' vs' Hin. apply (H k' vs'). right; exact Hin.
Qed.

Lemma spelt_del k h : well_spelt h -> well_spelt (h_del k h).
Proof. intros H k' vs r Hin. apply (H k' vs r). eapply in_del; exact Hin. Qed.
Lemma spelt_set k v h : well_spelt h -> well_spelt (h_set k v h).
Proof.
  intros H k' vs r [E|Hin] Hr Hs.
  - injection E as <- _. rewrite same_canonical in Hs. destruct (reserved_canonical r Hr) as [Ht Hc]. now apply canonical_of.
  - exact (spelt_del k h H k' vs r Hin Hr Hs).
Qed.
Lemma spelt_add k v h : well_spelt h -> well_spelt (h_add k v h).
Proof.
  intros H. unfold h_add. destruct (existsb (is_key k) h).
  - intros k' vs r Hin. apply in_map_iff in Hin as ([k0 vs0] & E & Hin). cbn [fst snd] in E.
    destruct (is_key k (k0, vs0)); injection E as <- <-; exact (H k0 vs0 r Hin).
  - intros k' vs r [E|Hin] Hr Hs; [|exact (H k' vs r Hin Hr Hs)].
    injection E as <- _. rewrite same_canonical in Hs. destruct (reserved_canonical r Hr) as [Ht Hc]. now apply canonical_of.
Qed.

Lemma made_by_calls cs : well_spelt (fold_left hdo cs []).
Proof.
  assert (forall h, well_spelt h -> well_spelt (fold_left hdo cs h)) as G.
  { induction cs as [|c cs IH]; intros h H; [exact H|]. cbn [fold_left]. apply IH.
    destruct c; cbn [hdo]; [now apply spelt_set|now apply spelt_add|now apply spelt_del]. }
  apply G. intros k vs r [].
Qed.

Lemma lines_del r h : In r reserved -> well_spelt h -> lines r (h_del r h) = [].
Proof.
  intros Hr H. apply lines_none. intros k vs Hin Hs. pose proof (del_gone _ _ _ _ Hin) as Hne. apply in_del in Hin.
  destruct (reserved_canonical r Hr) as [_ Hc]. rewrite Hc in Hne. exact (Hne (H k vs r Hin Hr Hs)).
Qed.
Lemma lines_set r v h : In r reserved -> well_spelt h -> lines r (h_set r v h) = [v].
Proof.
  intros Hr H. unfold h_set. rewrite lines_cons, same_canonical, same_refl, lines_del by assumption. reflexivity.
Qed.
Lemma lines_set_other f k v h : same f k = false -> lines f (h_set k v h) = lines f h.
Proof. intros Hf. unfold h_set. rewrite lines_cons, same_canonical, Hf. apply lines_del_other, Hf. Qed.

(* ---------- numbers ---------- *)
Lemma digits_same fuel n acc : digits fuel n acc = digits_fuel fuel n acc.
Proof. revert n acc. induction fuel as [|fuel IH]; intros n acc; cbn [digits digits_fuel]; [reflexivity|]. cbn zeta. rewrite IH. reflexivity. Qed.
Lemma show_number n : 0 <= n <= max_int64 -> number (show n) n.
Proof.
  intros Hn. unfold show. destruct (Z.ltb_spec n 0); [lia|]. rewrite digits_same. exact (print_dec_number n Hn).
Qed.

Lemma range_value_asks rq : sensible rq -> asks (range_value (rq_start rq) (rq_end rq)) (rq_start rq) (rq_end rq).
Proof.
  intros [Hs He]. exists (show (rq_start rq)), (match rq_end rq with Some e => show e | None => [] end).
  split; [reflexivity|]. split; [apply show_number, Hs|].
  destruct (rq_end rq) as [e|]; [|reflexivity]. apply show_number. specialize (He e eq_refl). lia.
Qed.

(* a value is read one way only *)
Lemma digits_dash f f' l l' : Forall (fun b => (48 <= b <= 57)%N) f -> Forall (fun b => (48 <= b <= 57)%N) f' ->
  f ++ 45%N :: l = f' ++ 45%N :: l' -> f = f' /\ l = l'.
Proof.
  revert f'. induction f as [|b f IH]; intros [|b' f'] Hf Hf' E; cbn [app] in E.
  - injection E as ->. split; reflexivity.
  - injection E as <- _. inversion Hf'; subst. lia.
  - injection E as -> _. inversion Hf; subst. lia.
  - injection E as <- E. inversion Hf; inversion Hf'; subst. destruct (IH f') as [-> ->]; auto.
Qed.
Lemma asks_once v a e a' e' : asks v a e -> asks v a' e' -> a = a' /\ e = e'.
Proof.
  intros (f & l & -> & Hf & Hl) (f' & l' & E & Hf' & Hl').
  apply app_inv_head in E. cbn [app] in E. injection E as E.
  destruct (digits_dash f f' l l') as [-> ->]; [apply Hf|apply Hf'|exact E|].
  split; [destruct Hf as (_ & _ & <-); destruct Hf' as (_ & _ & <-); reflexivity|].
  destruct e as [e|], e' as [e'|]; try reflexivity.
  - destruct Hl as (_ & _ & <-); destruct Hl' as (_ & _ & <-); reflexivity.
  - subst l'. destruct Hl as (K & _). congruence.
  - subst l'. destruct Hl' as (K & _). congruence.
Qed.

(* ---------- the whole request ---------- *)
Lemma wire_found h rq : well_spelt h -> sensible rq -> found h rq (wire h rq).
Proof.
  intros H Hq.
  assert (In range_f reserved) as R1 by (left; reflexivity).
  assert (In if_range_f reserved) as R2 by (right; left; reflexivity).
  assert (In accept_f reserved) as R3 by (right; right; left; reflexivity).
  assert (well_spelt (h_del range_f h)) as H1 by now apply spelt_del.
  assert (well_spelt (h_del if_range_f (h_del range_f h))) as H2 by now apply spelt_del.
  assert (well_spelt (new_request h)) as H3 by (unfold new_request; now apply spelt_set).
  set (rv := range_value (rq_start rq) (rq_end rq)).
  set (q := h_set k_range rv (new_request h)).
  assert (well_spelt q) as H4 by now apply spelt_set.
  assert (lines range_f q = [rv]) as Q1 by (apply (lines_set range_f); assumption).
  assert (lines if_range_f q = []) as Q2.
  { unfold q. rewrite lines_set_other by reflexivity. unfold new_request. rewrite lines_set_other by reflexivity.
    apply (lines_del if_range_f); assumption. }
  assert (lines accept_f q = [identity_v]) as Q3.
  { unfold q. rewrite lines_set_other by reflexivity. unfold new_request. apply (lines_set accept_f); assumption. }
  assert (forall f, (forall r, In r reserved -> same f r = false) -> lines f q = lines f h) as Q4.
  { intros f Hf. unfold q, new_request. pose proof (Hf _ R1) as F1. pose proof (Hf _ R2) as F2. pose proof (Hf _ R3) as F3.
    change range_f with k_range in F1. change if_range_f with k_if_range in F2. change accept_f with k_accept in F3.
    rewrite !lines_set_other, !lines_del_other by assumption. reflexivity. }
  unfold found, wire. fold rv. fold q. cbn zeta.
  destruct (rq_ifrange rq) as [|b t] eqn:Ei; cbn [stated].
  - split; [exists rv; split; [exact Q1|now apply range_value_asks]|]. split; [exact Q2|]. split; [exact Q3|exact Q4].
  - split; [exists rv; split; [rewrite lines_set_other by reflexivity; exact Q1|now apply range_value_asks]|].
    split; [apply (lines_set if_range_f); assumption|]. split; [rewrite lines_set_other by reflexivity; exact Q3|].
    intros f Hf. rewrite lines_set_other; [exact (Q4 f Hf)|]. exact (Hf _ R2).
Qed.

(* ---------- every request of a history ---------- *)
Lemma window_sensible v m rq : view_ok v -> in_window v m rq -> sensible rq.
Proof.
  intros [Hb Hl] [Hs He]. unfold section_end in *. split; [lia|]. intros e E. rewrite E in He. lia.
Qed.

Lemma probe_log srv s e s' : probe srv s = (e, s') -> exists a,
  s_log s' = s_log s ++ [({| rq_start := 0; rq_end := Some 0; rq_ifrange := []; rq_stream := false |}, a)].
Proof.
  unfold probe, send. set (rq := {| rq_start := 0; rq_end := Some 0; rq_ifrange := []; rq_stream := false |}).
  set (a := srv (length (s_log s)) rq).
  set (s1 := {| s_meta := s_meta s; s_lane := s_lane s; s_log := s_log s ++ [(rq, a)] |}).
  intros H. exists a.
  assert (s_log s' = s_log s1) as ->; [|reflexivity].
  repeat match type of H with
  | (_, s1) = _ => injection H as _ <-; reflexivity
  | (_, set_meta s1 _) = _ => injection H as _ <-; reflexivity
  | (match ?x with _ => _ end) = _ => destruct x eqn:?
  end.
Qed.

Lemma step_requests srv m0 v s o res s' :
  server_ok srv -> view_ok v -> inv m0 v s -> op_ok o -> hstep srv v s o = (res, s') ->
  exists new, s_log s' = s_log s ++ new /\ Forall (fun p => sensible (fst p)) new.
Proof.
  intros Hsrv Hv Hinv Hok H. destruct o as [len off| |]; cbn [hstep] in H.
  - destruct (read_at srv v s len off) as [[d e] s1] eqn:Er. injection H as <- <-.
    destruct (Z.ltb_spec off 0).
    + unfold read_at in Er. destruct (Z.ltb_spec off 0); [|lia]. injection Er as <- <- <-. exists []. rewrite app_nil_r. auto.
    + destruct Hok as [Hl Ho]. destruct (read_at_spec srv m0 v s len off d e s1 Hsrv Hv Hinv Hl (conj H Ho) Er) as (_ & _ & _ & new & E & _ & Hw).
      exists new. split; [exact E|]. eapply Forall_impl; [|exact Hw]. intros p Hp. exact (window_sensible _ _ _ Hv Hp).
  - destruct (probe srv s) as [e s1] eqn:Er. injection H as <- <-. apply probe_log in Er as [a E].
    eexists. split; [exact E|]. constructor; [|constructor]. unfold sensible. cbn. split; [unfold max_int64; lia|].
    intros x Ex. injection Ex as <-. unfold max_int64; lia.
  - injection H as <- <-. exists []. rewrite app_nil_r. split; [|constructor]. destruct (s_lane s); reflexivity.
Qed.

Lemma run_requests srv m0 v s ops rs s' :
  server_ok srv -> view_ok v -> inv m0 v s -> Forall op_ok ops -> hrun srv v s ops = (rs, s') ->
  Forall (fun p => sensible (fst p)) (s_log s) -> Forall (fun p => sensible (fst p)) (s_log s').
Proof.
  intros Hsrv Hv Hinv Hops. revert s Hinv rs s'. induction Hops as [|o ops Ho Hops IH]; intros s Hinv rs s' H Hl; cbn [hrun] in H.
  - injection H as <- <-. exact Hl.
  - destruct (hstep srv v s o) as [r s1] eqn:E1. destruct (hrun srv v s1 ops) as [rs1 s2] eqn:E2. injection H as <- <-.
    destruct (hstep_spec _ _ _ _ _ _ _ Hsrv Hv Hinv Ho E1) as (A & _).
    destruct (step_requests _ _ _ _ _ _ _ Hsrv Hv Hinv Ho E1) as (new & En & Hn).
    eapply IH; [exact A|exact E2|]. rewrite En. apply Forall_app. split; assumption.
Qed.

Lemma history_wire srv m v s ops rs s1 rq a h :
  server_ok srv -> starts m v s -> Forall op_ok ops -> hrun srv v s ops = (rs, s1) -> In (rq, a) (s_log s1) ->
  well_spelt h -> sensible rq /\ found h rq (wire h rq).
Proof.
  intros Hsrv Hst Hops Hrun Hin Hh. destruct (starts_inv _ _ _ Hst) as (Hv & Hi & Hm & Hl).
  assert (sensible rq) as Hq.
  { pose proof (run_requests _ _ _ _ _ _ _ Hsrv Hv Hi Hops Hrun) as F. rewrite Hl in F. specialize (F (Forall_nil _)).
    rewrite Forall_forall in F. exact (F _ Hin). }
  split; [exact Hq|]. now apply wire_found.
Qed.

(* ---------- the condition ---------- *)
Lemma weak_iff e : weak e = true <-> weak_tag e.
Proof.
  unfold weak_tag. split.
  - destruct e as [|b e]; [discriminate|]. cbn [weak]. destruct b as [|p]; [discriminate|].
    repeat (destruct p as [p|p|]; try discriminate). destruct e as [|c e]; [discriminate|]. destruct c as [|p]; [discriminate|].
    repeat (destruct p as [p|p|]; try discriminate). intros _. exists e. reflexivity.
  - intros [r ->]. reflexivity.
Qed.

Lemma value_condition m : condition m (if_range_value m).
Proof.
  destruct m as [m|]; [|reflexivity]. cbn [condition if_range_value].
  destruct (m_etag m) as [|b t] eqn:E; cbn [stated andb]; [right; split; [left; reflexivity|reflexivity]|].
  destruct (weak (b :: t)) eqn:W; cbn [negb].
  - right. split; [right; apply weak_iff, W|reflexivity].
  - left. split; [discriminate|]. split; [|reflexivity]. intros K. apply weak_iff in K. congruence.
Qed.

Lemma open_log srv v s oe s' : open_stream srv v s = (oe, s') -> exists rq a,
  s_log s' = s_log s ++ [(rq, a)] /\ rq_ifrange rq = if_range_value (s_meta s).
Proof.
  unfold open_stream, send. cbn zeta. intros H.
  match type of H with context [srv (length (s_log s)) ?q] => set (rq := q) in * end.
  set (a := srv (length (s_log s)) rq) in *.
  set (s1 := {| s_meta := s_meta s; s_lane := s_lane s; s_log := s_log s ++ [(rq, a)] |}) in *.
  exists rq, a. split; [|reflexivity].
  assert (s_log s' = s_log s1) as ->; [|reflexivity].
  repeat match type of H with
  | (_, set_lane s1 _) = _ => injection H as _ <-; reflexivity
  | (_, set_lane (set_meta s1 _) _) = _ => injection H as _ <-; reflexivity
  | (match ?x with _ => _ end) = _ => destruct x eqn:?
  end.
Qed.

Lemma bounded_log srv v s len abs d e s' : bounded_read srv v s len abs = (d, e, s') -> exists rq a,
  s_log s' = s_log s ++ [(rq, a)] /\ rq_ifrange rq = if_range_value (s_meta s).
Proof.
  unfold bounded_read, send. cbn zeta. intros H.
  match type of H with context [srv (length (s_log s)) ?q] => set (rq := q) in * end.
  set (a := srv (length (s_log s)) rq) in *.
  set (s1 := {| s_meta := s_meta s; s_lane := s_lane s; s_log := s_log s ++ [(rq, a)] |}) in *.
  exists rq, a. split; [|reflexivity].
  assert (s_log s' = s_log s1) as ->; [|reflexivity].
  repeat match type of H with
  | (_, s1) = _ => injection H as _ _ <-; reflexivity
  | (_, set_meta s1 _) = _ => injection H as _ _ <-; reflexivity
  | (match ?x with _ => _ end) = _ => destruct x eqn:?
  end.
Qed.

Definition if_ranged (m : option meta) (new : list (request * option resp)) : Prop :=
  Forall (fun p => rq_ifrange (fst p) = if_range_value m) new.

Lemma lane_log srv v s len abs r s' : lane_read_at srv v s len abs = (r, s') -> s_meta s = s_meta s' /\ s_log s' = s_log s /\ r = None \/
  exists new, s_log s' = s_log s ++ new /\ if_ranged (s_meta s) new /\ r <> None.
Proof.
  unfold lane_read_at. destruct (s_lane s) as [|pos|b bpos calls pos limit|] eqn:El; intros H.
  - injection H as <- <-. left; auto.
  - destruct (pos =? abs); cbn [negb] in H; [|injection H as <- <-; left; auto].
    destruct (open_stream srv v s) as [oe s1] eqn:Eo. pose proof Eo as Eo'. apply open_log in Eo as (rq & a & Elog & Eif).
    right. exists [(rq, a)].
    assert (forall s2, s_log s2 = s_log s1 -> s_log s2 = s_log s ++ [(rq, a)]) as G by (intros s2 ->; exact Elog).
    destruct oe as [e|].
    + injection H as <- <-. split; [exact Elog|]. split; [repeat constructor; exact Eif|discriminate].
    + assert (exists b bp c p l, s_lane s1 = LOpen b bp c p l) as (b & bp & c & p & l & E1).
      { clear H. unfold open_stream, send in Eo'. cbn zeta in Eo'.
        repeat match type of Eo' with
        | (Some _, _) = _ => discriminate
        | (None, _) = _ => injection Eo' as <-; cbn; do 5 eexists; reflexivity
        | (match ?x with _ => _ end) = _ => destruct x eqn:?
        end. }
      rewrite E1 in H. destruct (stream_loop _ _ _ _ _ _ _ _) as [[acc e] l'] eqn:Es. injection H as <- <-.
      split; [apply G; reflexivity|]. split; [repeat constructor; exact Eif|discriminate].
  - destruct (pos =? abs); cbn [negb] in H; [|injection H as <- <-; left; auto].
    destruct (stream_loop _ _ _ _ _ _ _ _) as [[acc e] l'] eqn:Es. injection H as <- <-.
    right. exists []. rewrite app_nil_r. split; [reflexivity|]. split; [constructor|discriminate].
  - injection H as <- <-. left; auto.
Qed.

Lemma read_log srv v s len off d e s' : read_at srv v s len off = (d, e, s') ->
  exists new, s_log s' = s_log s ++ new /\ if_ranged (s_meta s) new.
Proof.
  unfold read_at. intros H.
  assert (exists new, s_log s = s_log s ++ new /\ if_ranged (s_meta s) new) as G0 by (exists []; rewrite app_nil_r; split; [reflexivity|constructor]).
  destruct (off <? 0); [injection H as _ _ <-; exact G0|].
  destruct (locate v len off) as [[len1 abs]|]; [|injection H as _ _ <-; exact G0].
  cbn zeta in H.
  assert (forall l2, (if l2 =? 0 then ([], HNil, s) else match lane_read_at srv v s l2 abs with
            | (Some (data, e), s1) => (data, e, s1) | (None, s1) => bounded_read srv v s1 l2 abs end) = (d, e, s') ->
          exists new, s_log s' = s_log s ++ new /\ if_ranged (s_meta s) new) as G.
  { clear H. intros l2 H. destruct (l2 =? 0); [injection H as _ _ <-; exact G0|].
    destruct (lane_read_at srv v s l2 abs) as [r s1] eqn:El. apply lane_log in El as [(Em & E & ->)|(new & E & Hn & Hr)].
    - apply bounded_log in H as (rq & a & El & Ei). exists [(rq, a)]. rewrite El, E. split; [reflexivity|].
      repeat constructor. cbn [fst]. rewrite Ei, <- Em. reflexivity.
    - destruct r as [[dd ee]|]; [|congruence]. injection H as _ _ <-. exists new. split; assumption. }
  destruct (known_size (s_meta s)) as [z|]; [|exact (G _ H)].
  destruct (abs >=? z); [injection H as _ _ <-; exact G0|exact (G _ H)].
Qed.

Lemma step_condition srv v s o res s' : hstep srv v s o = (res, s') ->
  exists new, s_log s' = s_log s ++ new /\
    Forall (fun p => match o with OpProbe => rq_ifrange (fst p) = [] | _ => condition (s_meta s) (rq_ifrange (fst p)) end) new.
Proof.
  intros H. destruct o as [len off| |]; cbn [hstep] in H.
  - destruct (read_at srv v s len off) as [[d e] s1] eqn:Er. injection H as <- <-. apply read_log in Er as (new & E & Hn).
    exists new. split; [exact E|]. eapply Forall_impl; [|exact Hn]. cbn beta. intros p ->. apply value_condition.
  - destruct (probe srv s) as [e s1] eqn:Er. injection H as <- <-. apply probe_log in Er as [a E].
    eexists. split; [exact E|]. repeat constructor.
  - injection H as <- <-. exists []. rewrite app_nil_r. split; [|constructor]. destruct (s_lane s); reflexivity.
Qed.

(* ---------- encodings ---------- *)
Lemma find_key k h k' vs : In (k', vs) h -> NoDup (map fst h) -> k' = canonical k -> find (is_key k) h = Some (k', vs).
Proof.
  intros Hin Hnd ->. induction h as [|[k0 vs0] h IH]; [contradiction|]. cbn [find]. unfold is_key at 1. cbn [fst].
  cbn [map fst] in Hnd. inversion Hnd as [|? ? Hn Hd]; subst.
  destruct Hin as [E|Hin].
  - injection E as -> ->. rewrite (proj2 (bytes_eqb_eq _ _) eq_refl). reflexivity.
  - destruct (bytes_eqb k0 (canonical k)) eqn:E; [|exact (IH Hin Hd)].
    apply bytes_eqb_eq in E. subst k0. exfalso. apply Hn. apply in_map_iff. exists (canonical k, vs). split; [reflexivity|exact Hin].
Qed.

Lemma first_line h : received h -> h_get k_content h = match lines content_f h with [] => [] | v :: _ => v end.
Proof.
  intros [Hnd Hin]. unfold h_get.
  destruct (find (is_key k_content) h) as [[k vs]|] eqn:E.
  - apply find_some in E as [Ein Ek]. unfold is_key in Ek. cbn [fst] in Ek. apply bytes_eqb_eq in Ek. change (canonical k_content) with content_f in Ek. subst k.
    destruct (Hin _ _ Ein) as (Hne & _ & _). destruct vs as [|v0 vs]; [congruence|].
    enough (lines content_f h = v0 :: vs) as -> by reflexivity.
    clear Hne. induction h as [|[k0 vs0] h IH]; [contradiction|]. rewrite lines_cons.
    cbn [map fst] in Hnd. inversion Hnd as [|? ? Hn Hd]; subst. destruct Ein as [Eq|Ein].
    + injection Eq as -> ->. rewrite same_refl. rewrite lines_none; [apply app_nil_r|].
      intros k' vs' Hin' Hs. destruct (Hin k' vs' (or_intror Hin')) as (_ & Hk & _). rewrite (Hk Hs) in Hin'.
      apply Hn, in_map_iff. exists (content_f, vs'). split; [reflexivity|exact Hin'].
    + destruct (same content_f k0) eqn:Es.
      * destruct (Hin k0 vs0 (or_introl eq_refl)) as (_ & Hk & _). rewrite (Hk Es) in Hn. exfalso. apply Hn, in_map_iff.
        exists (content_f, v0 :: vs). split; [reflexivity|exact Ein].
      * cbn [app]. apply IH; [exact Hd| |exact Ein]. intros k' vs' Hin'. apply (Hin k' vs'). right; exact Hin'.
  - rewrite lines_none; [reflexivity|]. intros k vs Hi Hs. destruct (Hin k vs Hi) as (_ & Hk & _). specialize (Hk Hs). subst k.
    pose proof (find_none _ _ E _ Hi) as K. unfold is_key in K. cbn [fst] in K.
    change (canonical k_content) with content_f in K. rewrite (proj2 (bytes_eqb_eq _ _) eq_refl) in K. discriminate.
Qed.

Lemma encoding_first un h : received h ->
  encoding_ok un h = true <-> un = false /\ (lines content_f h = [] \/ exists v vs, lines content_f h = v :: vs /\ (v = [] \/ same v identity_v = true)).
Proof.
  intros Hr. unfold encoding_ok. rewrite (first_line h Hr).
  destruct un; [split; [discriminate|intros [K _]; discriminate]|].
  destruct (lines content_f h) as [|v vs]; [split; [auto|reflexivity]|].
  cbn zeta. destruct v as [|b v]; cbn [stated negb orb].
  - split; [intros _; split; [reflexivity|right; exists [], vs; auto]|reflexivity].
  - rewrite bytes_eqb_eq. rewrite (map_ext _ _ to_lower_small).
    assert (map small (b :: v) = v_identity <-> same (b :: v) identity_v = true) as ->.
    { rewrite same_iff. change (map small identity_v) with v_identity. reflexivity. }
    split; [intros K; split; [reflexivity|right; exists (b :: v), vs; auto]|].
    intros [_ [K|(v' & vs' & E & K)]]; [discriminate|]. injection E as <- <-. destruct K as [K|K]; [discriminate|exact K].
Qed.

Lemma small_comma v : In 44%N v -> In 44%N (map small v).
Proof. intros H. apply in_map_iff. exists 44%N. split; [reflexivity|exact H]. Qed.

Lemma one_line_sound h : received h -> (length (lines content_f h) <= 1)%nat -> encoding_ok false h = true -> ~ coded h.
Proof.
  intros Hr Hlen Hok (c & (v & pre & post & w1 & w2 & Hv & Ev & W1 & W2 & Hpre & Hpost & Hc) & (b & Hb & Hnb) & Hne).
  apply (encoding_first false h Hr) in Hok as [_ [E|(v' & vs & E & K)]]; [rewrite E in Hv; contradiction|].
  rewrite E in Hlen, Hv. destruct vs as [|]; [|cbn in Hlen; lia]. destruct Hv as [<-|[]].
  assert (trimmed v') as [T1 T2].
  { destruct Hr as [_ Hr]. assert (In v' (lines content_f h)) as Hin by (rewrite E; left; reflexivity).
    unfold lines in Hin. apply in_concat in Hin as (vs & Hvs & Hin). apply in_map_iff in Hvs as ([k vs'] & E' & Hk). cbn [snd] in E'. subst vs'.
    apply filter_In in Hk as [Hk _]. destruct (Hr k vs Hk) as (_ & _ & F). rewrite Forall_forall in F. exact (F _ Hin). }
  destruct K as [->|K].
  - symmetry in Ev. apply app_eq_nil in Ev as [_ Ev]. apply app_eq_nil in Ev as [_ Ev]. apply app_eq_nil in Ev as [-> _]. contradiction.
  - assert (~ In 44%N v') as Hcm.
    { intros K'. apply small_comma in K'. apply same_iff in K. rewrite K in K'. cbn in K'. repeat (destruct K' as [K'|K']; [discriminate|]). exact K'. }
    assert (pre = []) as ->.
    { destruct Hpre as [->|[p ->]]; [reflexivity|]. exfalso. apply Hcm. rewrite Ev. apply in_or_app. left. apply in_or_app. right. left. reflexivity. }
    assert (post = []) as ->.
    { destruct Hpost as [->|[p ->]]; [reflexivity|]. exfalso. apply Hcm. rewrite Ev. do 4 (apply in_or_app; right). left. reflexivity. }
    cbn [app] in Ev. rewrite app_nil_r in Ev.
    assert (w1 = []) as ->.
    { destruct w1 as [|x w1]; [reflexivity|]. exfalso. inversion W1; subst. exact (T1 x _ eq_refl H1). }
    cbn [app] in Ev.
    assert (w2 = []) as ->.
    { destruct w2 as [|x w2 _] using rev_ind; [reflexivity|]. exfalso. apply Forall_app in W2 as [_ W2]. inversion W2; subst.
      rewrite app_assoc in T2. exact (T2 x _ eq_refl H1). }
    rewrite app_nil_r in Ev. subst v'. congruence.
Qed.

(* ---------- origins and URLs ---------- *)
Lemma colon_cut s s' (r r' : list byte) : ~ In 58%N s -> ~ In 58%N s' -> s ++ 58%N :: r = s' ++ 58%N :: r' -> s = s' /\ r = r'.
Proof.
  revert s'. induction s as [|b s IH]; intros [|b' s'] H H' E; cbn [app] in E.
  - injection E as ->. auto.
  - injection E as <- _. exfalso. apply H'. left; reflexivity.
  - injection E as -> _. exfalso. apply H. left; reflexivity.
  - injection E as <- E. destruct (IH s') as [-> ->]; auto; intros K; [apply H|apply H']; right; exact K.
Qed.
Lemma origins_apart s h s' h' : ~ In 58%N s -> ~ In 58%N s' ->
  origin_of (Some (Some (s, h))) = origin_of (Some (Some (s', h'))) <-> s = s' /\ h = h'.
Proof.
  intros H H'. split; [|intros [-> ->]; reflexivity]. cbn [origin_of app]. intros E.
  apply colon_cut in E as [-> E]; [|assumption|assumption]. injection E as ->. auto.
Qed.
Lemma origin_unstated q : origin_of q = [] <-> (forall s h, q <> Some (Some (s, h))).
Proof.
  destruct q as [[[s h]|]|]; cbn [origin_of]; split; try (intros; discriminate); try reflexivity.
  - intros E. apply app_eq_nil in E as [_ E]. discriminate.
  - intros K. exfalso. exact (K s h eq_refl).
Qed.

Lemma url_accepted parse raw : validate_url parse raw = true <->
  raw <> [] /\ exists scheme host, parse raw = Some (scheme, host) /\ host <> [] /\
    (scheme = [104; 116; 116; 112]%N \/ scheme = [104; 116; 116; 112; 115]%N).
Proof.
  unfold validate_url. destruct raw as [|b raw]; [split; [discriminate|intros [K _]; congruence]|].
  destruct (parse (b :: raw)) as [[s h]|]; [|split; [discriminate|intros (_ & ? & ? & K & _); discriminate]].
  rewrite andb_true_iff, orb_true_iff, !bytes_eqb_eq. split.
  - intros [Hs Hh]. split; [discriminate|]. exists s, h. split; [reflexivity|]. split; [destruct h; discriminate|exact Hs].
  - intros (_ & s' & h' & E & Hh & Hs). injection E as <- <-. split; [exact Hs|]. destruct h; [congruence|reflexivity].
Qed.
