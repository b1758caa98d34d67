(* Proofs about the test context. *)
From Coq Require Import String.
From Verif Require Import Common TestCtx_Model TestCtx_Spec.
Open Scope nat_scope.
Open Scope list_scope.

Lemma lines_cons s : lines s <> [].
Proof. destruct s as [|b s]; cbn [lines]; [discriminate|]. destruct (N.eqb b 10); [discriminate|]. destruct (lines s); discriminate. Qed.

Lemma lines_app a b : lines (a ++ 10%N :: b) = lines a ++ lines b.
Proof.
  induction a as [|x a IH]; [reflexivity|]. cbn [app lines]. destruct (N.eqb x 10); [rewrite IH; reflexivity|].
  rewrite IH. pose proof (lines_cons a). destruct (lines a); [contradiction|]. reflexivity.
Qed.

Lemma lines_one s : one_line s -> lines s = [s].
Proof.
  unfold one_line. induction 1 as [|b s Hb _ IH]; [reflexivity|]. cbn [lines]. rewrite IH. apply N.eqb_neq in Hb. rewrite Hb. reflexivity.
Qed.

Lemma one_line_app a b : one_line a -> one_line b -> one_line (a ++ b).
Proof. unfold one_line. intros. apply Forall_app. auto. Qed.

Lemma lines_listing h : forall s, one_line s -> Forall one_line h -> lines (s ++ listing h) = s :: map (fun x => lit "  - " ++ x) h.
Proof.
  induction h as [|x h IH]; intros s Hs Hh.
  - unfold listing. cbn [map concat]. rewrite app_nil_r. apply lines_one. exact Hs.
  - inversion Hh as [|? ? Hx Hh']; subst. change (listing (x :: h)) with ((10%N :: lit "  - " ++ x) ++ listing h).
    rewrite <- app_comm_cons, lines_app, (lines_one s Hs). rewrite (IH (lit "  - " ++ x)).
    + reflexivity.
    + apply one_line_app; [|exact Hx]. unfold one_line, lit. repeat constructor; discriminate.
    + exact Hh'.
Qed.

Lemma show_one_line sh c : (forall a, one_line (sh a)) -> one_line (show sh c).
Proof.
  intros H. assert (one_line (lit "(") /\ one_line (lit ")") /\ one_line (lit ", ")) as (H1 & H2 & H3).
  { unfold one_line, lit. split; [|split]; repeat constructor; discriminate. }
  assert (forall l, one_line (joined (map sh l))) as Hj.
  { induction l as [|a l IH]; [constructor|]. cbn [map joined]. destruct (map sh l) eqn:E; [apply H|]. apply one_line_app; [apply H|]. apply one_line_app; [exact H3|exact IH]. }
  unfold show. destruct (parts c) as [f l] eqn:E. apply one_line_app; [|apply one_line_app; [exact H1|apply one_line_app; [apply Hj|exact H2]]].
  destruct c; cbn [parts] in E; injection E as <- _; unfold one_line; repeat constructor; discriminate.
Qed.

Definition message sh (h : list text) (m : made) : text :=
  show sh (snd (fst m)) ++ why_of m ++ 10%N :: lit "operation history:" ++ listing h.

Lemma ctx_call_spec stops sh fs e c w w' r : c_stopped w = false -> ctx_call stops sh fs e c w = (w', r) ->
  r = fs (c_evs w) c /\ c_evs w' = c_evs w ++ block (e, c, r) /\ c_hist w' = c_hist w ++ [show sh c] /\
  c_stopped w' = stops && unexpected (e, c, r) /\
  c_fatal w' = c_fatal w ++ (if unexpected (e, c, r) then [message sh (c_hist w ++ [show sh c]) (e, c, r)] else []).
Proof.
  intros Hs H. unfold ctx_call, record in H. cbn [c_hist c_evs c_fatal c_stopped] in H.
  assert (forall evs msg, report_failf stops (Ctx (c_hist w ++ [show sh c]) evs (c_fatal w) (c_stopped w)) msg =
    Ctx (c_hist w ++ [show sh c]) evs (c_fatal w ++ [msg ++ 10%N :: lit "operation history:" ++ listing (c_hist w ++ [show sh c])]) stops) as Hrep.
  { intros evs msg. unfold report_failf, fatalf. cbn [c_hist c_evs c_fatal c_stopped]. destruct (c_hist w ++ [show sh c]) as [|x l] eqn:E; [destruct (c_hist w); discriminate|].
    cbn [c_hist c_evs c_fatal c_stopped]. rewrite Hs, orb_false_r. reflexivity. }
  destruct e; destruct (fs (c_evs w) c) as [v|why] eqn:Er.
  - assert ((if opens c then Ctx (c_hist w ++ [show sh c]) ((c_evs w ++ [EvCall c (Ok v)]) ++ [EvClose v]) (c_fatal w) (c_stopped w)
             else Ctx (c_hist w ++ [show sh c]) (c_evs w ++ [EvCall c (Ok v)]) (c_fatal w) (c_stopped w)) =
            Ctx (c_hist w ++ [show sh c]) (c_evs w ++ block (true, c, Ok v)) (c_fatal w) (c_stopped w)) as Hb.
    { destruct c; cbn [opens block]; rewrite <- ?app_assoc; reflexivity. }
    rewrite Hb, Hrep in H. injection H as <- <-. cbn [c_hist c_evs c_fatal c_stopped unexpected]. rewrite andb_true_r.
    repeat split; auto. unfold message. cbn [fst snd why_of]. rewrite <- app_assoc. reflexivity.
  - injection H as <- <-. cbn [c_hist c_evs c_fatal c_stopped unexpected]. rewrite andb_false_r, app_nil_r. repeat split; auto. destruct c; reflexivity.
  - injection H as <- <-. cbn [c_hist c_evs c_fatal c_stopped unexpected]. rewrite andb_false_r, app_nil_r. repeat split; auto.
  - rewrite Hrep in H. injection H as <- <-. cbn [c_hist c_evs c_fatal c_stopped unexpected]. rewrite andb_true_r.
    repeat split; auto. unfold message. cbn [fst snd why_of]. rewrite <- !app_assoc. reflexivity.
Qed.

Lemma message_reports sh before m : (forall a, one_line (sh a)) ->
  reports sh before m (message sh (map (fun x => show sh (snd (fst x))) (before ++ [m])) m).
Proof.
  intros H. split; [eexists; reflexivity|]. unfold message. exists (lines (show sh (snd (fst m)) ++ why_of m)).
  rewrite app_assoc, lines_app. f_equal. rewrite lines_listing.
  - rewrite map_map. reflexivity.
  - unfold one_line, lit. repeat constructor; discriminate.
  - apply Forall_map, Forall_forall. intros x _. apply show_one_line. exact H.
Qed.

Lemma run_spec stops sh fs : (forall a, one_line (sh a)) -> forall l before w w' rs, c_stopped w = false ->
  c_hist w = map (fun x : made => show sh (snd (fst x))) before -> run stops sh fs l w = (w', rs) ->
  exists ms msgs, map fst ms = firstn (length ms) l /\ answered fs (c_evs w) ms /\
    c_evs w' = c_evs w ++ concat (map block ms) /\ c_hist w' = map (fun x => show sh (snd (fst x))) (before ++ ms) /\
    c_fatal w' = c_fatal w ++ msgs /\ all_reported sh before ms msgs /\
    c_stopped w' = stops && existsb unexpected ms /\
    (c_stopped w' = false -> length ms = length l /\ rs = map snd ms) /\
    (c_stopped w' = true -> exists good bad, ms = good ++ [bad] /\ unexpected bad = true /\ existsb unexpected good = false /\ rs = map snd good).
Proof.
  intros Hsh. induction l as [|[e c] l IH]; intros before w w' rs Hs Hh H; cbn [run] in H.
  - injection H as <- <-. exists [], []. rewrite !app_nil_r. cbn. rewrite andb_false_r. repeat split; auto. congruence.
  - destruct (ctx_call stops sh fs e c w) as [w1 r] eqn:E. destruct (ctx_call_spec _ _ _ _ _ _ _ _ Hs E) as (A1 & A2 & A3 & A4 & A5).
    assert (reports sh before (e, c, r) (message sh (c_hist w ++ [show sh c]) (e, c, r))) as Hm.
    { pose proof (message_reports sh before (e, c, r) Hsh) as Hm. rewrite map_app in Hm. rewrite Hh. exact Hm. }
    assert (c_hist w1 = map (fun x : made => show sh (snd (fst x))) (before ++ [(e, c, r)])) as Hh1 by (rewrite A3, Hh, map_app; reflexivity).
    destruct (c_stopped w1) eqn:Es.
    + injection H as <- <-. symmetry in A4. apply andb_prop in A4. destruct A4 as [Hst Hu]. rewrite Hu in A5.
      exists [(e, c, r)], [message sh (c_hist w ++ [show sh c]) (e, c, r)]. cbn [map concat length firstn fst snd existsb answered all_reported]. rewrite Hu, app_nil_r, Es, Hst.
      split; [reflexivity|]. split; [split; [exact A1|exact I]|]. split; [exact A2|]. split; [exact Hh1|]. split; [exact A5|].
      split; [eexists _, []; split; [reflexivity|]; split; [exact Hm|reflexivity]|]. split; [reflexivity|]. split; [discriminate|].
      intros _. exists [], (e, c, r). cbn. auto.
    + destruct (run stops sh fs l w1) as [w2 rs2] eqn:E2. injection H as <- <-.
      destruct (IH _ _ _ _ Es Hh1 E2) as (ms & msgs & B1 & B2 & B3 & B4 & B5 & B6 & B7 & B8 & B9).
      exists ((e, c, r) :: ms), ((if unexpected (e, c, r) then [message sh (c_hist w ++ [show sh c]) (e, c, r)] else []) ++ msgs).
      cbn [map concat length firstn fst snd existsb answered].
      split; [rewrite B1; reflexivity|]. split; [split; [exact A1|rewrite <- A2; exact B2]|].
      split; [rewrite B3, A2, app_assoc; reflexivity|]. split; [rewrite B4, <- app_assoc; reflexivity|].
      split; [rewrite B5, A5, app_assoc; reflexivity|].
      split. { cbn [all_reported]. destruct (unexpected (e, c, r)); cbn [app]; [|exact B6]. eexists _, _. split; [reflexivity|]. split; [exact Hm|exact B6]. }
      split. { rewrite B7. destruct stops; [|reflexivity]. cbn [andb] in *. rewrite <- A4. reflexivity. }
      split. { intros Hf. destruct (B8 Hf) as [C1 C2]. split; [rewrite C1; reflexivity|]. rewrite C2. reflexivity. }
      intros Ht. destruct (B9 Ht) as (good & bad & C1 & C2 & C3 & C4). exists ((e, c, r) :: good), bad. cbn [app existsb map snd].
      split; [rewrite C1; reflexivity|]. split; [exact C2|]. split; [|rewrite C4; reflexivity]. rewrite C3, orb_false_r.
      rewrite B7 in Ht. apply andb_prop in Ht. destruct Ht as [-> _]. symmetry. exact A4.
Qed.

Lemma new_run_spec stops sh fs l w rs : (forall a, one_line (sh a)) -> run stops sh fs l new_ctx = (w, rs) ->
  exists ms, map fst ms = firstn (length ms) l /\ answered fs [] ms /\ c_evs w = concat (map block ms) /\
    all_reported sh [] ms (c_fatal w) /\ c_stopped w = stops && existsb unexpected ms /\
    (c_stopped w = false -> length ms = length l /\ rs = map snd ms) /\
    (c_stopped w = true -> exists good bad, ms = good ++ [bad] /\ unexpected bad = true /\ existsb unexpected good = false /\ rs = map snd good).
Proof.
  intros Hsh H. destruct (run_spec stops sh fs Hsh l [] new_ctx w rs eq_refl eq_refl H) as (ms & msgs & B1 & B2 & B3 & _ & B5 & B6 & B7 & B8 & B9).
  exists ms. cbn [new_ctx c_evs c_fatal app] in *. rewrite B5. auto 10.
Qed.

Lemma all_reported_none sh ms : forall before msgs, all_reported sh before ms msgs ->
  length msgs = length (filter unexpected ms) /\ (msgs = [] <-> existsb unexpected ms = false).
Proof.
  induction ms as [|m ms IH]; intros before msgs H; cbn [all_reported] in H.
  - rewrite H. cbn. split; [reflexivity|]. split; auto.
  - cbn [filter existsb]. destruct (unexpected m).
    + destruct H as (msg & rest & -> & _ & H). destruct (IH _ _ H) as [A _]. cbn [length]. split; [rewrite A; reflexivity|]. split; discriminate.
    + exact (IH _ _ H).
Qed.

Lemma new_run_verdict stops sh fs l w rs : (forall a, one_line (sh a)) -> run stops sh fs l new_ctx = (w, rs) ->
  (c_fatal w = [] -> length rs = length l /\ (forall i e c r, nth_error l i = Some (e, c) -> nth_error rs i = Some r -> unexpected (e, c, r) = false)) /\
  (stops = true -> length (c_fatal w) <= 1) /\
  (c_fatal w <> [] -> stops = true -> length rs < length l).
Proof.
  intros Hsh H. destruct (new_run_spec _ _ _ _ _ _ Hsh H) as (ms & B1 & _ & _ & B4 & B5 & B6 & B7).
  destruct (all_reported_none _ _ _ _ B4) as [N1 N2]. split; [|split].
  - intros Hf. assert (c_stopped w = false) as Hs by (rewrite B5, (proj1 N2 Hf); apply andb_false_r).
    destruct (B6 Hs) as [C1 C2]. split; [rewrite C2, map_length; exact C1|].
    intros i e c r Hi Hr. subst rs. rewrite nth_error_map in Hr. destruct (nth_error ms i) as [[[e0 c0] r0]|] eqn:E; [|discriminate]. injection Hr as <-.
    rewrite C1, firstn_all in B1. rewrite <- B1, nth_error_map, E in Hi. injection Hi as <- <-.
    apply nth_error_In in E. pose proof (proj1 N2 Hf) as Hn. destruct (unexpected (e0, c0, r0)) eqn:Eu; [|reflexivity].
    assert (existsb unexpected ms = true) by (apply existsb_exists; eauto). congruence.
  - intros ->. rewrite N1. destruct (c_stopped w) eqn:Es.
    + destruct (B7 eq_refl) as (good & bad & -> & D2 & D3 & _). clear - D2 D3. induction good as [|g good IH]; cbn [app filter existsb] in *; [rewrite D2; cbn; lia|].
      apply orb_false_elim in D3. destruct D3 as [-> D3]. exact (IH D3).
    + cbn [andb] in B5. symmetry in B5. rewrite <- N1, (proj2 N2 B5). cbn. lia.
  - intros Hf ->. destruct (existsb unexpected ms) eqn:Ex; [|exfalso; apply Hf, N2; reflexivity]. cbn [andb] in B5.
    destruct (B7 B5) as (good & bad & E & _ & _ & ->). rewrite map_length. apply (f_equal (@length _)) in B1. rewrite map_length, firstn_length in B1.
    rewrite E, app_length in B1. cbn [length] in B1. lia.
Qed.

Lemma show_inj sh c d : readable sh -> show sh c = show sh d -> c = d.
Proof.
  intros Hr. assert (forall y, follows (lit ")" ++ y)) as F1 by (intros y; exists y; left; reflexivity).
  assert (forall y, follows (lit ", " ++ y)) as F2 by (intros y; exists y; right; reflexivity).
  assert (forall a b x y, same_kind a b = true -> follows x -> follows y -> sh a ++ x = sh b ++ y -> a = b /\ x = y) as Hp.
  { intros a b x y K X Y E. assert (a = b) as -> by (apply (Hr a b x y); assumption). split; [reflexivity|]. apply app_inv_head in E. exact E. }
  intros H. unfold show in H.
  destruct c; destruct d; cbn [parts] in H; try discriminate H; apply app_inv_head in H; apply app_inv_head in H; cbn [map joined] in H; rewrite <- ?app_assoc in H;
    repeat match type of H with sh ?a ++ ?x = sh ?b ++ ?y =>
      let E := fresh "E" in let H2 := fresh "H2" in
      destruct (Hp a b x y) as [E H2]; [reflexivity|first [apply F2|exact (F1 [])]|first [apply F2|exact (F1 [])]|exact H|];
      clear H; rename H2 into H; try (apply (app_inv_head (lit ", ")) in H) end; congruence.
Qed.

Lemma quote_inj s : forall t x y, concat (map quote1 s) ++ 34%N :: x = concat (map quote1 t) ++ 34%N :: y -> s = t.
Proof.
  assert (forall b c r1 r2, quote1 b ++ r1 = quote1 c ++ r2 -> b = c /\ r1 = r2) as Hq.
  { intros b c r1 r2. unfold quote1.
    destruct (N.eqb_spec b 10), (N.eqb_spec c 10), (N.eqb_spec b 34), (N.eqb_spec c 34), (N.eqb_spec b 92), (N.eqb_spec c 92); cbn [app]; intros H; subst; try congruence; injection H; intros; subst; try congruence; try (split; congruence). }
  assert (forall b r x, quote1 b ++ r = 34%N :: x -> False) as Hn.
  { intros b r x. unfold quote1. destruct (N.eqb_spec b 10), (N.eqb_spec b 34), (N.eqb_spec b 92); cbn [app]; intros H; congruence. }
  induction s as [|b s IH]; intros [|c t] x y H; cbn [map concat] in H; rewrite <- ?app_assoc in H.
  - reflexivity.
  - symmetry in H. destruct (Hn _ _ _ H).
  - destruct (Hn _ _ _ H).
  - destruct (Hq _ _ _ _ H) as [-> H2]. f_equal. exact (IH _ _ _ H2).
Qed.

Lemma unary_inj (a : byte) n : forall m x y, (forall z, x <> a :: z) -> (forall z, y <> a :: z) -> repeat a n ++ x = repeat a m ++ y -> n = m.
Proof.
  induction n as [|n IH]; intros [|m] x y Hx Hy H; cbn [repeat app] in H.
  - reflexivity.
  - destruct (Hx _ H).
  - symmetry in H. destruct (Hy _ H).
  - f_equal. injection H as H. exact (IH _ _ _ Hx Hy H).
Qed.

Lemma follows_not x b : follows x -> (b = 120 \/ b = 49 \/ b = 45)%N -> forall z, x <> b :: z.
Proof. intros (y & [-> | ->]) Hb z H; cbn in H; injection H as H _; lia. Qed.

Lemma signed_inj z z' x y : follows x -> follows y ->
  ((if Z.ltb z 0 then [45%N] else []) ++ repeat 49%N (Z.abs_nat z)) ++ x = ((if Z.ltb z' 0 then [45%N] else []) ++ repeat 49%N (Z.abs_nat z')) ++ y -> z = z'.
Proof.
  intros X Y H. assert (forall n r z0, follows r -> repeat 49%N n ++ r <> 45%N :: z0) as Hs.
  { intros [|n] r z0 R E; cbn in E; [exact (follows_not r 45 R ltac:(auto) z0 E)|discriminate]. }
  pose proof (unary_inj 49%N (Z.abs_nat z) (Z.abs_nat z') x y (follows_not x 49 X ltac:(auto)) (follows_not y 49 Y ltac:(auto))) as Hu.
  destruct (Z.ltb_spec z 0), (Z.ltb_spec z' 0); cbn [app] in H.
  - injection H as H. specialize (Hu H). lia.
  - symmetry in H. destruct (Hs _ _ _ Y H).
  - destruct (Hs _ _ _ X H).
  - specialize (Hu H). lia.
Qed.

Lemma sample_readable : readable sh_sample.
Proof.
  intros a b x y K X Y H. destruct a, b; cbn [same_kind] in K; try discriminate; cbn [sh_sample] in H.
  - f_equal. cbn [app] in H. injection H as H. rewrite <- !app_assoc in H. exact (quote_inj _ _ _ _ H).
  - f_equal. apply unary_inj in H; [lia|apply follows_not; auto|apply follows_not; auto].
  - f_equal. exact (signed_inj _ _ _ _ X Y H).
  - f_equal. exact (signed_inj _ _ _ _ X Y H).
Qed.

Lemma repeat_one_line b n : b <> 10%N -> one_line (repeat b n).
Proof. intros H. unfold one_line. induction n; constructor; auto. Qed.

Lemma sample_one_line a : one_line (sh_sample a).
Proof.
  assert (forall z, one_line ((if Z.ltb z 0 then [45%N] else []) ++ repeat 49%N (Z.abs_nat z))) as Hz.
  { intros z. apply one_line_app; [destruct (Z.ltb z 0); repeat constructor; discriminate|apply repeat_one_line; discriminate]. }
  destruct a; cbn [sh_sample]; [|apply repeat_one_line; discriminate|apply Hz|apply Hz].
  constructor; [discriminate|]. apply one_line_app; [|repeat constructor; discriminate].
  induction s as [|b s IH]; cbn [map concat]; [constructor|]. apply one_line_app; [|exact IH].
  unfold quote1. destruct (N.eqb_spec b 10); [repeat constructor; discriminate|]. destruct (N.eqb b 34); [repeat constructor; discriminate|]. destruct (N.eqb b 92); [repeat constructor; discriminate|].
  repeat constructor. assumption.
Qed.

Lemma report_twice msg : c_fatal (report_failf false new_ctx msg) = [msg; msg ++ 10%N :: lit "operation history:"].
Proof. reflexivity. Qed.
