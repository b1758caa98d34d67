From Verif Require Import Common CommonLemmas MultiRead_Model StreamMisc_Model StreamMisc_Spec.
Open Scope nat_scope.

(* ---------- cancellable ---------- *)

Lemma canc_sticky w c e ls :
  ca_err c = Some e ->
  exists xs, canc_run w c ls = (xs, c) /\ Forall2 (fun _ x => x = ([], Some e)) ls xs.
Proof.
  intros He; induction ls as [|l ls IH]; cbn [canc_run]; [exists []; auto|].
  unfold canc_read. rewrite He. destruct IH as (xs & Hr & Hf). rewrite Hr.
  eexists; split; [reflexivity|]. constructor; auto.
Qed.

Lemma canc_run_spec w ls : ctx_monotone w ->
  forall c, ca_err c = None ->
  exists xs c', canc_run w c ls = (xs, c') /\ (ca_calls c <= ca_calls c')%nat /\
    canc_history w ls xs (ca_calls c' - ca_calls c).
Proof.
  intros Hm; induction ls as [|l ls IH]; intros c Hc; cbn [canc_run].
  - exists [], c. split; [reflexivity|]. split; [lia|]. rewrite Nat.sub_diag. constructor.
  - unfold canc_read. rewrite Hc. destruct (cw_ctx w (ca_t c)) as [k|] eqn:Ectx.
    + rewrite (Hm (ca_t c) (S (ca_t c)) k ltac:(lia) Ectx).
      destruct (canc_sticky w (Canc (Some (CCtx k)) (S (S (ca_t c))) (ca_calls c)) (CCtx k) ls eq_refl)
        as (xs & Hr & Hf).
      rewrite Hr. eexists; eexists; split; [reflexivity|]. cbn [ca_calls]. split; [lia|].
      rewrite Nat.sub_diag. eapply CHCancel; eassumption.
    + destruct (cw_read w (S (ca_t c)) l) as [data e] eqn:Er.
      destruct (of_rerr e) as [ce|] eqn:Ee.
      * destruct (canc_sticky w (Canc (Some ce) (S (S (ca_t c))) (S (ca_calls c))) ce ls eq_refl)
          as (xs & Hr & Hf).
        rewrite Hr. eexists; eexists; split; [reflexivity|]. cbn [ca_calls]. split; [lia|].
        replace (S (ca_calls c) - ca_calls c) with 1 by lia. eapply CHSrcErr; eassumption.
      * destruct (IH (Canc None (S (S (ca_t c))) (S (ca_calls c))) eq_refl) as (xs & c' & Hr & Hle & Hh).
        rewrite Hr. eexists; eexists; split; [reflexivity|]. cbn [ca_calls] in *. split; [lia|].
        replace (ca_calls c' - ca_calls c) with (S (ca_calls c' - S (ca_calls c))) by lia.
        eapply CHData; [|exact Hh]. destruct e; try discriminate. exact Er.
Qed.

Lemma canc_new_history w ls : ctx_monotone w ->
  exists xs calls c', canc_run w new_canc ls = (xs, c') /\ ca_calls c' = calls /\
    canc_history w ls xs calls.
Proof.
  intros Hm. destruct (canc_run_spec w ls Hm new_canc eq_refl) as (xs & c' & Hr & Hle & Hh).
  exists xs, (ca_calls c'), c'. split; [exact Hr|]. split; [reflexivity|].
  cbn [new_canc ca_calls] in Hh. now rewrite Nat.sub_0_r in Hh.
Qed.

(* ---------- gather ---------- *)

Definition non_nils (es : list (option gerr)) : list (option gerr) :=
  filter (fun e => match e with Some _ => true | None => false end) es.

Lemma count_non_nil_length es : count_non_nil es = length (non_nils es).
Proof. induction es as [|[e|] es IH]; cbn [count_non_nil non_nils filter length]; auto. Qed.

Lemma fill_spec es pre :
  fill es (length pre) (pre ++ repeat None (count_non_nil es)) = pre ++ non_nils es.
Proof.
  revert pre; induction es as [|[e|] es IH]; intros pre; cbn [fill count_non_nil non_nils filter].
  - reflexivity.
  - cbn [repeat].
    rewrite firstn_app, Nat.sub_diag, firstn_all; cbn [firstn]. rewrite app_nil_r.
    rewrite skipn_app. rewrite skipn_all2 by lia.
    replace (S (length pre) - length pre) with 1 by lia. cbn [skipn app].
    change (pre ++ Some e :: repeat None (count_non_nil es))
      with (pre ++ ([Some e] ++ repeat None (count_non_nil es))).
    rewrite app_assoc.
    replace (S (length pre)) with (length (pre ++ [Some e])) by (rewrite app_length; cbn; lia).
    rewrite IH. rewrite <- app_assoc. reflexivity.
  - apply IH.
Qed.

Lemma all_non_nil_filter es : all_non_nil es = true -> non_nils es = es.
Proof.
  induction es as [|[e|] es IH]; cbn [all_non_nil forallb non_nils filter andb]; intros H;
    try reflexivity; try discriminate. f_equal; auto.
Qed.

Lemma gather_spec es :
  gather es = match non_nils es with [] => None | l => Some (GGathered l) end.
Proof.
  unfold gather. destruct es as [|e es]; [reflexivity|].
  destruct (all_non_nil (e :: es)) eqn:E.
  - rewrite (all_non_nil_filter _ E). reflexivity.
  - pose proof (fill_spec (e :: es) []) as Hf. cbn [length app] in Hf. rewrite Hf.
    destruct (non_nils (e :: es)); reflexivity.
Qed.

Lemma err_is_gathered es code :
  err_is (GGathered es) code = existsb (fun e => opt_is e code) es.
Proof.
  cbn [err_is]. induction es as [|[e|] es IH]; cbn [existsb opt_is]; [reflexivity| |].
  - now rewrite IH. - exact IH.
Qed.

Lemma gather_is es code : opt_is (gather es) code = existsb (fun e => opt_is e code) es.
Proof.
  rewrite gather_spec.
  assert (existsb (fun e => opt_is e code) es = existsb (fun e => opt_is e code) (non_nils es)) as ->.
  { induction es as [|[e|] es IH]; cbn [non_nils filter existsb]; auto.
    fold (non_nils es). now rewrite IH. }
  destruct (non_nils es) as [|e l] eqn:E; [reflexivity|]. cbn [opt_is]. apply err_is_gathered.
Qed.

Lemma gather_nil_iff es : gather es = None <-> Forall (fun e => e = None) es.
Proof.
  rewrite gather_spec. split.
  - intros H. assert (non_nils es = []) as Hn by (destruct (non_nils es); [reflexivity|discriminate]).
    clear H. induction es as [|[e|] es IH]; constructor; auto.
    + cbn [non_nils filter] in Hn; discriminate.
    + cbn [non_nils filter] in Hn; discriminate.
  - intros H; replace (non_nils es) with (@nil (option gerr)); [reflexivity|].
    induction H as [|e es He H IH]; [reflexivity|]. subst e. cbn [non_nils filter]. exact IH.
Qed.

Lemma gather_all es :
  (gather es = None <-> Forall (fun e => e = None) es) /\
  (forall code, opt_is (gather es) code = existsb (fun e => opt_is e code) es).
Proof. split; [apply gather_nil_iff|intros; apply gather_is]. Qed.

(* ---------- close ---------- *)

Fixpoint closer_errs (i : N) (members : list (option (option gerr))) : list (N * option gerr) :=
  match members with
  | [] => []
  | None :: r => closer_errs (N.succ i) r
  | Some e :: r => (i, e) :: closer_errs (N.succ i) r
  end.

Lemma close_loop_spec ms i tr es :
  close_loop i ms tr es = (tr ++ closer_indexes i ms, es ++ closer_errs i ms).
Proof.
  revert i tr es; induction ms as [|[e|] ms IH]; intros i tr es; cbn [close_loop closer_indexes closer_errs].
  - now rewrite !app_nil_r.
  - rewrite IH, <- !app_assoc. reflexivity.
  - apply IH.
Qed.

Lemma closer_errs_fail i ms :
  existsb (fun pe => match snd pe with Some _ => true | None => false end) (closer_errs i ms) = true <->
  Exists member_fails ms.
Proof.
  revert i; induction ms as [|m ms IH]; intros i; cbn [closer_errs].
  - cbn; split; [discriminate|intros H; inversion H].
  - destruct m as [[e|]|]; cbn [existsb snd orb].
    + split; [intros _; left; exact I|reflexivity].
    + rewrite IH. split; [now right|]. intros H; inversion H; subst; [contradiction|assumption].
    + rewrite IH. split; [now right|]. intros H; inversion H; subst; [contradiction|assumption].
Qed.

Lemma closer_errs_is i ms code :
  existsb (fun e => opt_is e code) (map (fun pe => Some (GPrefixed (fst pe) (snd pe))) (closer_errs i ms))
  = existsb (member_is code) ms.
Proof.
  revert i; induction ms as [|m ms IH]; intros i; cbn [closer_errs map existsb]; [reflexivity|].
  destruct m as [[e|]|]; cbn [map existsb member_is fst snd opt_is err_is orb]; rewrite IH; reflexivity.
Qed.

Lemma close_all_spec ms :
  fst (close_all ms) = closer_indexes 0 ms /\
  (snd (close_all ms) = None <-> Forall (fun m => ~ member_fails m) ms) /\
  (forall code, opt_is (snd (close_all ms)) code = existsb (member_is code) ms).
Proof.
  unfold close_all. rewrite close_loop_spec. cbn [app fst snd]. split; [reflexivity|].
  unfold gather_prefixed. pose proof (closer_errs_fail 0 ms) as Hf.
  destruct (existsb _ (closer_errs 0 ms)) eqn:E.
  - split.
    + split; [discriminate|]. intros H. exfalso.
      assert (Exists member_fails ms) as Hex by tauto.
      clear -H Hex. induction Hex as [m ms Hm|m ms Hex IH]; inversion H; subst; auto.
    + intros code. cbn [opt_is]. rewrite err_is_gathered. apply closer_errs_is.
  - assert (~ Exists member_fails ms) as Hne by (intros H; apply Hf in H; discriminate).
    split.
    + split; [intros _|reflexivity]. now apply Forall_Exists_neg.
    + intros code. cbn [opt_is]. symmetry.
      clear -Hne. induction ms as [|m ms IH]; [reflexivity|]. cbn [existsb].
      rewrite IH by (intros H; apply Hne; now right).
      destruct m as [[e|]|]; try reflexivity. exfalso; apply Hne; left; exact I.
Qed.
