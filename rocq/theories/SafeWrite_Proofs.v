(* Proofs about safe writes. *)
From Verif Require Import Common CommonLemmas ContentRange_Model ContentRange_Proofs PathLex_Model PathLex_Proofs
  TempName_Model TempName_Spec TempName_Proofs SafeWrite_Model SafeWrite_Spec.
Open Scope nat_scope.

Definition keeps_temp {V} (temp : list byte) (env : nat -> names V -> names V) : Prop :=
  forall k w, env k w temp = w temp.

Lemma schain_app {V} env tr1 : forall k (w : names V) w1 tr2 w2,
  schain env k w tr1 w1 -> schain env (k + length tr1) w1 tr2 w2 -> schain env k w (tr1 ++ tr2) w2.
Proof.
  induction tr1 as [|s tr1 IH]; intros k w w1 tr2 w2 H1 H2; inversion H1 as [|? ? b ? ? Hc]; subst.
  - cbn [length app] in *. rewrite Nat.add_0_r in H2. exact H2.
  - cbn [app]. apply sc_cons. apply (IH (S k) b w1); [exact Hc|]. cbn [length] in H2. rewrite Nat.add_succ_r in H2. exact H2.
Qed.

Lemma schain_one {V} env k (w : names V) b : schain env k w [(env k w, b)] b.
Proof. apply sc_cons, sc_nil. Qed.

Lemma only_temp_set {V} temp (a : names V) v : only_temp temp (a, name_set a temp v).
Proof. intros p Hp. cbn [fst snd]. apply name_set_other. exact Hp. Qed.

Lemma last_cons {A} (vs : list A) : forall v d, last (v :: vs) d = last vs v.
Proof. induction vs as [|x vs IH]; intros v d; [reflexivity|]. change (last (x :: vs) d = last (x :: vs) v). rewrite !IH. reflexivity. Qed.

Lemma run_values_spec {V} env temp vs : forall k (w : names V) k' w' tr cur,
  keeps_temp temp env -> w temp = Some cur -> run_values env temp k w vs = (k', w', tr) ->
  schain env k w tr w' /\ Forall (only_temp temp) tr /\ w' temp = Some (last vs cur) /\ k' = k + length tr.
Proof.
  induction vs as [|v vs IH]; intros k w k' w' tr cur He Hw H; cbn [run_values] in H.
  - injection H as <- <- <-. split; [apply sc_nil|]. split; [constructor|]. split; [exact Hw|]. cbn; lia.
  - cbv zeta in H. destruct (run_values env temp (S k) (name_set (env k w) temp (Some v)) vs) as [[k1 w1] tr1] eqn:E.
    injection H as <- <- <-.
    destruct (IH _ _ _ _ _ v He (name_set_same _ _ _) E) as (H1 & H2 & H3 & H4).
    split; [apply sc_cons; exact H1|]. split; [constructor; [apply only_temp_set|exact H2]|].
    split; [rewrite last_cons; exact H3|]. cbn [length]. lia.
Qed.

Lemma run_scripts_spec {V} env temp l : forall k (w : names V) cur o cur' k' w' tr,
  keeps_temp temp env -> w temp = Some cur -> run_scripts env temp k w cur l = (o, cur', k', w', tr) ->
  schain env k w tr w' /\ Forall (only_temp temp) tr /\ w' temp = Some cur' /\ k' = k + length tr /\
  produced cur l = match o with OOk => Some cur' | _ => None end.
Proof.
  induction l as [|s l IH]; intros k w cur o cur' k' w' tr He Hw H; cbn [run_scripts] in H.
  - injection H as <- <- <- <- <-. split; [apply sc_nil|]. split; [constructor|]. split; [exact Hw|]. split; [cbn; lia|reflexivity].
  - cbn [produced]. destruct (s cur) as [vs o1]. cbn [fst snd].
    destruct (run_values env temp k w vs) as [[k1 w1] tr1] eqn:E1.
    destruct (run_values_spec _ _ _ _ _ _ _ _ cur He Hw E1) as (H1 & H2 & H3 & H4).
    destruct o1.
    + destruct (run_scripts env temp k1 w1 (last vs cur) l) as [[[[o2 cur2] k2] w2] tr2] eqn:E2.
      injection H as <- <- <- <- <-. destruct (IH _ _ _ _ _ _ _ _ He H3 E2) as (G1 & G2 & G3 & G4 & G5).
      subst k1. split; [eapply schain_app; eassumption|]. split; [apply Forall_app; auto|]. split; [exact G3|].
      split; [rewrite app_length; lia|exact G5].
    + injection H as <- <- <- <- <-. split; [exact H1|]. split; [exact H2|]. split; [exact H3|]. split; [exact H4|reflexivity].
    + injection H as <- <- <- <- <-. split; [exact H1|]. split; [exact H2|]. split; [exact H3|]. split; [exact H4|reflexivity].
Qed.

Lemma cleanup_spec {V} env temp k (w : names V) cur f w' tr :
  keeps_temp temp env -> w temp = Some cur -> cleanup env temp k w cur f = (w', tr) ->
  schain env k w tr w' /\ Forall (only_temp temp) tr /\ (snd (remove_run f cur) = true -> w' temp = None).
Proof.
  intros He Hw H. unfold cleanup in H. destruct (remove_run f cur) as [vs ok]. cbn [snd].
  destruct (run_values env temp k w vs) as [[k1 w1] tr1] eqn:E.
  destruct (run_values_spec _ _ _ _ _ _ _ _ cur He Hw E) as (H1 & H2 & H3 & H4). destruct ok.
  - cbv zeta in H. injection H as <- <-. subst k1. split; [eapply schain_app; [exact H1|apply schain_one]|].
    split; [apply Forall_app; split; [exact H2|constructor; [apply only_temp_set|constructor]]|].
    intros _. apply name_set_same.
  - injection H as <- <-. split; [exact H1|]. split; [exact H2|discriminate].
Qed.

Lemma safe_operation_shape {V} env temp target (w : names V) v0 pre1 pre2 oper post1 post2 ic f res w' tr :
  keeps_temp temp env -> w temp = Some v0 ->
  safe_operation env temp target w v0 pre1 pre2 oper post1 post2 ic f = (res, w', tr) ->
  schain env 0 w tr w' /\
  run_shape temp target v0 (pre1 ++ pre2 ++ [oper] ++ post1 ++ post2) res w' tr /\
  (res = SErr -> (forall v, snd (remove_run f v) = true) -> w' temp = None) /\
  (res = SPanic -> w' temp <> None).
Proof.
  intros He Hw H. unfold safe_operation in H.
  set (l := pre1 ++ pre2 ++ [oper] ++ post1 ++ post2) in *. clearbody l.
  destruct (run_scripts env temp 0 w v0 l) as [[[[o cur] k] w1] tr1] eqn:E.
  destruct (run_scripts_spec _ _ _ _ _ _ _ _ _ _ _ He Hw E) as (H1 & H2 & H3 & H4 & H5). cbn [Nat.add] in H4. subst k.
  assert (forall r, (let '(w2, tr2) := cleanup env temp (length tr1) w1 cur f in (SErr, w2, tr1 ++ tr2)) = r -> r = (res, w', tr) ->
    schain env 0 w tr w' /\ run_shape temp target v0 l res w' tr /\
    (res = SErr -> (forall v, snd (remove_run f v) = true) -> w' temp = None) /\ (res = SPanic -> w' temp <> None)) as Hc.
  { intros r Hr Hx. destruct (cleanup env temp (length tr1) w1 cur f) as [w2 tr2] eqn:Ec.
    destruct (cleanup_spec _ _ _ _ _ _ _ _ He H3 Ec) as (G1 & G2 & G3). subst r. injection Hx as <- <- <-.
    split; [eapply schain_app; [exact H1|exact G1]|]. split; [apply Forall_app; auto|].
    split; [intros _ Hf; apply G3, Hf|discriminate]. }
  destruct o.
  - destruct (close_fails f && negb ic); [eapply Hc; [reflexivity|exact H]|].
    destruct (rename_fails f); [eapply Hc; [reflexivity|exact H]|].
    cbv zeta in H. injection H as <- <- <-. split; [eapply schain_app; [exact H1|apply schain_one]|].
    split; [|split; discriminate]. exists tr1, (env (length tr1) w1), cur. split; [reflexivity|]. split; [exact H2|].
    split; [exact H5|]. rewrite He. exact H3.
  - eapply Hc; [reflexivity|exact H].
  - injection H as <- <- <-. split; [exact H1|]. split; [split; [exact H2|exact H5]|]. split; [discriminate|]. intros _. congruence.
Qed.

(* ---- alone on the file system ---- *)

Lemma no_env_keeps {V} temp : keeps_temp temp (@no_env V).
Proof. intros k w. reflexivity. Qed.

Lemma quiet_visited {V} temp tr : forall k (w0 w : names V) w',
  schain no_env k w tr w' -> Forall (only_temp temp) tr -> before_publish w0 temp w ->
  Forall (before_publish w0 temp) (visited tr) /\ before_publish w0 temp w'.
Proof.
  induction tr as [|s tr IH]; intros k w0 w w' Hc Hf Hb; inversion Hc as [|? ? b ? ? Hc']; subst.
  - split; [constructor|exact Hb].
  - inversion Hf as [|? ? Hs Hf']; subst. unfold no_env in Hs at 1.
    assert (before_publish w0 temp b) as Hb'.
    { intros p Hp. specialize (Hs p Hp). cbn [fst snd] in Hs. rewrite Hs. apply Hb. exact Hp. }
    destruct (IH _ w0 _ _ Hc' Hf' Hb') as [H1 H2]. split; [|exact H2].
    cbn [visited flat_map app]. constructor; [exact Hb|]. constructor; [exact Hb'|exact H1].
Qed.

Lemma schain_split {V} env tr1 : forall k (w : names V) tr2 w2,
  schain env k w (tr1 ++ tr2) w2 -> exists w1, schain env k w tr1 w1 /\ schain env (k + length tr1) w1 tr2 w2.
Proof.
  induction tr1 as [|s tr1 IH]; intros k w tr2 w2 H.
  - exists w. split; [apply sc_nil|]. cbn [length]. rewrite Nat.add_0_r. exact H.
  - cbn [app] in H. inversion H as [|? ? b ? ? Hc]; subst. destruct (IH _ _ _ _ Hc) as (w1 & H1 & H2).
    exists w1. split; [apply sc_cons; exact H1|]. cbn [length]. rewrite Nat.add_succ_r. exact H2.
Qed.

Lemma visited_app {V} (a b : list (sstep V)) : visited (a ++ b) = visited a ++ visited b.
Proof. unfold visited. apply flat_map_app. Qed.

Lemma publish_after {V} (w0 : names V) temp target a new :
  temp <> target -> before_publish w0 temp a -> a temp = Some new -> after_publish w0 temp target new (publish temp target a).
Proof.
  intros Hne Hb Ha. unfold publish. split; [rewrite name_set_same; exact Ha|].
  split; [rewrite name_set_other by exact Hne; apply name_set_same|].
  intros p H1 H2. rewrite !name_set_other by assumption. apply Hb. exact H1.
Qed.

Lemma safe_operation_quiet {V} temp target (w0 w : names V) v0 pre1 pre2 oper post1 post2 ic f res w' tr :
  temp <> target -> before_publish w0 temp w -> w temp = Some v0 ->
  safe_operation no_env temp target w v0 pre1 pre2 oper post1 post2 ic f = (res, w', tr) ->
  let new := produced v0 (pre1 ++ pre2 ++ [oper] ++ post1 ++ post2) in
  Forall (fun s => before_publish w0 temp s \/ exists v, new = Some v /\ after_publish w0 temp target v s) (visited tr) /\
  match res with
  | SOk => exists v, new = Some v /\ after_publish w0 temp target v w'
  | SErr => before_publish w0 temp w' /\ ((forall v, snd (remove_run f v) = true) -> w' temp = None)
  | SPanic => before_publish w0 temp w' /\ new = None
  end.
Proof.
  intros Hne Hb Hw H. cbv zeta.
  destruct (safe_operation_shape no_env temp target w v0 _ _ _ _ _ _ _ _ _ _ (no_env_keeps temp) Hw H) as (Hc & Hs & Hr & Hp).
  destruct res; cbn [run_shape] in Hs.
  - destruct Hs as (tr' & a & new & -> & Ht & Hn & Ha). destruct (schain_split _ _ _ _ _ _ Hc) as (w1 & H1 & H2).
    destruct (quiet_visited temp tr' _ w0 _ _ H1 Ht Hb) as [Hv Hb1].
    inversion H2 as [|? ? b ? ? H3]; subst. inversion H3; subst. unfold no_env in *.
    pose proof (publish_after w0 temp target w1 new Hne Hb1 Ha) as Hpub.
    split; [|exists new; split; [exact Hn|exact Hpub]].
    rewrite visited_app. apply Forall_app. split; [eapply Forall_impl; [|exact Hv]; intros s Hx; left; exact Hx|].
    cbn. constructor; [left; exact Hb1|]. constructor; [right; exists new; split; [exact Hn|exact Hpub]|constructor].
  - destruct (quiet_visited temp tr _ w0 _ _ Hc Hs Hb) as [Hv Hb1].
    split; [eapply Forall_impl; [|exact Hv]; intros s Hx; left; exact Hx|]. split; [exact Hb1|]. intros Hf. apply Hr; [reflexivity|exact Hf].
  - destruct Hs as [Hs Hn]. destruct (quiet_visited temp tr _ w0 _ _ Hc Hs Hb) as [Hv Hb1].
    split; [eapply Forall_impl; [|exact Hv]; intros s Hx; left; exact Hx|]. split; [exact Hb1|exact Hn].
Qed.

(* ---- the whole call ---- *)

Lemma temp_path_same d ps r : uint32 r -> sepfree (fst ps) -> sepfree (snd ps) -> clean d = d ->
  temp_path d (random_name d ps r) = random_name d ps r.
Proof.
  intros Hr Ha Hb Hd. destruct (random_name_shape d ps r Hr Ha Hb) as [_ Hba]. unfold temp_path. rewrite Hba.
  unfold random_name. destruct d as [|b d]; [destruct (clean_nonempty [] Hd)|reflexivity].
Qed.

(* The created name is one of the random names. *)
Lemma created_is_random {V} env rnd openf d pat (w : names V) n w' tr :
  open_random env rnd openf d pat w = (Created n, w', tr) -> exists ps k, split_pattern pat = Some ps /\ n = random_name d ps (rnd k).
Proof.
  unfold open_random. destruct (split_pattern pat) as [ps|]; [|discriminate].
  intros H. exists ps. revert H. generalize max_attempts at 1 as fuel. generalize 0 as attempt. intros attempt fuel. revert attempt w n w' tr.
  induction fuel as [|fuel IH]; intros attempt w n w' tr H; cbn [or_loop] in H; cbv zeta in H; [discriminate|].
  destruct (openf attempt (env attempt w) _) as [w2 e]. destruct e as [[|c]|].
  - destruct (S attempt <? max_attempts); [|discriminate].
    destruct (or_loop fuel env rnd openf d ps (S attempt) w2) as [[r3 w3] tr3] eqn:E3. injection H as -> _ _.
    eapply IH. exact E3.
  - discriminate.
  - injection H as <- _ _. exists attempt. split; reflexivity.
Qed.

Lemma or_names_eq {V} (f g : names V) : f = g -> forall p, f p = g p.
Proof. intros ->. reflexivity. Qed.

Lemma steps_unchanged_visited {V} (w : names V) tr : forall k w', chain (fun _ x => x) k w tr w' -> Forall unchanged tr ->
  Forall (fun s => s = w) (visited (steps_of tr)).
Proof.
  induction tr as [|[[n a] b] tr IH]; intros k w' Hc Hu; [constructor|].
  inversion Hc as [|? ? ? ? ? ? Hc']; subst. inversion Hu as [|? ? Hx Hu']; subst.
  unfold unchanged in Hx. cbn [fst snd] in Hx. subst b. cbn. constructor; [reflexivity|]. constructor; [reflexivity|].
  eapply IH; eassumption.
Qed.

Lemma safe_write_spec {V} d pat rnd io (fresh : V) name pre1 pre2 oper post1 post2 ic f w res w' tr :
  clean d = d -> (forall k, uint32 (rnd k)) ->
  (forall ps k, split_pattern pat = Some ps -> w (random_name d ps (rnd k)) = None -> random_name d ps (rnd k) <> clean name) ->
  safe_write d pat rnd (open_excl io fresh) fresh name pre1 pre2 oper post1 post2 ic f w = (res, w', tr) ->
  let new := produced fresh (pre1 ++ pre2 ++ [oper] ++ post1 ++ post2) in
  exists temp, w temp = None /\ temp <> clean name /\
  Forall (fun s => before_publish w temp s \/ exists v, new = Some v /\ after_publish w temp (clean name) v s) (visited tr) /\
  match res with
  | SOk => exists v, new = Some v /\ after_publish w temp (clean name) v w'
  | SErr => before_publish w temp w' /\ ((forall v, snd (remove_run f v) = true) -> forall p, w' p = w p)
  | SPanic => before_publish w temp w' /\ new = None
  end \/ (res = SErr /\ w' = w /\ Forall (fun s => s = w) (visited tr)).
Proof.
  intros Hd Hrnd Hdist H. cbv zeta. unfold safe_write in H.
  destruct (open_random no_env rnd (open_excl io fresh) d pat w) as [[ores w1] otr] eqn:Eo.
  change (@no_env V) with (fun (_ : nat) (x : names V) => x) in Eo.
  pose proof (open_file_random_quiet _ _ _ _ _ _ _ _ _ Eo) as Hq.
  pose proof (open_file_random_outcome _ _ _ _ _ _ _ _ _ _ Eo) as Hout.
  destruct (open_random_bounded _ _ _ _ _ _ _ _ _ Eo) as (_ & _ & Hchain & _).
  destruct ores as [n| |c| |].
  2:{ exists []. right. injection H as <- <- <-. split; [reflexivity|]. split; [exact Hq|].
      destruct Hout as [_ Hr]. eapply steps_unchanged_visited; [exact Hchain|eapply all_from_unchanged; exact Hr]. }
  2:{ exists []. right. injection H as <- <- <-. split; [reflexivity|]. split; [exact Hq|].
      destruct Hout as (tr' & n & a & -> & _ & Hr). eapply steps_unchanged_visited; [exact Hchain|].
      apply Forall_app. split; [eapply all_from_unchanged; exact Hr|]. constructor; [reflexivity|constructor]. }
  2:{ exists []. right. injection H as <- <- <-. split; [reflexivity|]. split; [exact Hq|]. cbn in Hout. subst otr. constructor. }
  2:{ destruct Hout. }
  destruct Hq as [Hn Hw1].
  destruct (created_is_random _ _ _ _ _ _ _ _ _ Eo) as (ps & k & Hps & Hnk).
  destruct (split_pattern_sepfree _ _ Hps) as [Ha Hb].
  assert (temp_path d n = n) as Htp by (rewrite Hnk; apply temp_path_same; auto).
  rewrite Htp in H.
  destruct (safe_operation no_env n (clean name) w1 fresh pre1 pre2 oper post1 post2 ic f) as [[r2 w2] tr2] eqn:Es.
  injection H as <- <- <-.
  assert (n <> clean name) as Hne by (rewrite Hnk; apply Hdist; [exact Hps|rewrite <- Hnk; exact Hn]).
  assert (before_publish w n w1) as Hbp by (rewrite Hw1; intros p Hp; apply name_set_other; exact Hp).
  assert (w1 n = Some fresh) as Hwn by (rewrite Hw1; apply name_set_same).
  destruct (safe_operation_quiet n (clean name) w w1 fresh _ _ _ _ _ _ _ _ _ _ Hne Hbp Hwn Es) as [Hv Hres].
  exists n. left. split; [exact Hn|]. split; [exact Hne|]. split.
  - rewrite visited_app. apply Forall_app. split; [|exact Hv].
    destruct Hout as (tr' & a & -> & Hx & Hr). destruct (chain_app _ _ _ _ _ _ Hchain) as (wm & C1 & C2).
    pose proof (chain_quiet_unchanged _ _ _ _ C1 (all_from_unchanged _ _ _ Hr)) as Hwm. subst wm.
    unfold steps_of. rewrite map_app. rewrite visited_app. apply Forall_app. split.
    + eapply Forall_impl; [|exact (steps_unchanged_visited _ _ _ _ C1 (all_from_unchanged _ _ _ Hr))].
      intros s ->. left. intros p _. reflexivity.
    + inversion C2 as [|? ? ? ? ? ? C3]; subst. cbn. constructor; [left; intros p _; reflexivity|].
      constructor; [left; intros p Hp; apply name_set_other; exact Hp|constructor].
  - destruct r2; [exact Hres| |exact Hres]. destruct Hres as [Hb1 Hrm]. split; [exact Hb1|].
    intros Hf p. destruct (bytes_eqb p n) eqn:E; [apply bytes_eqb_eq in E; subst p|].
    + rewrite (Hrm Hf). symmetry. exact Hn.
    + apply Hb1. intros ->. rewrite (proj2 (bytes_eqb_eq n n) eq_refl) in E. discriminate.
Qed.

(* ---- the random policy ---- *)

(* The temporary name differs from the target when the target exists or is not too long. *)
Lemma random_temp_distinct {V} name r ps (w : names V) : uint32 r ->
  split_pattern (policy_pattern name) = Some ps ->
  w (clean name) <> None \/ (base (clean name) = base name /\ (zlen (base name) <= 240)%Z) ->
  w (random_name (random_policy_dir name) ps r) = None -> random_name (random_policy_dir name) ps r <> clean name.
Proof.
  intros Hr Hps [H|[Hb Hl]] Hw E; [rewrite E in Hw; contradiction|].
  destruct (base_cases name) as [Hroot|[Hne Hf]].
  - rewrite (random_policy_root name Hroot) in Hps. discriminate.
  - assert (base name <> [sep]) as Hns by (intros Hx; apply Hf; rewrite Hx; left; reflexivity).
    destruct (policy_split name Hns) as (Hs & Hpf & _). rewrite Hs in Hps. apply some_inj in Hps. subst ps.
    assert (pattern_base name = base name) as Hpb.
    { unfold pattern_base. destruct (Z.ltb_spec max_prefix (zlen (base name))); [unfold max_prefix in *; lia|reflexivity]. }
    assert (sepfree (pattern_base name ++ [dot])) as Hf2.
    { intros Hi. apply in_app_or in Hi. destruct Hi as [Hi|Hi]; [exact (Hpf Hi)|exact (dot_sepfree Hi)]. }
    destruct (random_name_shape (random_policy_dir name) (pattern_base name ++ [dot], tmp_ext) r Hr Hf2 tmp_ext_sepfree) as [_ Hba].
    rewrite E, Hb in Hba. cbn [fst snd] in Hba. rewrite Hpb in Hba.
    apply (f_equal (@length _)) in Hba. rewrite !app_length in Hba. cbn [length] in Hba. lia.
Qed.

Lemma safe_write_random_spec {V} rnd io (fresh : V) name pre1 pre2 oper post1 post2 ic f w res w' tr :
  (forall k, uint32 (rnd k)) ->
  w (clean name) <> None \/ (base (clean name) = base name /\ (zlen (base name) <= 240)%Z) ->
  safe_write_random rnd io fresh name pre1 pre2 oper post1 post2 ic f w = (res, w', tr) ->
  let new := produced fresh (pre1 ++ pre2 ++ [oper] ++ post1 ++ post2) in
  exists temp, w temp = None /\ temp <> clean name /\
  Forall (fun s => before_publish w temp s \/ exists v, new = Some v /\ after_publish w temp (clean name) v s) (visited tr) /\
  match res with
  | SOk => exists v, new = Some v /\ after_publish w temp (clean name) v w'
  | SErr => before_publish w temp w' /\ ((forall v, snd (remove_run f v) = true) -> forall p, w' p = w p)
  | SPanic => before_publish w temp w' /\ new = None
  end \/ (res = SErr /\ w' = w /\ Forall (fun s => s = w) (visited tr)).
Proof.
  intros Hr Hd H. unfold safe_write_random in H. eapply safe_write_spec; [| | |exact H].
  - unfold random_policy_dir. apply clean_dir.
  - exact Hr.
  - intros ps k Hps Hw. eapply random_temp_distinct; eauto.
Qed.

(* ---- the directory policy ---- *)

Lemma dir_temp_distinct {V} td (rnd : nat -> N) (w : names V) name : (forall k, uint32 (rnd k)) -> clean td = td ->
  ~ dir_temp_form (base (clean name)) ->
  forall ps k, split_pattern dir_pattern = Some ps -> w (random_name td ps (rnd k)) = None -> random_name td ps (rnd k) <> clean name.
Proof.
  intros Hr Hd Hn ps k Hps _ E. rewrite dir_split in Hps. apply some_inj in Hps. subst ps. apply Hn. rewrite <- E, <- Hd.
  destruct (dir_policy_name td (rnd k) (Hr k)) as (_ & Hb & _). rewrite Hb.
  exists (random_padded (rnd k)). split; [apply random_padded_digits, Hr|reflexivity].
Qed.

(* Relative to the state with the temporary directory made. *)
Lemma safe_write_dir_spec {V} td io0 (dirv : V) rnd io fresh name pre1 pre2 oper post1 post2 ic f w res w' tr :
  clean td = td -> (forall k, uint32 (rnd k)) -> ~ dir_temp_form (base (clean name)) ->
  safe_write_dir td io0 dirv rnd io fresh name pre1 pre2 oper post1 post2 ic f w = (res, w', tr) ->
  let new := produced fresh (pre1 ++ pre2 ++ [oper] ++ post1 ++ post2) in
  exists w1, (w1 = w \/ (w td = None /\ w1 = name_set w td (Some dirv))) /\
  exists temp, w1 temp = None /\ temp <> clean name /\
  Forall (fun s => s = w \/ before_publish w1 temp s \/ exists v, new = Some v /\ after_publish w1 temp (clean name) v s) (visited tr) /\
  match res with
  | SOk => exists v, new = Some v /\ after_publish w1 temp (clean name) v w'
  | SErr => before_publish w1 temp w' /\ ((forall v, snd (remove_run f v) = true) -> forall p, w' p = w1 p)
  | SPanic => before_publish w1 temp w' /\ new = None
  end \/ (res = SErr /\ w' = w1 /\ Forall (fun s => s = w \/ s = w1) (visited tr)).
Proof.
  intros Hd Hr Hn H. cbv zeta. unfold safe_write_dir in H.
  destruct (make_temp_dir td io0 dirv w) as [w1 e] eqn:Em.
  assert (w1 = w \/ (w td = None /\ w1 = name_set w td (Some dirv))) as Hw1.
  { unfold make_temp_dir in Em. destruct (w td); [injection Em as <- _; left; reflexivity|].
    destruct io0; injection Em as <- _; [left; reflexivity|right; auto]. }
  exists w1. split; [exact Hw1|].
  assert (forall (r : sw_res * names V * list (sstep V)),
    r = (let '(r, w2, tr0) := safe_write td dir_pattern rnd (open_excl io fresh) fresh name pre1 pre2 oper post1 post2 ic f w1 in
    (r, w2, (w, w1) :: tr0)) -> r = (res, w', tr) ->
    exists temp, w1 temp = None /\ temp <> clean name /\
    Forall (fun s => s = w \/ before_publish w1 temp s \/ exists v, produced fresh (pre1 ++ pre2 ++ [oper] ++ post1 ++ post2) = Some v /\ after_publish w1 temp (clean name) v s) (visited tr) /\
    match res with
    | SOk => exists v, produced fresh (pre1 ++ pre2 ++ [oper] ++ post1 ++ post2) = Some v /\ after_publish w1 temp (clean name) v w'
    | SErr => before_publish w1 temp w' /\ ((forall v, snd (remove_run f v) = true) -> forall p, w' p = w1 p)
    | SPanic => before_publish w1 temp w' /\ produced fresh (pre1 ++ pre2 ++ [oper] ++ post1 ++ post2) = None
    end \/ (res = SErr /\ w' = w1 /\ Forall (fun s => s = w \/ s = w1) (visited tr))) as Hgo.
  { intros r E1 E2. destruct (safe_write td dir_pattern rnd (open_excl io fresh) fresh name pre1 pre2 oper post1 post2 ic f w1) as [[r3 w3] tr3] eqn:E3.
    subst r. injection E2 as <- <- <-.
    destruct (safe_write_spec _ _ _ _ _ _ _ _ _ _ _ _ _ _ _ _ _ Hd Hr (dir_temp_distinct td rnd w1 name Hr Hd Hn) E3) as (temp & [(H1 & H2 & H3 & H4)|(H1 & H2 & H3)]).
    - exists temp. left. split; [exact H1|]. split; [exact H2|]. split; [|exact H4].
      cbn [visited flat_map app fst snd]. constructor; [left; reflexivity|]. constructor; [right; left; intros p _; reflexivity|].
      eapply Forall_impl; [|exact H3]. intros s Hs. right. exact Hs.
    - exists temp. right. split; [exact H1|]. split; [exact H2|].
      cbn [visited flat_map app fst snd]. constructor; [left; reflexivity|]. constructor; [right; reflexivity|].
      eapply Forall_impl; [|exact H3]. intros s Hs. right. exact Hs. }
  destruct e as [[|c]|].
  - eapply Hgo; [reflexivity|exact H].
  - exists []. right. injection H as <- <- <-. split; [reflexivity|]. split; [reflexivity|].
    cbn. constructor; [left; reflexivity|]. constructor; [right; reflexivity|constructor].
  - eapply Hgo; [reflexivity|exact H].
Qed.

(* ---- what Copy writes ---- *)

Lemma copy_values_spec chunks wf : forall cur i vs ok, copy_values cur chunks wf i = (vs, ok) ->
  (ok = true -> last vs cur = cur ++ concat chunks) /\
  Forall (fun v => exists p, prefix_of p (concat chunks) /\ v = cur ++ p) vs.
Proof.
  induction chunks as [|c chunks IH]; intros cur i vs ok H; cbn [copy_values] in H.
  - injection H as <- <-. split; [intros _; cbn; rewrite app_nil_r; reflexivity|constructor].
  - destruct (wf i) as [n|].
    + injection H as <- <-. split; [discriminate|]. constructor; [|constructor]. exists (firstn n c). split; [|reflexivity].
      exists (skipn n c ++ concat chunks). cbn [concat]. rewrite app_assoc, firstn_skipn. reflexivity.
    + cbv zeta in H. destruct (copy_values (cur ++ c) chunks wf (S i)) as [vs1 ok1] eqn:E. injection H as <- <-.
      destruct (IH _ _ _ _ E) as [H1 H2]. split.
      * intros Hok. rewrite last_cons. rewrite (H1 Hok). cbn [concat]. rewrite app_assoc. reflexivity.
      * constructor.
        -- exists c. split; [exists (concat chunks); reflexivity|reflexivity].
        -- eapply Forall_impl; [|exact H2]. intros v (p & (q & Hq) & ->). exists (c ++ p). split; [|rewrite app_assoc; reflexivity].
           exists q. cbn [concat]. rewrite Hq, app_assoc. reflexivity.
Qed.

Lemma last_map {A B} (g : A -> B) l d : last (map g l) (g d) = g (last l d).
Proof. induction l as [|x l IH]; [reflexivity|]. destruct l as [|y l]; [reflexivity|]. exact IH. Qed.

Lemma copy_produced chunks eof wf b s v :
  produced (b, s) [copy_script chunks eof wf] = Some v -> eof = true /\ fst v = b ++ concat chunks.
Proof.
  cbn [produced]. unfold copy_script. cbn [fst]. destruct (copy_values b chunks wf 0) as [vs ok] eqn:E. cbn [fst snd].
  destruct (copy_values_spec _ _ _ _ _ _ E) as [H1 _].
  destruct (ok && eof) eqn:Eo; [|discriminate]. apply andb_true_iff in Eo. destruct Eo as [-> ->].
  intros H. apply some_inj in H. subst v. split; [reflexivity|]. specialize (H1 eq_refl).
  destruct vs as [|x vs].
  - cbn [map last]. cbn [last] in H1. exact H1.
  - cbn [map]. rewrite last_cons in H1. rewrite last_cons. rewrite (last_map (fun c => (c, false)) vs x). cbn [fst]. exact H1.
Qed.

(* Safe Copy without hooks. *)
Lemma copy_produced_complete chunks s : exists b', produced ([], s) [copy_script chunks true (fun _ => None)] = Some (concat chunks, b').
Proof.
  cbn [produced]. unfold copy_script. cbn [fst]. destruct (copy_values [] chunks (fun _ => None) 0) as [vs ok] eqn:E. cbn [fst snd].
  assert (ok = true) as ->.
  { clear -E. revert E. generalize 0 as i. generalize (@nil N) as cur. revert vs ok.
    induction chunks as [|c chunks IH]; intros vs ok cur i E; cbn [copy_values] in E; [injection E as _ <-; reflexivity|].
    cbv zeta in E. destruct (copy_values (cur ++ c) chunks (fun _ => None) (S i)) as [vs1 ok1] eqn:E1. injection E as _ <-.
    eapply IH. exact E1. }
  destruct (copy_values_spec _ _ _ _ _ _ E) as [H1 _]. specialize (H1 eq_refl). cbn [app] in H1. cbn [andb].
  destruct vs as [|x vs]; cbn [last map] in *.
  - exists s. rewrite H1. reflexivity.
  - exists false. change (match map (fun b => (b, false)) vs with [] => (x, false) | _ => last (map (fun b => (b, false)) vs) ([], s) end)
      with (last (map (fun b : list byte => (b, false)) (x :: vs)) ([], s)).
    cbn [map]. rewrite last_cons. rewrite (last_map (fun c => (c, false)) vs x).
    change (last (x :: vs) [] = concat chunks) in H1. rewrite last_cons in H1. rewrite H1. reflexivity.
Qed.

(* ---- power loss ---- *)

Lemma produced_app {V} l1 : forall (v : V) l2, produced v (l1 ++ l2) = match produced v l1 with Some u => produced u l2 | None => None end.
Proof. induction l1 as [|s l1 IH]; intros v l2; [reflexivity|]. cbn [app produced]. destruct (snd (s v)); auto. Qed.

Lemma produced_synced l ok v u : produced v (l ++ [sync_hook ok]) = Some u -> snd u = true.
Proof.
  rewrite produced_app. destruct (produced v l) as [x|]; [|discriminate]. cbn [produced]. unfold sync_hook.
  destruct ok; cbn [fst snd last]; [|discriminate]. intros H. apply some_inj in H. subst u. reflexivity.
Qed.

Lemma safe_write_power_loss rnd io fresh name pre1 pre2 oper post1 hooks sync_ok ic f (w : names fileval) res w' tr old :
  (forall k, uint32 (rnd k)) ->
  w (clean name) = old -> (forall c s, old = Some (c, s) -> s = true) ->
  (old <> None \/ (base (clean name) = base name /\ (zlen (base name) <= 240)%Z)) ->
  safe_write_random rnd io fresh name pre1 pre2 oper post1 (hooks ++ [sync_hook sync_ok]) ic f w = (res, w', tr) ->
  forall s s', In s (visited tr) -> power_loss s s' ->
  s' (clean name) = old \/
  exists c, produced fresh (pre1 ++ pre2 ++ [oper] ++ post1 ++ hooks ++ [sync_hook sync_ok]) = Some (c, true) /\
    s' (clean name) = Some (c, true).
Proof.
  intros Hr Hold Hsy Hd H s s' Hs Hp. assert (w (clean name) <> None \/ (base (clean name) = base name /\ (zlen (base name) <= 240)%Z)) as Hd'
    by (destruct Hd as [Hd|Hd]; [left; rewrite Hold; exact Hd|right; exact Hd]).
  assert (forall q, q (clean name) = old -> power_loss q s' -> s' (clean name) = old) as Hq.
  { intros q Hq Hl. specialize (Hl (clean name)). rewrite Hq in Hl. destruct old as [[c b]|]; [|exact Hl].
    rewrite (Hsy c b eq_refl) in *. exact Hl. }
  destruct (safe_write_random_spec _ _ _ _ _ _ _ _ _ _ _ _ _ _ _ Hr Hd' H) as (temp & [(H1 & H2 & H3 & _)|(_ & _ & H3)]);
    rewrite Forall_forall in H3; specialize (H3 s Hs).
  - destruct H3 as [H3|(v & Hv & H3)].
    + left. apply (Hq s); [|exact Hp]. rewrite (H3 (clean name)); [exact Hold|auto].
    + right. destruct v as [c b]. pose proof Hv as Hb. rewrite !app_assoc in Hb. apply produced_synced in Hb. cbn [snd] in Hb. subst b.
      exists c. split; [exact Hv|]. destruct H3 as [H3 _]. specialize (Hp (clean name)). rewrite H3 in Hp. exact Hp.
  - left. apply (Hq s); [|exact Hp]. subst s. exact Hold.
Qed.

(* ---- CopyFs creates its directory with MkdirRandom ---- *)

Lemma or_loop_ext {V} env rnd f g d ps : (forall k (w : names V) n, f k w n = g k w n) -> forall fuel a w,
  or_loop fuel env rnd f d ps a w = or_loop fuel env rnd g d ps a w.
Proof.
  intros He. induction fuel as [|fuel IH]; intros a w; [reflexivity|]. cbn [or_loop]. rewrite He.
  destruct (g a (env a w) (random_name d ps (rnd a))) as [w2 e]. destruct e as [[|c]|]; [|reflexivity..]. rewrite IH. reflexivity.
Qed.

Lemma safe_write_mkdir {V} d pat rnd io (fresh : V) name pre1 pre2 oper post1 post2 ic f w :
  safe_write d pat rnd (mkdir_open io (fun _ => None) fresh) fresh name pre1 pre2 oper post1 post2 ic f w =
  safe_write d pat rnd (open_excl io fresh) fresh name pre1 pre2 oper post1 post2 ic f w.
Proof.
  unfold safe_write, open_random. destruct (split_pattern pat) as [ps|]; [|reflexivity].
  rewrite (or_loop_ext no_env rnd (mkdir_open io (fun _ => None) fresh) (open_excl io fresh)); [reflexivity|].
  intros k w0 n. unfold mkdir_open. destruct (open_excl io fresh k w0 n) as [w1 [e|]]; reflexivity.
Qed.

Lemma safe_write_error {V} rnd io (fresh : V) name pre1 pre2 oper post1 post2 ic f w w' tr :
  (forall k, uint32 (rnd k)) ->
  w (clean name) <> None \/ (base (clean name) = base name /\ (zlen (base name) <= 240)%Z) ->
  safe_write_random rnd io fresh name pre1 pre2 oper post1 post2 ic f w = (SErr, w', tr) ->
  w' (clean name) = w (clean name) /\
  ((forall v, snd (remove_run f v) = true) -> forall p, w' p = w p).
Proof.
  intros Hr Hd H.
  destruct (safe_write_random_spec _ _ _ _ _ _ _ _ _ _ _ _ _ _ _ Hr Hd H) as (temp & [(H1 & H2 & H3 & H4 & H5)|(_ & -> & _)]).
  - split; [apply H4; auto|exact H5].
  - split; [reflexivity|intros _ p; reflexivity].
Qed.

(* Without any condition on the target's name. *)
Lemma safe_write_error_any {V} rnd io (fresh : V) name pre1 pre2 oper post1 post2 ic f w w' tr :
  (forall k, uint32 (rnd k)) -> (forall v, snd (remove_run f v) = true) ->
  safe_write_random rnd io fresh name pre1 pre2 oper post1 post2 ic f w = (SErr, w', tr) ->
  forall p, w' p = w p.
Proof.
  intros Hr Hf H. unfold safe_write_random, safe_write in H.
  destruct (open_random no_env rnd (open_excl io fresh) (random_policy_dir name) (policy_pattern name) w) as [[ores w1] otr] eqn:Eo.
  change (@no_env V) with (fun (_ : nat) (x : names V) => x) in Eo.
  pose proof (open_file_random_quiet _ _ _ _ _ _ _ _ _ Eo) as Hq.
  destruct ores as [n| |c| |]; try (injection H as <- _; rewrite Hq; reflexivity).
  destruct Hq as [Hn Hw1]. destruct (created_is_random _ _ _ _ _ _ _ _ _ Eo) as (ps & k & Hps & Hnk).
  destruct (split_pattern_sepfree _ _ Hps) as [Ha Hb].
  assert (temp_path (random_policy_dir name) n = n) as Htp by (rewrite Hnk; apply temp_path_same; auto; apply clean_dir).
  rewrite Htp in H.
  destruct (safe_operation no_env n (clean name) w1 fresh pre1 pre2 oper post1 post2 ic f) as [[r2 w2] tr2] eqn:Es.
  injection H as -> <- _.
  assert (w1 n = Some fresh) as Hwn by (rewrite Hw1; apply name_set_same).
  destruct (safe_operation_shape _ _ _ _ _ _ _ _ _ _ _ _ _ _ _ (no_env_keeps n) Hwn Es) as (Hc & Hs & Hrm & _).
  cbn [run_shape] in Hs.
  assert (before_publish w n w1) as Hbp by (rewrite Hw1; intros p Hp; apply name_set_other; exact Hp).
  destruct (quiet_visited n tr2 _ w _ _ Hc Hs Hbp) as [_ Hb1].
  intros p. destruct (bytes_eqb p n) eqn:E; [apply bytes_eqb_eq in E; subst p|].
  - rewrite (Hrm eq_refl Hf). symmetry. exact Hn.
  - apply Hb1. intros ->. rewrite (proj2 (bytes_eqb_eq n n) eq_refl) in E. discriminate.
Qed.
