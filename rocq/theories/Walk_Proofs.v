From Verif Require Import Common CommonLemmas ContentRange_Model ContentRange_Proofs PathLex_Model PathLex_Proofs Views_Spec Walk_Model Walk_Spec.
Open Scope Z_scope.

Lemma wkey_eqb_eq a b : wkey_eqb a b = true <-> a = b.
Proof.
  destruct a, b; cbn; try (split; [discriminate|intros H; discriminate H]).
  - rewrite N.eqb_eq. split; congruence.
  - rewrite bytes_eqb_eq. split; congruence.
Qed.

Lemma existsb_key k l : existsb (wkey_eqb k) l = true <-> In k l.
Proof.
  rewrite existsb_exists. split; [intros (x & Hi & He); apply wkey_eqb_eq in He; subst; exact Hi|]. intros H. exists k. split; [exact H|apply wkey_eqb_eq; reflexivity].
Qed.

(* ---- the deferred functions restore the state ---- *)

Lemma spend_back n st : spend (- n) (spend n st) = st.
Proof. destruct st. unfold spend. cbn. f_equal. lia. Qed.

Lemma record_new fs p r i st st1 : record_visited fs p r i st = (false, st1) ->
  new_key (key_of fs p r i) (vis st) /\ st1 = {| vis := push (key_of fs p r i) (vis st); remaining := remaining st |}.
Proof.
  unfold record_visited. destruct (key_of fs p r i) as [k|]; cbn [new_key push].
  - destruct (existsb (wkey_eqb k) (vis st)) eqn:E; [discriminate|]. intros H. split; [|congruence]. intros Hi. apply existsb_key in Hi. congruence.
  - intros H. split; [exact I|]. destruct st; cbn; congruence.
Qed.
Lemma record_old fs p r i st st1 : record_visited fs p r i st = (true, st1) -> st1 = st /\ exists k, key_of fs p r i = Some k /\ In k (vis st).
Proof.
  unfold record_visited. destruct (key_of fs p r i) as [k|]; [|discriminate]. destruct (existsb (wkey_eqb k) (vis st)) eqn:E; [|discriminate].
  intros H. split; [congruence|]. exists k. split; [reflexivity|]. apply existsb_key. exact E.
Qed.

Lemma remove_pushed fs p r i st : new_key (key_of fs p r i) (vis st) ->
  remove_visited fs p r i {| vis := push (key_of fs p r i) (vis st); remaining := remaining st |} = st.
Proof.
  unfold remove_visited. destruct (key_of fs p r i) as [k|]; cbn [new_key push]; [|destruct st; reflexivity]. intros Hn. cbn [vis remaining filter].
  assert (wkey_eqb k k = true) as -> by (apply wkey_eqb_eq; reflexivity). cbn [negb]. destruct st as [v n]. cbn in *. f_equal.
  induction v as [|x v IH]; [reflexivity|]. cbn. destruct (wkey_eqb k x) eqn:E.
  - exfalso. apply wkey_eqb_eq in E. subst. apply Hn. left. reflexivity.
  - cbn. f_equal. apply IH. intros H. apply Hn. right. exact H.
Qed.

Definition keeps (rec : list byte -> list byte -> winfo -> wst -> list wcall -> wout) : Prop :=
  forall p r i st log l s rt, rec p r i st log = Done l s rt -> s = st.

Lemma done_inj l s r l' s' r' : Done l s r = Done l' s' r' -> l = l' /\ s = s' /\ r = r'.
Proof. intros H. inversion H. auto. Qed.

Lemma children_keeps fs fn rec path real : keeps rec -> forall names st log l s rt,
  walk_children fs fn rec path real names st log = Done l s rt -> s = st.
Proof.
  intros Hk. induction names as [|name names IH]; intros st log l s rt H; cbn [walk_children] in H; [apply done_inj in H; intuition congruence|].
  destruct (w_lstat fs (join2 path name)) as [ci|]; [|cbn [ask] in H; apply done_inj in H; intuition congruence].
  destruct (rec (join2 path name) (child_real real name) ci st log) as [l1 s1 rt1|] eqn:E; [|discriminate]. apply Hk in E. subst s1.
  destruct rt1; [eapply IH; exact H| | |]; apply done_inj in H; intuition congruence.
Qed.

Lemma body_keeps fs fn rec path real i : keeps rec -> forall st log l s rt, walk_body fs fn rec path real i st log = Done l s rt -> s = st.
Proof.
  intros Hk st log l s rt H. unfold walk_body, ask in H. destruct (fn log _); try (apply done_inj in H; intuition congruence).
  destruct (negb (i_dir i)); [apply done_inj in H; intuition congruence|]. destruct (record_visited fs path real i st) as [b st1] eqn:Er. destruct b.
  - apply record_old in Er. apply done_inj in H. intuition congruence.
  - apply record_new in Er. destruct Er as [Hn ->]. destruct (w_readdir fs path) as [names err].
    assert (forall o, after (remove_visited fs path real i) o = Done l s rt -> (forall l' s' r', o = Done l' s' r' -> s' = {| vis := push (key_of fs path real i) (vis st); remaining := remaining st |}) -> s = st) as Hgo.
    { intros [l' s' r'|] Ho Hs; [|discriminate]. cbn [after] in Ho. apply done_inj in Ho. destruct Ho as (_ & <- & _). rewrite (Hs _ _ _ eq_refl). apply remove_pushed. exact Hn. }
    apply (Hgo _ H). intros l' s' r' Ho. destruct err; [|eapply children_keeps; eauto]. destruct (fn _ _) in Ho; try (apply done_inj in Ho; intuition congruence). eapply children_keeps; eauto.
Qed.

Lemma walk_keeps fs follow fn fuel : keeps (walk fs follow fn fuel).
Proof.
  induction fuel as [|f IH]; intros p r i st log l s rt H; [discriminate|]. cbn [walk] in H.
  destruct (follow && i_link i); [|eapply body_keeps; eauto]. destruct (w_stat fs (clean p)) as [i'|]; [|cbn [ask] in H; apply done_inj in H; intuition congruence].
  destruct r as [|b r]; [eapply body_keeps; eauto|]. destruct (w_resolve fs (b :: r) (remaining st)) as [[r'|] n].
  - destruct (walk_body fs fn (walk fs follow fn f) (clean p) r' i' (spend n st) log) as [l' s' rt'|] eqn:E; [|discriminate]. apply body_keeps in E; [|exact IH]. subst s'.
    cbn [after] in H. apply done_inj in H. destruct H as (_ & <- & _). apply spend_back.
  - cbn [ask after] in H. apply done_inj in H. destruct H as (_ & <- & _). apply spend_back.
Qed.

(* ---- one shape for the three outcomes of a place ---- *)

(* The walk below a place, in one step: [o] is its outcome. *)
Definition mkv (p r : list byte) (i : winfo) (st : wst) : visit := {| v_path := clean p; v_real := r; v_info := i; v_chain := vis st; v_left := remaining st |}.

Lemma walk_cases fs follow fn f p r i st log :
  (exists i', broken fs follow (mkv p r i st) i' /\
     walk fs follow fn (S f) p r i st log = Done (log ++ [err_call (clean p) r i']) st (fn log (err_call (clean p) r i'))) \/
  (exists r' i' left, shown fs follow (mkv p r i st) r' i' left /\
     walk fs follow fn (S f) p r i st log =
       after (fun s => {| vis := vis s; remaining := remaining s + (remaining st - left) |})
         (walk_body fs fn (walk fs follow fn f) (clean p) r' i' {| vis := vis st; remaining := left |} log)).
Proof.
  assert (forall o (g : wst -> wst), (forall s, g s = s) -> after g o = o) as Hid by (intros [l s rt|] g Hg; cbn; [rewrite Hg|]; reflexivity).
  cbn [walk]. destruct (follow && i_link i) eqn:Ef.
  - destruct (w_stat fs (clean p)) as [i'|] eqn:Es.
    + destruct r as [|b r].
      * right. exists [], i', (remaining st). split; [apply (SUntold fs follow (mkv p [] i st) i'); try assumption; reflexivity|].
        rewrite Hid by (intros [v n]; cbn; f_equal; lia). destruct st; reflexivity.
      * destruct (w_resolve fs (b :: r) (remaining st)) as [[r'|] n] eqn:Er.
        -- right. exists r', i', (remaining st - n). split; [apply (SLink fs follow (mkv p (b :: r) i st) i' r' n); try assumption; discriminate|].
           unfold spend. replace (fun s : wst => {| vis := vis s; remaining := remaining s + (remaining st - (remaining st - n)) |}) with (fun s : wst => {| vis := vis s; remaining := remaining s + n |}).
           ++ destruct (walk_body _ _ _ _ _ _ _ _); [|reflexivity]. cbn. f_equal. f_equal. lia.
           ++ replace (remaining st - (remaining st - n)) with n by lia. reflexivity.
        -- left. exists (Some i'). split; [apply (BLink fs follow (mkv p (b :: r) i st) i' n); try assumption; discriminate|]. cbn [ask after]. rewrite spend_back. reflexivity.
    + left. exists None. split; [apply BStat; assumption|]. reflexivity.
  - right. exists r, i, (remaining st). split; [apply (SPlain fs follow (mkv p r i st)); exact Ef|]. rewrite Hid by (intros [v n]; cbn; f_equal; lia). destruct st; reflexivity.
Qed.

Lemma after_done f o l s r : after f o = Done l s r -> exists s', o = Done l s' r.
Proof. destruct o as [l' s' r'|]; [|discriminate]. cbn. intros H. apply done_inj in H. destruct H as (-> & _ & ->). eauto. Qed.

(* walk_body in one step. *)
Lemma body_cases fs fn rec path real i st log :
  let c := ok_call path real i in
  let st1 := {| vis := push (key_of fs path real i) (vis st); remaining := remaining st |} in
  let e := err_call path real None in
  (fn log c <> Cont /\ walk_body fs fn rec path real i st log = Done (log ++ [c]) st (match fn log c with SkipDir => if i_dir i then Cont else SkipDir | x => x end)) \/
  (fn log c = Cont /\ i_dir i = false /\ walk_body fs fn rec path real i st log = Done (log ++ [c]) st Cont) \/
  (fn log c = Cont /\ i_dir i = true /\ ~ new_key (key_of fs path real i) (vis st) /\ walk_body fs fn rec path real i st log = Done (log ++ [c]) st Cont) \/
  (fn log c = Cont /\ i_dir i = true /\ new_key (key_of fs path real i) (vis st) /\ snd (w_readdir fs path) = false /\
     walk_body fs fn rec path real i st log = after (remove_visited fs path real i) (walk_children fs fn rec path real (fst (w_readdir fs path)) st1 (log ++ [c]))) \/
  (fn log c = Cont /\ i_dir i = true /\ new_key (key_of fs path real i) (vis st) /\ snd (w_readdir fs path) = true /\ fn (log ++ [c]) e = Cont /\
     walk_body fs fn rec path real i st log = after (remove_visited fs path real i) (walk_children fs fn rec path real (fst (w_readdir fs path)) st1 ((log ++ [c]) ++ [e]))) \/
  (fn log c = Cont /\ i_dir i = true /\ new_key (key_of fs path real i) (vis st) /\ snd (w_readdir fs path) = true /\ fn (log ++ [c]) e <> Cont /\
     walk_body fs fn rec path real i st log = after (remove_visited fs path real i) (Done ((log ++ [c]) ++ [e]) st1 (match fn (log ++ [c]) e with SkipDir => Cont | x => x end))).
Proof.
  cbn zeta. unfold walk_body, ask. change {| c_path := path; c_real := real; c_info := Some i; c_err := false |} with (ok_call path real i).
  change {| c_path := path; c_real := real; c_info := None; c_err := true |} with (err_call path real None).
  destruct (fn log (ok_call path real i)) eqn:E1; try (left; split; [discriminate|reflexivity]). right.
  destruct (i_dir i) eqn:Ed; cbn [negb]; [|left; auto]. right.
  destruct (record_visited fs path real i st) as [b st1] eqn:Er. destruct b.
  - left. apply record_old in Er. destruct Er as (-> & k & Hk & Hi). rewrite Hk. cbn. repeat split. intros Hx. exact (Hx Hi).
  - right. apply record_new in Er. destruct Er as (Hn & ->). destruct (w_readdir fs path) as [names err] eqn:Erd. cbn [fst snd]. destruct err; [right|left; auto].
    destruct (fn (log ++ [ok_call path real i]) (err_call path real None)) eqn:E2; try (right; repeat split; auto; discriminate). left. auto 10.
Qed.

Lemma shown_fun fs follow v r i left r2 i2 left2 : shown fs follow v r i left -> shown fs follow v r2 i2 left2 -> r2 = r /\ i2 = i /\ left2 = left.
Proof.
  intros H1 H2. destruct H1; destruct H2; try congruence; repeat split; try reflexivity; try congruence.
Qed.
Lemma shown_broken fs follow v r i left i2 : shown fs follow v r i left -> broken fs follow v i2 -> False.
Proof. intros H1 H2. destruct H1; destruct H2; congruence. Qed.

(* ---- obeying the callback ---- *)

Lemma obeys_app fn : forall new1 log new2 rt1 rt, obeys fn log new1 rt1 -> carries_on rt1 = true -> obeys fn (log ++ new1) new2 rt -> obeys fn log (new1 ++ new2) rt.
Proof.
  induction new1 as [|c new1 IH]; intros log new2 rt1 rt H1 Hc H2; cbn [obeys app] in *; [rewrite app_nil_r in H2; exact H2|].
  destruct (carries_on (fn log c)) eqn:E.
  - apply (IH _ _ rt1); auto. rewrite <- app_assoc. exact H2.
  - destruct H1 as [_ ->]. congruence.
Qed.
Lemma obeys_one fn log c : obeys fn log [c] (fn log c).
Proof. cbn. destruct (carries_on (fn log c)) eqn:E; auto. Qed.
Lemma obeys_ret fn : forall new log rt rt2, obeys fn log new rt -> carries_on rt = true -> carries_on rt2 = true -> obeys fn log new rt2.
Proof.
  induction new as [|c new IH]; intros log rt rt2 H H1 H2; cbn [obeys] in *; [exact H2|].
  destruct (carries_on (fn log c)) eqn:E; [eapply IH; eauto|]. destruct H as [_ ->]. congruence.
Qed.

Definition obeying fn (rec : list byte -> list byte -> winfo -> wst -> list wcall -> wout) : Prop :=
  forall p r i st log l s rt, rec p r i st log = Done l s rt -> exists new, l = log ++ new /\ obeys fn log new rt.

Lemma children_obey fs fn rec path real : obeying fn rec -> forall names st log l s rt,
  walk_children fs fn rec path real names st log = Done l s rt -> exists new, l = log ++ new /\ obeys fn log new rt.
Proof.
  intros Hk. induction names as [|name names IH]; intros st log l s rt H; cbn [walk_children] in H.
  - apply done_inj in H. destruct H as (<- & _ & <-). exists []. rewrite app_nil_r. split; reflexivity.
  - destruct (w_lstat fs (join2 path name)) as [ci|].
    + destruct (rec (join2 path name) (child_real real name) ci st log) as [l1 s1 rt1|] eqn:E; [|discriminate]. apply Hk in E. destruct E as (n1 & -> & Ho).
      destruct rt1.
      * apply IH in H. destruct H as (n2 & -> & Ho2). exists (n1 ++ n2). split; [symmetry; apply app_assoc|]. eapply obeys_app; eauto.
      * apply done_inj in H. destruct H as (<- & _ & <-). exists n1. split; [reflexivity|]. eapply obeys_ret; eauto.
      * apply done_inj in H. destruct H as (<- & _ & <-). eauto.
      * apply done_inj in H. destruct H as (<- & _ & <-). eauto.
    + cbn [ask] in H. apply done_inj in H. destruct H as (<- & _ & <-). eexists. split; [reflexivity|]. apply obeys_one.
Qed.

Lemma walk_obeys fs follow fn fuel : obeying fn (walk fs follow fn fuel).
Proof.
  induction fuel as [|f IH]; intros p r i st log l s rt H; [discriminate|].
  destruct (walk_cases fs follow fn f p r i st log) as [(i' & _ & E)|(r' & i' & left & _ & E)]; rewrite E in H.
  { apply done_inj in H. destruct H as (<- & _ & <-). eexists. split; [reflexivity|]. apply obeys_one. }
  apply after_done in H. destruct H as (s' & H). clear E. revert H.
  pose proof (body_cases fs fn (walk fs follow fn f) (clean p) r' i' {| vis := vis st; remaining := left |} log) as Hb. cbn zeta in Hb.
  set (c := ok_call (clean p) r' i') in *. set (e := err_call (clean p) r' None) in *.
  assert (forall rt2, fn log c = Cont -> carries_on rt2 = true -> obeys fn log [c] rt2) as Hc by (intros rt2 E1 E2; cbn; rewrite E1; exact E2).
  destruct Hb as [(H1 & ->)|[(H1 & _ & ->)|[(H1 & _ & _ & ->)|[(H1 & _ & _ & _ & ->)|[(H1 & _ & _ & _ & H2 & ->)|(H1 & _ & _ & _ & H2 & ->)]]]]]; intros H.
  - apply done_inj in H. destruct H as (<- & _ & <-). exists [c]. split; [reflexivity|]. destruct (fn log c) eqn:Ec; [congruence| | |].
    + apply (obeys_ret fn [c] log (fn log c)); [apply obeys_one|rewrite Ec; reflexivity|destruct (i_dir i'); reflexivity].
    + rewrite <- Ec. apply obeys_one.
    + rewrite <- Ec. apply obeys_one.
  - apply done_inj in H. destruct H as (<- & _ & <-). exists [c]. auto.
  - apply done_inj in H. destruct H as (<- & _ & <-). exists [c]. auto.
  - apply after_done in H. destruct H as (s2 & H). apply (children_obey _ _ _ _ _ IH) in H. destruct H as (n2 & -> & Ho). exists (c :: n2).
    split; [rewrite <- app_assoc; reflexivity|]. apply (obeys_app fn [c] log n2 Cont); auto.
  - apply after_done in H. destruct H as (s2 & H). apply (children_obey _ _ _ _ _ IH) in H. destruct H as (n2 & -> & Ho). exists (c :: e :: n2).
    split; [rewrite <- !app_assoc; reflexivity|]. apply (obeys_app fn [c] log (e :: n2) Cont); auto. apply (obeys_app fn [e] (log ++ [c]) n2 Cont); auto. cbn. rewrite H2. reflexivity.
  - apply after_done in H. destruct H as (s2 & H). apply done_inj in H. destruct H as (<- & _ & <-). exists [c; e].
    split; [rewrite <- app_assoc; reflexivity|]. apply (obeys_app fn [c] log [e] Cont); auto. destruct (fn (log ++ [c]) e) eqn:Ee; [congruence| | |].
    + apply (obeys_ret fn [e] (log ++ [c]) (fn (log ++ [c]) e)); [apply obeys_one|rewrite Ee; reflexivity|reflexivity].
    + rewrite <- Ee. apply obeys_one.
    + rewrite <- Ee. apply obeys_one.
Qed.

(* ---- once per path ---- *)

Lemma elems_clean p : elems (clean p) = elems p.
Proof. unfold elems. rewrite rooted_clean. unfold clean. apply comps_render. apply clean_normal. Qed.

Lemma elems_child p c : clean p = p -> proper c -> elems (join2 p c) = elems p ++ [c].
Proof.
  intros Hp Hc. assert (p <> []) as Hne by (rewrite <- Hp; apply clean_nonempty). rewrite join2_app_child by assumption.
  unfold elems at 1. rewrite rooted_render by (apply normal_snoc; [apply clean_normal|exact Hc]). rewrite comps_render by (apply normal_snoc; [apply clean_normal|exact Hc]). reflexivity.
Qed.
Lemma clean_join2 p c : p <> [] -> clean (join2 p c) = join2 p c.
Proof. intros Hp. unfold join2. destruct p; [contradiction|]. apply clean_idem. Qed.

Definition under (l : list (list byte)) (q : list byte) : Prop := exists t, elems q = l ++ t.

Definition tidy_walk (l : list (list byte)) (new : list wcall) : Prop :=
  Forall (under l) (succeeded new) /\ NoDup (map elems (succeeded new)).

Lemma succeeded_app a b : succeeded (a ++ b) = succeeded a ++ succeeded b.
Proof. unfold succeeded. rewrite filter_app, map_app. reflexivity. Qed.

Lemma under_weaken l c q : under (l ++ c) q -> under l q.
Proof. intros (t & E). exists (c ++ t). rewrite E, app_assoc. reflexivity. Qed.

Lemma NoDup_app_intro {A} (a b : list A) : NoDup a -> NoDup b -> (forall x, In x a -> In x b -> False) -> NoDup (a ++ b).
Proof.
  intros Ha Hb Hd. induction a as [|x a IH]; [exact Hb|]. inversion Ha; subst. cbn. constructor.
  - rewrite in_app_iff. intros [H|H]; [contradiction|]. apply (Hd x); [left; reflexivity|exact H].
  - apply IH; [assumption|]. intros y Hy1 Hy2. apply (Hd y); [right; exact Hy1|exact Hy2].
Qed.

Definition tidy_rec (rec : list byte -> list byte -> winfo -> wst -> list wcall -> wout) : Prop :=
  forall p r i st log l s rt, rec p r i st log = Done l s rt -> exists new, l = log ++ new /\ tidy_walk (elems p) new.

(* The calls made by the loop: each below one of the names. *)
Lemma children_tidy fs fn rec path real : tidy_rec rec -> clean path = path -> forall names st log l s rt,
  Forall proper names -> NoDup names -> walk_children fs fn rec path real names st log = Done l s rt ->
  exists new, l = log ++ new /\ Forall (fun q => exists n, In n names /\ under (elems path ++ [n]) q) (succeeded new) /\ NoDup (map elems (succeeded new)).
Proof.
  intros Hk Hp. induction names as [|name names IH]; intros st log l s rt Hpr Hnd H; cbn [walk_children] in H.
  - apply done_inj in H. destruct H as (<- & _ & <-). exists []. rewrite app_nil_r. repeat split; constructor.
  - inversion Hpr as [|? ? Hn Hpr']; subst. inversion Hnd as [|? ? Hni Hnd']; subst. destruct (w_lstat fs (join2 path name)) as [ci|].
    + destruct (rec (join2 path name) (child_real real name) ci st log) as [l1 s1 rt1|] eqn:E; [|discriminate]. apply Hk in E. destruct E as (n1 & -> & Hu & Hd).
      rewrite elems_child in Hu by assumption.
      assert (Forall (fun q => exists n, In n (name :: names) /\ under (elems path ++ [n]) q) (succeeded n1)) as Hu1.
      { eapply Forall_impl; [|exact Hu]. intros q Hq. exists name. split; [left; reflexivity|exact Hq]. }
      destruct rt1; try (apply done_inj in H; destruct H as (<- & _ & <-); exists n1; auto).
      apply IH in H; [|assumption|assumption]. destruct H as (n2 & -> & Hu2 & Hd2). exists (n1 ++ n2). split; [symmetry; apply app_assoc|]. rewrite succeeded_app, map_app. split.
      * apply Forall_app. split; [exact Hu1|]. eapply Forall_impl; [|exact Hu2]. intros q (n & Hi & Hq). exists n. split; [right; exact Hi|exact Hq].
      * apply NoDup_app_intro; [exact Hd|exact Hd2|]. intros x H1 H2. apply in_map_iff in H1, H2. destruct H1 as (q1 & <- & H1). destruct H2 as (q2 & E2 & H2).
        rewrite Forall_forall in Hu, Hu2. destruct (Hu _ H1) as (t1 & Et1). destruct (Hu2 _ H2) as (n & Hi & t2 & Et2). rewrite Et1, Et2 in E2. rewrite <- !app_assoc in E2.
        apply app_inv_head in E2. cbn in E2. inversion E2; subst. contradiction.
    + cbn [ask] in H. apply done_inj in H. destruct H as (<- & _ & <-). eexists. split; [reflexivity|]. cbn. split; constructor.
Qed.

Lemma walk_tidy fs follow fn fuel : proper_listings fs -> tidy_rec (walk fs follow fn fuel).
Proof.
  intros Hpl. induction fuel as [|f IH]; intros p r i st log l s rt H; [discriminate|].
  destruct (walk_cases fs follow fn f p r i st log) as [(i' & _ & E)|(r' & i' & left & _ & E)]; rewrite E in H.
  { apply done_inj in H. destruct H as (<- & _ & <-). eexists. split; [reflexivity|]. split; constructor. }
  apply after_done in H. destruct H as (s' & H). clear E. revert H.
  pose proof (body_cases fs fn (walk fs follow fn f) (clean p) r' i' {| vis := vis st; remaining := left |} log) as Hb. cbn zeta in Hb.
  set (c := ok_call (clean p) r' i') in *. set (e := err_call (clean p) r' None) in *.
  assert (forall es n2, succeeded es = [] -> Forall (fun q => exists n, In n (fst (w_readdir fs (clean p))) /\ under (elems (clean p) ++ [n]) q) (succeeded n2) ->
            NoDup (map elems (succeeded n2)) -> tidy_walk (elems p) (c :: es ++ n2)) as Hcons.
  { intros es n2 Hes Hu Hd. unfold tidy_walk. change (c :: es ++ n2) with ([c] ++ es ++ n2). rewrite !succeeded_app, Hes. cbn. split.
    - constructor; [exists []; rewrite app_nil_r; apply elems_clean|]. eapply Forall_impl; [|exact Hu]. intros q (n & _ & Hq). rewrite elems_clean in Hq. eapply under_weaken. exact Hq.
    - constructor; [|exact Hd]. intros Hi. apply in_map_iff in Hi. destruct Hi as (q & Eq & Hi). rewrite Forall_forall in Hu. destruct (Hu _ Hi) as (n & _ & t & Et).
      assert (elems q = elems (clean p)) as Eq2 by exact Eq. rewrite Et, <- app_assoc in Eq2. apply (f_equal (@length _)) in Eq2. rewrite app_length in Eq2. cbn in Eq2. lia. }
  assert (tidy_walk (elems p) [c]) as H0 by (apply (Hcons [] []); [reflexivity|constructor|constructor]).
  assert (tidy_walk (elems p) [c; e]) as H0e by (apply (Hcons [e] []); [reflexivity|constructor|constructor]).
  destruct (Hpl (clean p)) as [Hpr Hnd].
  destruct Hb as [(H1 & ->)|[(H1 & _ & ->)|[(H1 & _ & _ & ->)|[(H1 & _ & _ & _ & ->)|[(H1 & _ & _ & _ & H2 & ->)|(H1 & _ & _ & _ & H2 & ->)]]]]]; intros H.
  - apply done_inj in H. destruct H as (<- & _ & _). eauto.
  - apply done_inj in H. destruct H as (<- & _ & _). eauto.
  - apply done_inj in H. destruct H as (<- & _ & _). eauto.
  - apply after_done in H. destruct H as (s2 & H). apply (children_tidy _ _ _ _ _ IH (clean_idem p)) in H; [|assumption|assumption]. destruct H as (n2 & -> & Hu & Hd).
    exists (c :: n2). split; [rewrite <- app_assoc; reflexivity|]. apply (Hcons [] n2); auto.
  - apply after_done in H. destruct H as (s2 & H). apply (children_tidy _ _ _ _ _ IH (clean_idem p)) in H; [|assumption|assumption]. destruct H as (n2 & -> & Hu & Hd).
    exists (c :: e :: n2). split; [rewrite <- !app_assoc; reflexivity|]. apply (Hcons [e] n2); auto.
  - apply after_done in H. destruct H as (s2 & H). apply done_inj in H. destruct H as (<- & _ & _). exists [c; e]. split; [rewrite <- app_assoc; reflexivity|exact H0e].
Qed.

(* ---- termination ---- *)

Lemma real_below_is r name : child_real r name = real_below r name.
Proof. destruct r; reflexivity. Qed.

Lemma desc_trans fs follow enter a b c : desc fs follow enter a b -> desc fs follow enter b c -> desc fs follow enter a c.
Proof. intros H. revert c. induction H as [|v v1 v2 Hc Hd IH]; intros c H2; [exact H2|]. eapply DChild; [exact Hc|]. apply IH. exact H2. Qed.
Lemma reachable_child fs follow enter root v v1 : reachable fs follow enter root v -> child_of fs follow enter v v1 -> reachable fs follow enter root v1.
Proof. intros (i & Hl & Hd) Hc. exists i. split; [exact Hl|]. eapply desc_trans; [exact Hd|]. eapply DChild; [exact Hc|constructor]. Qed.

Lemma after_fuel f o : after f o = OutOfFuel -> o = OutOfFuel.
Proof. destruct o; [discriminate|reflexivity]. Qed.

Lemma children_fuel fs fn rec path real st names : keeps rec ->
  (forall name ci log, In name names -> w_lstat fs (join2 path name) = Some ci -> rec (join2 path name) (child_real real name) ci st log <> OutOfFuel) ->
  forall log, walk_children fs fn rec path real names st log <> OutOfFuel.
Proof.
  intros Hk. induction names as [|name names IH]; intros Hrec log; cbn [walk_children]; [discriminate|].
  destruct (w_lstat fs (join2 path name)) as [ci|] eqn:El; [|cbn [ask]; discriminate].
  pose proof (Hrec name ci log (or_introl eq_refl) El) as Hr. destruct (rec (join2 path name) (child_real real name) ci st log) as [l1 s1 rt1|] eqn:E; [|congruence].
  apply Hk in E. subst s1. destruct rt1; try discriminate. apply IH. intros n c l Hi. apply Hrec. right. exact Hi.
Qed.

Lemma walk_fuel fs follow fn root D : keyed fs follow root D ->
  forall f p r i st log, reachable fs follow (fun _ => true) root (mkv p r i st) -> NoDup (vis st) -> incl (vis st) D -> (length D < f + length (vis st))%nat ->
  walk fs follow fn f p r i st log <> OutOfFuel.
Proof.
  intros HD. induction f as [|f IH]; intros p r i st log Hre Hnd Hin Hf.
  - exfalso. pose proof (NoDup_incl_length Hnd Hin). lia.
  - destruct (walk_cases fs follow fn f p r i st log) as [(i' & _ & ->)|(r' & i' & left & Hs & ->)]; [discriminate|]. intros H. apply after_fuel in H. revert H.
    pose proof (body_cases fs fn (walk fs follow fn f) (clean p) r' i' {| vis := vis st; remaining := left |} log) as Hb. cbn zeta in Hb.
    set (c := ok_call (clean p) r' i') in *. set (e := err_call (clean p) r' None) in *.
    assert (i_dir i' = true -> new_key (key_of fs (clean p) r' i') (vis st) -> forall l,
      walk_children fs fn (walk fs follow fn f) (clean p) r' (fst (w_readdir fs (clean p))) {| vis := push (key_of fs (clean p) r' i') (vis st); remaining := left |} l <> OutOfFuel) as Hch.
    { intros Hdir Hnew l. apply children_fuel; [apply walk_keeps|]. intros name ci lg Hi Hl.
      destruct (HD _ _ _ _ Hre Hs Hdir) as (k & Hk & HkD). change (v_path (mkv p r i st)) with (clean p) in Hk. rewrite Hk in *. cbn [push new_key] in *. apply IH.
      - eapply reachable_child; [exact Hre|]. apply in_split in Hi as (pre & post & Hsp). pose proof (Child fs follow (fun _ => true) (mkv p r i st) r' i' left pre name post ci) as HC. cbn [v_path v_chain mkv] in HC. unfold entry_of at 2 in HC. cbn [v_path v_chain mkv] in HC. rewrite Hk in HC. cbn [push] in HC.
        unfold mkv at 2. cbn [vis remaining]. rewrite real_below_is. apply HC; [|reflexivity|exact Hsp| |exact Hl].
        { repeat split; try assumption. cbn. rewrite Hk. exact Hnew. }
        { intros n nci _ _ [(? & ? & ? & _ & _ & X)|(? & _ & X)]; discriminate X. }
      - cbn. constructor; assumption.
      - cbn. intros x [<-|Hx]; auto.
      - cbn. lia. }
    cbn [vis remaining] in *.
    destruct Hb as [(H1 & ->)|[(H1 & _ & ->)|[(H1 & _ & _ & ->)|[(H1 & Hd & Hn & _ & ->)|[(H1 & Hd & Hn & _ & H2 & ->)|(H1 & _ & _ & _ & H2 & ->)]]]]]; try discriminate.
    + intros H. apply after_fuel in H. exact (Hch Hd Hn _ H).
    + intros H. apply after_fuel in H. exact (Hch Hd Hn _ H).
Qed.

(* ---- exactness ---- *)

Definition below_reports fs follow enter (v : visit) (c : wcall) : Prop := exists v', desc fs follow enter v v' /\ reports fs follow enter v' c.

Lemma below_inv fs follow enter v c : below_reports fs follow enter v c <->
  reports fs follow enter v c \/ exists v1, child_of fs follow enter v v1 /\ below_reports fs follow enter v1 c.
Proof.
  split.
  - intros (v' & Hd & Hr). destruct Hd as [|v1 v2 Hc Hd]; [left; exact Hr|]. right. exists v1. split; [exact Hc|]. exists v2. auto.
  - intros [Hr|(v1 & Hc & v' & Hd & Hr)]; [exists v; split; [constructor|exact Hr]|]. exists v'. split; [eapply DChild; eauto|exact Hr].
Qed.

Definition pure (d : wcall -> wret) : list wcall -> wcall -> wret := fun _ c => d c.

(* What the rest of a listing gives rise to. *)
Definition rest_reports fs follow enter (v : visit) r i left (names : list (list byte)) (c : wcall) : Prop :=
  exists pre name post ci, names = pre ++ name :: post /\
    (forall n nci, In n pre -> w_lstat fs (join2 (v_path v) n) = Some nci -> ~ cuts fs follow enter (entry_of fs v r i left n nci)) /\
    w_lstat fs (join2 (v_path v) name) = Some ci /\ below_reports fs follow enter (entry_of fs v r i left name ci) c.

Definition exact_at fs follow d root f : Prop :=
  forall p r i st log l s rt, walk fs follow (pure d) f p r i st log = Done l s rt -> reachable fs follow (enters d) root (mkv p r i st) ->
  (rt = Cont /\ ~ cuts fs follow (enters d) (mkv p r i st) \/ rt = SkipDir /\ cuts fs follow (enters d) (mkv p r i st)) /\
  exists new, l = log ++ new /\ forall c, In c new <-> below_reports fs follow (enters d) (mkv p r i st) c.

Lemma children_exact fs follow d root f : steady fs follow (enters d) root -> exact_at fs follow d root f ->
  forall v r i left, reachable fs follow (enters d) root v -> entered fs follow (enters d) v r i left ->
  (snd (w_readdir fs (v_path v)) = true -> enters d (err_call (v_path v) r None) = true) ->
  forall names seen st log l s rt, fst (w_readdir fs (v_path v)) = seen ++ names ->
  (forall n nci, In n seen -> w_lstat fs (join2 (v_path v) n) = Some nci -> ~ cuts fs follow (enters d) (entry_of fs v r i left n nci)) ->
  vis st = push (key_of fs (v_path v) r i) (v_chain v) -> remaining st = left ->
  walk_children fs (pure d) (walk fs follow (pure d) f) (v_path v) r names st log = Done l s rt ->
  rt = Cont /\ exists new, l = log ++ new /\ forall c, In c new <-> rest_reports fs follow (enters d) v r i left names c.
Proof.
  intros Hst IH v r i left Hre Hen Herr. induction names as [|name names IHn]; intros seen st log l s rt Hsp Hseen Hv Hl H; cbn [walk_children] in H.
  - apply done_inj in H. destruct H as (<- & _ & <-). split; [reflexivity|]. exists []. rewrite app_nil_r. split; [reflexivity|]. intros c. split; [intros []|intros (pre & n & post & ci & E & _)]. destruct pre; discriminate.
  - assert (In name (fst (w_readdir fs (v_path v)))) as Hin by (rewrite Hsp; apply in_or_app; right; left; reflexivity).
    destruct (w_lstat fs (join2 (v_path v) name)) as [ci|] eqn:El; [|exfalso; exact (Hst v r i left name Hre Hen Hin El)].
    destruct (walk fs follow (pure d) f (join2 (v_path v) name) (child_real r name) ci st log) as [l1 s1 rt1|] eqn:E; [|discriminate].
    pose proof (walk_keeps _ _ _ _ _ _ _ _ _ _ _ _ E) as ->.
    assert (mkv (join2 (v_path v) name) (child_real r name) ci st = entry_of fs v r i left name ci) as Emk by (unfold mkv, entry_of; rewrite Hv, Hl, real_below_is; reflexivity).
    assert (reachable fs follow (enters d) root (mkv (join2 (v_path v) name) (child_real r name) ci st)) as Hrc
      by (rewrite Emk; eapply reachable_child; [exact Hre|]; exact (Child fs follow (enters d) v r i left seen name names ci Hen Herr Hsp Hseen El)).
    pose proof (IH _ _ _ _ _ _ _ _ E Hrc) as Ex. rewrite Emk in Ex. destruct Ex as (Hrt & n1 & -> & Hn1).
    assert (forall c, below_reports fs follow (enters d) (entry_of fs v r i left name ci) c -> rest_reports fs follow (enters d) v r i left (name :: names) c) as Hfirst.
    { intros c Hb. exists [], name, names, ci. split; [reflexivity|]. split; [intros n nci []|]. split; [exact El|exact Hb]. }
    destruct Hrt as [(-> & Hnc)|(-> & Hc)].
    + apply (IHn (seen ++ [name])) in H; [|rewrite Hsp, <- app_assoc; reflexivity| |exact Hv|exact Hl].
      2: { intros n nci Hn. apply in_app_or in Hn as [Hn|[<-|[]]]; [apply Hseen; exact Hn|]. intros E2. rewrite El in E2. apply some_inj in E2. subst nci. exact Hnc. }
      destruct H as (-> & n2 & -> & Hn2). split; [reflexivity|]. exists (n1 ++ n2). split; [symmetry; apply app_assoc|].
      intros c. rewrite in_app_iff, Hn1, Hn2. split.
      * intros [Hb|(pre & n & post & ci2 & -> & Hpre & Hls & Hb)]; [apply Hfirst; exact Hb|]. exists (name :: pre), n, post, ci2. split; [reflexivity|]. split; [|split; assumption].
        intros m mci [<-|Hm]; [|apply Hpre; exact Hm]. intros E2. rewrite El in E2. apply some_inj in E2. subst mci. exact Hnc.
      * intros (pre & n & post & ci2 & E2 & Hpre & Hls & Hb). destruct pre as [|x pre]; cbn [app] in E2; injection E2 as <- E2.
        { left. rewrite El in Hls. apply some_inj in Hls. subst ci2. exact Hb. }
        right. exists pre, n, post, ci2. split; [exact E2|]. split; [|split; assumption]. intros m mci Hm. apply Hpre. right. exact Hm.
    + apply done_inj in H. destruct H as (<- & _ & <-). split; [reflexivity|]. exists n1. split; [reflexivity|]. intros c. rewrite Hn1. split; [apply Hfirst|].
      intros (pre & n & post & ci2 & E2 & Hpre & Hls & Hb). destruct pre as [|x pre]; cbn [app] in E2; injection E2 as <- E2.
      { rewrite El in Hls. apply some_inj in Hls. subst ci2. exact Hb. }
      exfalso. apply (Hpre name ci (or_introl eq_refl) El). exact Hc.
Qed.

Lemma enters_false d c : goes_on d -> enters d c = false <-> d c = SkipDir.
Proof. intros H. unfold enters. destruct (H c) as [->| ->]; split; congruence. Qed.

Lemma walk_exact fs follow d root : goes_on d -> steady fs follow (enters d) root -> forall f, exact_at fs follow d root f.
Proof.
  intros Hgo Hst. induction f as [|f IH]; intros p r i st log l s rt H Hre; [discriminate|].
  destruct (walk_cases fs follow (pure d) f p r i st log) as [(i' & Hb & E)|(r' & i' & left & Hs & E)]; rewrite E in H; clear E.
  - apply done_inj in H. destruct H as (<- & _ & <-). unfold pure. split.
    { destruct (Hgo (err_call (clean p) r i')) as [E| E]; rewrite E; [left|right]; (split; [reflexivity|]).
      - intros [(r2 & i2 & left2 & Hs & _)|(i2 & Hb2 & He)]; [eapply shown_broken; eauto|].
        assert (i2 = i') as -> by (destruct Hb; destruct Hb2; congruence). apply (enters_false d _ Hgo) in He. change (d (err_call (clean p) r i') = SkipDir) in He. congruence.
      - right. exists i'. split; [exact Hb|]. apply (enters_false d _ Hgo). exact E. }
    eexists. split; [reflexivity|]. intros c. rewrite below_inv. split.
    + intros [<-|[]]. left. apply (RBroken fs follow (enters d) (mkv p r i st)). exact Hb.
    + intros [Hr|(v1 & Hc & _)].
      * left. inversion Hr; subst.
        -- exfalso. eapply shown_broken; eauto.
        -- cbn. f_equal. destruct Hb; destruct H; congruence.
        -- exfalso. match goal with H : entered _ _ _ _ _ _ _ |- _ => destruct H as (Hsh & _) end. eapply shown_broken; eauto.
      * exfalso. inversion Hc as [r2 i2 left2 pre name post ci Hen]; subst. destruct Hen as (Hsh & _). eapply shown_broken; eauto.
  - apply after_done in H. destruct H as (s' & H).
    pose proof (body_cases fs (pure d) (walk fs follow (pure d) f) (clean p) r' i' {| vis := vis st; remaining := left |} log) as Hb. cbn zeta in Hb. cbn [vis remaining] in Hb.
    set (c0 := ok_call (clean p) r' i') in *. set (e0 := err_call (clean p) r' None) in *.
    assert (reports fs follow (enters d) (mkv p r i st) c0) as Hrep by (apply (RShown fs follow (enters d) (mkv p r i st) r' i' left); exact Hs).
    assert (forall c, reports fs follow (enters d) (mkv p r i st) c -> c = c0 \/ (c = e0 /\ entered fs follow (enters d) (mkv p r i st) r' i' left /\ snd (w_readdir fs (clean p)) = true)) as Hrinv.
    { intros c Hr. inversion Hr as [r2 i2 left2 Hs2|i2 Hb2|r2 i2 left2 He2 Herr]; subst.
      - destruct (shown_fun _ _ _ _ _ _ _ _ _ Hs Hs2) as (-> & -> & ->). left. reflexivity.
      - exfalso. eapply shown_broken; eauto.
      - pose proof He2 as (Hs2 & _). destruct (shown_fun _ _ _ _ _ _ _ _ _ Hs Hs2) as (-> & -> & ->). right. auto. }
    assert (cuts fs follow (enters d) (mkv p r i st) <-> i_dir i' = false /\ d c0 = SkipDir) as Hcut.
    { split.
      - intros [(r2 & i2 & left2 & Hs2 & Hd & He)|(i2 & Hb2 & _)]; [|exfalso; eapply shown_broken; eauto].
        destruct (shown_fun _ _ _ _ _ _ _ _ _ Hs Hs2) as (-> & -> & ->). split; [exact Hd|]. apply (enters_false d _ Hgo). exact He.
      - intros [Hd He]. left. exists r', i', left. split; [exact Hs|]. split; [exact Hd|]. apply (enters_false d _ Hgo). exact He. }
    assert (~ entered fs follow (enters d) (mkv p r i st) r' i' left -> forall c, In c [c0] <-> below_reports fs follow (enters d) (mkv p r i st) c) as Hleaf.
    { intros Hne c. rewrite below_inv. split.
      - intros [<-|[]]. left. exact Hrep.
      - intros [Hr|(v1 & Hc & _)]; [destruct (Hrinv _ Hr) as [->|(_ & He & _)]; [left; reflexivity|contradiction]|].
        exfalso. inversion Hc as [r2 i2 left2 pre name post ci Hen]; subst. pose proof Hen as (Hs2 & _). destruct (shown_fun _ _ _ _ _ _ _ _ _ Hs Hs2) as (-> & -> & ->). contradiction. }
    assert (d c0 = Cont -> i_dir i' = true -> new_key (key_of fs (clean p) r' i') (vis st) -> entered fs follow (enters d) (mkv p r i st) r' i' left) as Hent.
    { intros H1 H2 H3. repeat split; auto. change (enters d c0 = true). unfold enters. rewrite H1. reflexivity. }
    assert (forall es log1 l2 s2 rt2, entered fs follow (enters d) (mkv p r i st) r' i' left ->
       (snd (w_readdir fs (clean p)) = true -> enters d e0 = true) ->
       (forall c, In c es <-> c = e0 /\ snd (w_readdir fs (clean p)) = true) ->
       walk_children fs (pure d) (walk fs follow (pure d) f) (clean p) r' (fst (w_readdir fs (clean p))) {| vis := push (key_of fs (clean p) r' i') (vis st); remaining := left |} log1 = Done l2 s2 rt2 ->
       rt2 = Cont /\ exists n2, l2 = log1 ++ n2 /\ forall c, In c (c0 :: es ++ n2) <-> below_reports fs follow (enters d) (mkv p r i st) c) as Hch.
    { intros es log1 l2 s2 rt2 Hen Hee Hes Hw. change (clean p) with (v_path (mkv p r i st)) in Hw.
      apply (children_exact fs follow d root f Hst IH (mkv p r i st) r' i' left Hre Hen Hee _ []) in Hw; [|reflexivity|intros n nci []|reflexivity|reflexivity]. destruct Hw as (-> & n2 & -> & Hn2). split; [reflexivity|].
      exists n2. split; [reflexivity|]. intros c. rewrite below_inv. cbn [In]. rewrite in_app_iff, Hes, Hn2. split.
      - intros [<-|[(-> & Herr)|(pre & name & post & ci & Hi & Hpre & Hl & Hbr)]]; [left; exact Hrep|left; apply (RList fs follow (enters d) (mkv p r i st) r' i' left); assumption|].
        right. eexists. split; [exact (Child fs follow (enters d) (mkv p r i st) r' i' left pre name post ci Hen Hee Hi Hpre Hl)|exact Hbr].
      - intros [Hr|(v1 & Hc & Hbr)]; [destruct (Hrinv _ Hr) as [->|(-> & _ & Herr)]; auto|]. right. right.
        inversion Hc as [r2 i2 left2 pre name post ci Hen2 _ Hi Hpre Hl]; subst. pose proof Hen2 as (Hs2 & _). destruct (shown_fun _ _ _ _ _ _ _ _ _ Hs Hs2) as (-> & -> & ->).
        exists pre, name, post, ci. split; [exact Hi|]. split; [exact Hpre|]. split; [exact Hl|exact Hbr]. }
    assert (i_dir i' = true -> ~ cuts fs follow (enters d) (mkv p r i st)) as Hnc by (intros Hd Hc; apply Hcut in Hc as [Hc _]; congruence).
    destruct Hb as [(H1 & Eb)|[(H1 & Hd & Eb)|[(H1 & Hd & Hnn & Eb)|[(H1 & Hd & Hn & Herr & Eb)|[(H1 & Hd & Hn & Herr & H2 & Eb)|(H1 & Hd & Hn & Herr & H2 & Eb)]]]]]; try rewrite Eb in H.
    + apply done_inj in H. destruct H as (<- & _ & <-). unfold pure in *. destruct (Hgo c0) as [E|E]; [congruence|]. rewrite E. split.
      * destruct (i_dir i') eqn:Hd; [left|right]; (split; [reflexivity|]); [intros Hc; apply Hcut in Hc as [Hc _]; congruence|apply Hcut; auto].
      * exists [c0]. split; [reflexivity|]. apply Hleaf. intros (_ & _ & He & _). change (enters d c0 = true) in He. unfold enters in He. rewrite E in He. discriminate.
    + apply done_inj in H. destruct H as (<- & _ & <-). split; [left; split; [reflexivity|]; intros Hc; apply Hcut in Hc as [_ Hc]; unfold pure in H1; congruence|]. exists [c0]. split; [reflexivity|]. apply Hleaf. intros (_ & He & _). congruence.
    + apply done_inj in H. destruct H as (<- & _ & <-). split; [left; split; [reflexivity|]; intros Hc; apply Hcut in Hc as [_ Hc]; unfold pure in H1; congruence|]. exists [c0]. split; [reflexivity|]. apply Hleaf. intros (_ & _ & _ & He). exact (Hnn He).
    + apply after_done in H. destruct H as (s2 & H). apply (Hch []) in H; [|auto|congruence|intros c; split; [intros []|intros [_ E]; congruence]]. destruct H as (-> & n2 & -> & Hn2). split; [left; split; [reflexivity|apply Hnc; exact Hd]|].
      exists (c0 :: n2). split; [rewrite <- app_assoc; reflexivity|exact Hn2].
    + apply after_done in H. destruct H as (s2 & H). apply (Hch [e0]) in H; [|auto|intros _; unfold enters; unfold pure in H2; rewrite H2; reflexivity|intros c; split; [intros [<-|[]]; auto|intros [-> _]; left; reflexivity]]. destruct H as (-> & n2 & -> & Hn2). split; [left; split; [reflexivity|apply Hnc; exact Hd]|].
      exists (c0 :: e0 :: n2). split; [rewrite <- !app_assoc; reflexivity|exact Hn2].
    + unfold pure in *. destruct (Hgo e0) as [E|E]; [congruence|]. rewrite E in H.
      apply after_done in H. destruct H as (s2 & H). apply done_inj in H. destruct H as (<- & _ & <-). split; [left; split; [reflexivity|apply Hnc; exact Hd]|].
      exists [c0; e0]. split; [rewrite <- app_assoc; reflexivity|]. intros c. rewrite below_inv. split.
      * intros [<-|[<-|[]]]; left; [exact Hrep|]. apply (RList fs follow (enters d) (mkv p r i st) r' i' left); auto.
      * intros [Hr|(v1 & Hc & _)]; [destruct (Hrinv _ Hr) as [->|(-> & _)]; [left; reflexivity|right; left; reflexivity]|].
        exfalso. inversion Hc as [r2 i2 left2 pre name post ci Hen2 Hee]; subst. pose proof Hen2 as (Hs2 & _). destruct (shown_fun _ _ _ _ _ _ _ _ _ Hs Hs2) as (-> & -> & ->).
        specialize (Hee Herr). change (enters d e0 = true) in Hee. unfold enters in Hee. rewrite E in Hee. discriminate.
Qed.


(* ---- WalkDir ---- *)

Lemma walk_dir_terminates fs follow fn root D fuel : keyed fs follow root D -> (length D < fuel)%nat -> exists l e, walk_dir fs follow fn fuel root = Some (l, e).
Proof.
  intros HD Hf. unfold walk_dir. destruct (w_lstat fs root) as [i|] eqn:El.
  - pose proof (walk_fuel fs follow fn root D HD fuel root root i {| vis := []; remaining := 40 |} []) as Hw.
    destruct (walk fs follow fn fuel root root i {| vis := []; remaining := 40 |} []) as [l s rt|].
    + destruct rt; eauto.
    + exfalso. apply Hw; [exists i; split; [exact El|constructor]|constructor|intros x []|cbn; lia|reflexivity].
  - cbn [ask]. destruct (fn [] _); eauto.
Qed.

Lemma walk_dir_exact fs follow d root fuel l e : goes_on d -> steady fs follow (enters d) root -> w_lstat fs root <> None ->
  walk_dir fs follow (fun _ c => d c) fuel root = Some (l, e) ->
  e = None /\ forall c, In c l <-> exists v, reachable fs follow (enters d) root v /\ reports fs follow (enters d) v c.
Proof.
  intros Hgo Hst Hl H. unfold walk_dir in H. destruct (w_lstat fs root) as [i|] eqn:El; [|congruence].
  destruct (walk fs follow (fun _ c => d c) fuel root root i {| vis := []; remaining := 40 |} []) as [l' s rt|] eqn:E; [|discriminate].
  pose proof (walk_exact fs follow d root Hgo Hst fuel _ _ _ _ _ _ _ _ E (ex_intro _ i (conj El (DHere _ _ _ _)))) as Ex. destruct Ex as (Hrt & new & -> & Hn).
  assert (l = new /\ e = None) as [-> ->] by (destruct Hrt as [(-> & _)|(-> & _)]; cbn in H; split; congruence). split; [reflexivity|]. intros c. rewrite Hn. split.
  - intros (v & Hd & Hr). exists v. split; [exists i; auto|exact Hr].
  - intros (v & (i2 & Hi2 & Hd) & Hr). rewrite El in Hi2. apply some_inj in Hi2. subst i2. exists v. auto.
Qed.

Lemma walk_dir_once fs follow fn root fuel l e : proper_listings fs -> walk_dir fs follow fn fuel root = Some (l, e) -> NoDup (succeeded l).
Proof.
  intros Hp H. unfold walk_dir in H. destruct (w_lstat fs root) as [i|].
  - destruct (walk fs follow fn fuel root root i {| vis := []; remaining := 40 |} []) as [l' s rt|] eqn:E; [|discriminate].
    apply (walk_tidy fs follow fn fuel Hp) in E. destruct E as (new & -> & _ & Hd). assert (l = new) as -> by (destruct rt; cbn in H; congruence). apply (NoDup_map_inv elems). exact Hd.
  - cbn [ask] in H. assert (l = [err_call root root None]) as -> by (unfold err_call; destruct (fn [] _); cbn in H; congruence). constructor.
Qed.

Lemma walk_dir_obeys fs follow fn root fuel l e : walk_dir fs follow fn fuel root = Some (l, e) ->
  exists rt, obeys fn [] l rt /\ e = match rt with Fail x => Some x | _ => None end.
Proof.
  intros H. unfold walk_dir in H. destruct (w_lstat fs root) as [i|].
  - destruct (walk fs follow fn fuel root root i {| vis := []; remaining := 40 |} []) as [l' s rt|] eqn:E; [|discriminate].
    apply (walk_obeys fs follow fn fuel) in E. destruct E as (new & -> & Ho). exists rt. destruct rt; cbn in H; split; try congruence; assert (l = new) as -> by congruence; exact Ho.
  - cbn [ask] in H. fold (err_call root root None) in H. exists (fn [] (err_call root root None)).
    assert (l = [err_call root root None]) as -> by (destruct (fn [] _); cbn in H; congruence). split; [apply obeys_one|]. destruct (fn [] _); congruence.
Qed.
