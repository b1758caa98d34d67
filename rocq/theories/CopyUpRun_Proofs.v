(* What runs of copy-ups, and a restart, leave. *)
From Verif Require Import Common CommonLemmas ContentRange_Model ContentRange_Proofs TempName_Model TempName_Proofs Overlay_Model Overlay_Spec Overlay_Proofs CopyUp_Model CopyUp_Spec CopyUp_Proofs.
Open Scope nat_scope.

Definition all_answers (a : answer) : Prop := True.
Lemma all_all s : Forall all_answers s.
Proof. apply Forall_forall. intros x _. exact I. Qed.
Lemma strict_done : strict done.
Proof. split; [intros [k H]; discriminate|intros k [j H]; discriminate]. Qed.
Lemma no_late_not_late : no_late not_late.
Proof. intros k H. exact (H k eq_refl). Qed.

(* --- how many calls --- *)
Definition uses {A} (m : M A) (c : nat) : Prop := forall w s w' s' r, m w s = (w', s', r) -> length s <= length s' + c /\ (r = Died -> s' = []).
Lemma uses_le {A} (m : M A) c c' : uses m c -> c <= c' -> uses m c'.
Proof. intros H Hc w s w' s' r E. destruct (H _ _ _ _ _ E) as [H1 H2]. split; [lia|exact H2]. Qed.
Lemma uses_ret {A} (a : A) : uses (ret a) 0.
Proof. intros w s w' s' r E. unfold ret in E. inversion E; subst. split; [lia|discriminate]. Qed.
Lemma uses_fail {A} : uses (@fail A) 0.
Proof. intros w s w' s' r E. unfold fail in E. inversion E; subst. split; [lia|discriminate]. Qed.
Lemma uses_count : uses count 0.
Proof. intros w s w' s' r E. unfold count in E. injection E as <- <- <-. split; [lia|discriminate]. Qed.
Lemma uses_bind {A B} (m : M A) (k : A -> M B) c d : uses m c -> (forall a, uses (k a) d) -> uses (bind m k) (c + d).
Proof.
  intros Hm Hk w s w' s' r E. unfold bind in E. destruct (m w s) as [[w1 s1] r1] eqn:E1. destruct (Hm _ _ _ _ _ E1) as [H1 H2]. destruct r1 as [a| |].
  - destruct (Hk a _ _ _ _ _ E) as [H3 H4]. split; [lia|exact H4].
  - inversion E; subst. split; [lia|discriminate].
  - inversion E; subst. split; [lia|]. intros _. apply H2. reflexivity.
Qed.
Lemma uses_call op : uses (call op) 1.
Proof. intros w s w' s' r E. unfold call in E. destruct s as [|[k| |k] s]; [| |inversion E; subst|]; [inversion E; subst|destruct (op w); inversion E; subst| |destruct (op w); inversion E; subst]; cbn [length]; (split; [lia|]); try discriminate; reflexivity. Qed.
Lemma uses_ask {A} (v : world -> A) : uses (ask v) 1.
Proof. intros w s w' s' r E. unfold ask in E. destruct s as [|[k| |k] s]; inversion E; subst; cbn [length]; (split; [lia|]); try discriminate; reflexivity. Qed.
Lemma uses_ignore m c : uses m c -> uses (ignore m) c.
Proof.
  intros Hm w s w' s' r E. unfold ignore in E. destruct (m w s) as [[w1 s1] r1] eqn:E1. destruct (Hm _ _ _ _ _ E1) as [H1 H2].
  destruct r1; inversion E; subst; (split; [lia|]); auto; discriminate.
Qed.
Lemma uses_is_ok m c : uses m c -> uses (is_ok m) c.
Proof.
  intros Hm w s w' s' r E. unfold is_ok in E. destruct (m w s) as [[w1 s1] r1] eqn:E1. destruct (Hm _ _ _ _ _ E1) as [H1 H2].
  destruct r1; inversion E; subst; (split; [lia|]); auto; discriminate.
Qed.
Lemma uses_or_clean {A} (m : M A) k c d : uses m c -> uses k d -> uses (or_clean m k) (c + d).
Proof.
  intros Hm Hk w s w' s' r E. unfold or_clean in E. destruct (m w s) as [[w1 s1] r1] eqn:E1. destruct (Hm _ _ _ _ _ E1) as [H1 H2]. destruct r1 as [a| |].
  - inversion E; subst. split; [lia|discriminate].
  - destruct (k w1 s1) as [[w2 s2] r2] eqn:E2. destruct (Hk _ _ _ _ _ E2) as [H3 H4]. destruct r2; inversion E; subst; (split; [lia|]); auto; discriminate.
  - inversion E; subst. split; [lia|]. intros _. apply H2. reflexivity.
Qed.
Section Uses.
Variable umask : N.
Variable now : Z.
Variables stage content : path.
Lemma uses_reflink q d : uses (reflink now q d) 1.
Proof. intros w s w' s' r E. unfold reflink in E. destruct s as [|[k| |k] s]; inversion E; subst; cbn [length]; (split; [lia|]); try discriminate; reflexivity. Qed.
Lemma uses_copy q d pos : uses (copy_data now q d pos) (S (length d - pos)).
Proof.
  intros w s. revert pos w. induction s as [|a s IH]; intros pos w w' s' r E; cbn [copy_data] in E.
  - inversion E; subst. split; [lia|reflexivity].
  - destruct a as [k| |k]; [|inversion E; subst; cbn [length]; split; [lia|discriminate]|inversion E; subst; cbn [length]; split; [lia|discriminate]].
    destruct (length d <=? pos) eqn:Ep; [inversion E; subst; cbn [length]; split; [lia|discriminate]|]. apply Nat.leb_gt in Ep. cbv zeta in E.
    apply IH in E. destruct E as [E1 E2]. split; [|exact E2]. rewrite firstn_length, skipn_length in E1. cbn [length]. lia.
Qed.
Lemma uses_attrs q m t : uses (copy_attrs q m t) 2.
Proof. apply (uses_bind _ _ 1 1); [apply uses_ignore, uses_call|]. intros _. apply uses_ignore, uses_call. Qed.
Lemma uses_regular p m t d : uses (copy_regular umask now stage content p m t d) (length d + 10).
Proof.
  unfold copy_regular. eapply uses_le.
  - apply uses_bind; [apply uses_call|]. intros _. apply uses_bind; [apply uses_count|]. intros n. apply uses_bind; [apply uses_call|]. intros _.
    apply uses_or_clean; [|apply uses_call]. apply uses_bind; [apply uses_reflink|]. intros whole.
    apply (uses_bind _ _ (length d + 2)).
    + destruct whole; [eapply uses_le; [apply uses_ret|lia]|]. eapply uses_le; [apply uses_or_clean; [apply uses_copy|apply uses_call]|lia].
    + intros _. apply uses_bind; [apply uses_call|]. intros _. apply uses_bind; [apply uses_attrs|]. intros _. apply uses_call.
  - lia.
Qed.
Lemma uses_parents src p : uses (materialize_parents umask now content src p) (5 * length p).
Proof.
  induction p as [|c q IH]; [apply uses_ret|]. cbn [materialize_parents]. eapply uses_le.
  - apply uses_bind; [exact IH|]. intros _. apply uses_bind; [apply uses_ask|]. intros [x|].
    + eapply uses_le; [apply uses_ret|]. apply (Nat.le_0_l 4).
    + apply (uses_bind _ _ 1 3); [apply uses_is_ok, uses_call|].
      assert (H : forall k, uses (call k) 3) by (intros k; eapply uses_le; [apply uses_call|lia]).
      intros b. destruct b; destruct (s_stat src (c :: q)) as [[m t]|]; try apply H. apply (uses_bind _ _ 1 2); [apply uses_call|]. intros _. apply uses_attrs.
  - cbn [length]. lia.
Qed.
Lemma uses_copy_up src p : uses (copy_up umask now stage content src p) (5 * length p + bytes_of (s_lstat src p) + 11).
Proof.
  unfold copy_up. destruct p as [|c q]; [eapply uses_le; [apply uses_fail|lia]|]. cbn [tl].
  intros w s w' s' r E. unfold bind at 1 in E. unfold ask in E. destruct s as [|[k| |k] s]; try (inversion E; subst; cbn [length]; split; [lia|]; first [discriminate|reflexivity]).
  assert (H : forall m : M unit, uses m (5 * length q + bytes_of (s_lstat src (c :: q)) + 10) -> m w s = (w', s', r) ->
     length (Done k :: s) <= length s' + (5 * length (c :: q) + bytes_of (s_lstat src (c :: q)) + 11) /\ (r = Died -> s' = [])).
  { intros m Hm Em. destruct (Hm _ _ _ _ _ Em) as [H1 H2]. split; [cbn [length]; lia|exact H2]. }
  destruct (s_lstat src (c :: q)) as [[m t|m t d|tg|m]|]; cbn [bytes_of] in *; revert E; apply H.
  - eapply uses_le; [apply uses_bind; [apply uses_parents|]; intros _; apply uses_bind; [apply uses_call|]; intros _; apply uses_attrs|lia].
  - eapply uses_le; [apply uses_bind; [apply uses_parents|]; intros _; apply uses_regular|lia].
  - eapply uses_le; [apply uses_bind; [apply uses_parents|]; intros _; apply uses_bind; [apply uses_call|]; intros _; apply uses_call|lia].
  - eapply uses_le; [apply uses_fail|lia].
  - eapply uses_le; [apply uses_fail|lia].
Qed.
End Uses.


Lemma next_tmp_eq stage w : next_tmp stage w = staging_path stage ((k_next w + 1) mod 18446744073709551616).
Proof. reflexivity. Qed.

Section Claims.
Variable umask : N.
Variable now : Z.
Variables stage content : path.
Hypothesis Hap : apart stage content.
Notation copy_up := (copy_up umask now stage content).

Lemma outcome_any ok src c q w s w' s' r : get (k_fs w) ((c :: q) ++ content) = None -> Forall ok s -> copy_up src (c :: q) w s = (w', s', r) ->
  outcome umask now stage content src c q w ok r w'.
Proof. intros Hd Hs E. exact (proj2 (copy_up_triple umask now stage content Hap src c q w Hd ok w s w' s' r Hs eq_refl E)). Qed.

Lemma whole_or_absent src p w s w' s' r : p <> [] -> get (k_fs w) (p ++ content) = None -> copy_up src p w s = (w', s', r) ->
  (get (k_fs w') (p ++ content) = None \/ exists x y, s_lstat src p = Some x /\ get (k_fs w') (p ++ content) = Some y /\ copy_of umask now x y) /\
  (r = Val tt -> get (k_fs w') (p ++ content) <> None) /\
  (r = Err -> Forall not_late s -> get (k_fs w') (p ++ content) = None).
Proof.
  intros Hp Hd E. destruct p as [|c q]; [contradiction|]. destruct (outcome_any all_answers _ _ _ _ _ _ _ _ Hd (all_all s) E) as (_ & _ & _ & H4 & H5 & _).
  split; [|split].
  - destruct H4 as [H4|(x & y & H4 & H6 & H7 & _)]; [left; exact H4|right; exists x, y; auto].
  - intros Hr. exact (proj1 (H5 Hr)).
  - intros Hr Hs. destruct (outcome_any not_late _ _ _ _ _ _ _ _ Hd Hs E) as (_ & _ & _ & _ & _ & H6 & _). exact (H6 Hr no_late_not_late).
Qed.

Lemma adds_only src p w s w' s' r : p <> [] -> get (k_fs w) (p ++ content) = None -> copy_up src p w s = (w', s', r) ->
  only_adds content p (next_tmp stage w) (k_fs w) (k_fs w').
Proof.
  intros Hp Hd E. destruct p as [|c q]; [contradiction|]. destruct (outcome_any all_answers _ _ _ _ _ _ _ _ Hd (all_all s) E) as (H1 & H2 & _).
  split.
  - intros a x Ha. destruct (path_dec a (next_tmp stage w)) as [->|Hn]; [rewrite next_tmp_eq in *; rewrite (H2 ltac:(rewrite Ha; discriminate)); exact Ha|].
    destruct (path_dec a ((c :: q) ++ content)) as [->|Hn2]; [congruence|]. destruct (H1 a Hn Hn2) as [E1|(E1 & _)]; congruence.
  - intros a Hn Ha Hb. destruct (path_dec a ((c :: q) ++ content)) as [->|Hn2]; [left; reflexivity|right].
    destruct (H1 a Hn Hn2) as [E1|(_ & a0 & Hp0 & _ & E1 & m & t & E2)]; [congruence|]. exists a0. split; [exact Hp0|]. split; [exact E1|]. exists m, t. exact E2.
Qed.

Lemma next_counts src p w s w' s' r : p <> [] -> get (k_fs w) (p ++ content) = None -> copy_up src p w s = (w', s', r) ->
  (k_next w' = k_next w /\ get (k_fs w') (next_tmp stage w) = get (k_fs w) (next_tmp stage w)) \/ k_next w' = ((k_next w + 1) mod 18446744073709551616)%N.
Proof.
  intros Hp Hd E. destruct p as [|c q]; [contradiction|]. destruct (outcome_any all_answers _ _ _ _ _ _ _ _ Hd (all_all s) E) as (_ & _ & H & _). tauto.
Qed.

Lemma exact_when_served src p w s w' s' : p <> [] -> get (k_fs w) (p ++ content) = None -> Forall done s -> copy_up src p w s = (w', s', Val tt) ->
  (exists x y, s_lstat src p = Some x /\ get (k_fs w') (p ++ content) = Some y /\ exact_copy x y) /\
  (forall a, passes p a -> get (k_fs w) (a ++ content) = None ->
     match s_stat src a with
     | Some (m, t) => get (k_fs w') (a ++ content) = Some (IDir (N.land m 511) t)
     | None => exists t, get (k_fs w') (a ++ content) = Some (IDir (N.ldiff 511 umask) t)
     end).
Proof.
  intros Hp Hd Hs E. destruct p as [|c q]; [contradiction|]. destruct (outcome_any done _ _ _ _ _ _ _ _ Hd Hs E) as (_ & _ & _ & H4 & H5 & _).
  destruct (H5 eq_refl) as (H6 & _ & H7). split.
  - destruct H4 as [H4|(x & y & X1 & X2 & _ & X3)]; [contradiction|]. exists x, y. split; [exact X1|]. split; [exact X2|]. exact (X3 eq_refl strict_done).
  - intros a Ha Hn. destruct (H7 a Ha) as [E1 E2]; [destruct Ha as [_ Ha]; apply strictly_cons in Ha; exact Ha|].
    destruct (E2 strict_done) as [E3|E3]; [congruence|exact E3].
Qed.

Lemma succeeds src p w s w' s' r x : p <> [] -> get (k_fs w) (p ++ content) = None -> Forall done s ->
  is_dir_in (k_fs w) content -> is_dir_in (k_fs w) stage -> clear_way content p (k_fs w) -> get (k_fs w) (next_tmp stage w) = None ->
  s_lstat src p = Some x -> (forall m, x <> ISpecial m) -> 5 * length p + bytes_of (Some x) + 11 < length s ->
  copy_up src p w s = (w', s', r) -> r = Val tt.
Proof.
  intros Hp Hd Hs Hc Hst Hw Ht Hx Hsp Hl E. destruct r as [[]| |]; [reflexivity| |].
  - exfalso. destruct p as [|c q]; [contradiction|]. destruct (outcome_any done _ _ _ _ _ _ _ _ Hd Hs E) as (_ & _ & _ & _ & _ & _ & H & _).
    specialize (H eq_refl strict_done (conj Hc Hw) Hst Ht). rewrite Hx in H. destruct x; try exact H. exact (Hsp _ eq_refl).
  - exfalso. destruct (uses_copy_up _ _ _ _ _ _ _ _ _ _ _ E) as [H1 H2]. rewrite Hx in H1. rewrite (H2 eq_refl) in H1. cbn [length] in H1. lia.
Qed.

(* --- what is left in the staging directory --- *)
Lemma bind_err {A B} (m : M A) (k : A -> M B) w s w' s' : bind m k w s = (w', s', Err) ->
  m w s = (w', s', Err) \/ exists a w1 s1, m w s = (w1, s1, Val a) /\ k a w1 s1 = (w', s', Err).
Proof. unfold bind. destruct (m w s) as [[w1 s1] [a| |]]; intros E; [right; exists a, w1, s1; auto|left; inversion E; reflexivity|discriminate]. Qed.
Lemma suffix_last {A} (u v : list A) x s : s ++ [x] = u ++ v -> v = [] \/ exists v', v = v' ++ [x].
Proof.
  intros E. destruct v as [|y v]; [left; reflexivity|right]. destruct (exists_last (l := y :: v) ltac:(discriminate)) as (l & z & El). rewrite El in *.
  exists l. rewrite app_assoc in E. apply app_inj_tail in E as [_ E]. subst z. reflexivity.
Qed.
Lemma suffix_one {A} (u : list A) (a x : A) s : s ++ [x] = u ++ [a] -> a = x.
Proof. intros E. apply app_inj_tail in E as [_ E]. congruence. Qed.

Lemma cleans_up src p w s k w' : p <> [] -> get (k_fs w) (p ++ content) = None -> get (k_fs w) (next_tmp stage w) = None ->
  copy_up src p w (s ++ [Done k]) = (w', [], Err) -> get (k_fs w') (next_tmp stage w) = None.
Proof.
  intros Hp Hd Ht E. destruct p as [|c q]; [contradiction|].
  destruct (outcome_any all_answers _ _ _ _ _ _ _ _ Hd (all_all _) E) as (_ & _ & _ & _ & _ & _ & _ & H8). rewrite next_tmp_eq in *.
  destruct (s_lstat src (c :: q)) as [[m t|m t d|tg|m]|] eqn:Ex; try (rewrite H8; exact Ht). clear H8.
  unfold CopyUp_Model.copy_up in E. cbn [tl] in E. apply bind_err in E as [E|(x & w1 & s1 & E1 & E)].
  { unfold ask in E. destruct (s ++ [Done k]) as [|[j| |j] l]; inversion E; subst; exact Ht. }
  assert (w1 = w /\ x = Some (IFile m t d) /\ exists u, s ++ [Done k] = u ++ s1) as (-> & -> & u1 & Hu1).
  { unfold ask in E1. destruct (s ++ [Done k]) as [|[j| |j] l]; inversion E1; subst. split; [reflexivity|]. split; [exact Ex|]. exists [Done j]. reflexivity. }
  assert (Hg0 : grown content c q w [] w) by (split; [reflexivity|intros a; left; reflexivity]).
  assert (Htmp : forall b w2, grown content c q w b w2 -> get (k_fs w2) (staging_path stage ((k_next w + 1) mod 18446744073709551616)) = None).
  { intros b w2 [_ H]. destruct (H (staging_path stage ((k_next w + 1) mod 18446744073709551616))) as [H1|(_ & a & _ & _ & H1 & _)]; [congruence|]. destruct (tmp_out stage content Hap _ _ H1). }
  apply bind_err in E as [E|(x & w2 & s2 & E2 & E)].
  { destruct (parents_triple umask now content src c q w all_answers q (under_refl q) _ _ _ _ _ (all_all s1) Hg0 E) as [_ [H _]]. exact (Htmp _ _ H). }
  destruct (parents_triple umask now content src c q w all_answers q (under_refl q) _ _ _ _ _ (all_all s1) Hg0 E2) as [[u2 Hu2] [Hg2 [Ht2 _]]].
  destruct x. specialize (Ht2 eq_refl). cbn beta in E.
  unfold copy_regular in E. apply bind_err in E as [E|(x3 & w3 & s3 & E3 & E)].
  { unfold call in E. destruct s2 as [|[j| |j] l]; cbn [nothing] in E; inversion E; subst; apply (Htmp q); exact Hg2. }
  assert (w3 = w2 /\ exists u, s2 = u ++ s3) as (-> & u3 & Hu3).
  { unfold call in E3. destruct s2 as [|[j| |j] l]; cbn [nothing] in E3; inversion E3; subst. split; [reflexivity|]. exists [Done j]. reflexivity. }
  apply bind_err in E as [E|(n & w4 & s4 & E4 & E)]; [discriminate|]. unfold count in E4. injection E4 as <- <- <-.
  assert (Hn : k_next w2 = k_next w) by apply Hg2. rewrite Hn in E.
  set (tmp := staging_path stage ((k_next w + 1) mod 18446744073709551616)) in *.
  set (w4 := {| k_fs := k_fs w2; k_next := (k_next w + 1) mod 18446744073709551616; k_loose := k_loose w2 |}) in *.
  assert (H4 : get (k_fs w4) tmp = None) by (apply (Htmp q w2 Hg2)).
  assert (Hu : s ++ [Done k] = (u1 ++ u2 ++ u3) ++ s3) by (rewrite Hu1, Hu2, Hu3, !app_assoc; reflexivity).
  apply bind_err in E as [E|(x5 & w5 & s5 & E5 & E)].
  { unfold call in E. destruct s3 as [|[j| |j] l]; [discriminate| | |].
    - destruct (f_create _ _ _ _ w4); [discriminate|]. injection E as <- _. exact H4.
    - injection E as <- _. exact H4.
    - assert (l = []) as -> by (destruct (f_create _ _ _ _ w4); inversion E; reflexivity). apply suffix_one in Hu. discriminate. }
  assert (exists u, s3 = u ++ s5) as [u5 Hu5].
  { unfold call in E5. destruct s3 as [|[j| |j] l]; [discriminate| |discriminate|]; destruct (f_create _ _ _ _ w4); inversion E5; subst; eexists [_]; reflexivity. }
  assert (Hcr : staged umask now stage content src c q w all_answers m (fun d => d = []) w5).
  { unfold call in E5. destruct s3 as [|[j| |j] l]; [discriminate| |discriminate|]; [|destruct (f_create _ _ _ _ w4); discriminate].
    destruct (f_create umask now tmp (perm m) w4) as [w6|] eqn:Ec; [|discriminate]. injection E5 as <- <- _. apply (create_staged umask now stage content Hap src c q w all_answers m w4).
    - split; [reflexivity|]. split; [intros a _ _; apply Hg2|exact Ht2].
    - cbn [w4 k_fs]. destruct Hg2 as [_ Hg2]. destruct (Hg2 ((c :: q) ++ content)) as [H|(_ & a & Ha & _ & H & _)]; [congruence|]. destruct (dst_out content c q _ Ha H).
    - fold tmp. congruence.
    - exact Ec. }
  unfold or_clean in E. match type of E with (match ?M with _ => _ end = _) => destruct M as [[w6 s6] r6] eqn:E6 end.
  destruct (body_triple umask now stage content Hap src c q w all_answers m t d w5 s5 w6 s6 r6 (all_all _) Hcr E6) as [[u6 Hu6] H6].
  destruct r6 as [[]| |]; [discriminate| |discriminate]. destruct H6 as [H6 _].
  unfold call in E. destruct s6 as [|a6 l6]; [discriminate|].
  assert (l6 = []) as -> by (destruct a6; try destruct (f_remove _ w6); inversion E; reflexivity).
  assert (a6 = Done k) as ->.
  { rewrite Hu5, Hu6, !app_assoc in Hu. exact (suffix_one _ _ _ _ Hu). }
  unfold f_remove in E. destruct H6 as [(_ & m6 & t6 & d6 & H6)|(_ & _ & H6 & _)]; fold tmp in H6; rewrite H6 in E.
  - injection E as <-. cbn [k_fs set_fs]. rewrite get_del, path_eqb_refl. reflexivity.
  - injection E as <-. exact H6.
Qed.
End Claims.

(* --- names of staged files --- *)
Lemma fmt_uint_inj a b : (a < 18446744073709551616)%N -> (b < 18446744073709551616)%N -> fmt_uint a = fmt_uint b -> a = b.
Proof.
  intros H1 H2 E. apply (f_equal (fun s => fold_left dig_step s 0%N)) in E. unfold fmt_uint in E.
  rewrite !fmt_loop_value in E; [exact E| |]; change (10 ^ N.of_nat 20)%N with 100000000000000000000%N; lia.
Qed.
Lemma staging_inj stage a b : (a < 18446744073709551616)%N -> (b < 18446744073709551616)%N -> staging_path stage a = staging_path stage b -> a = b.
Proof. intros H1 H2 E. unfold staging_path in E. injection E as E. exact (fmt_uint_inj _ _ H1 H2 E). Qed.

Lemma names_free_gen umask now stage content l : apart stage content -> forall w,
  (forall n, (k_next w < n < 18446744073709551616)%N -> get (k_fs w) (staging_path stage n) = None) ->
  Forall (sparing stage) l -> (k_next w + N.of_nat (copies l) < 18446744073709551615)%N ->
  forall w', acts umask now stage content w l = w' ->
  (k_next w' < 18446744073709551615)%N /\ forall n, (k_next w' < n < 18446744073709551616)%N -> get (k_fs w') (staging_path stage n) = None.
Proof.
  intros Hap. induction l as [|a l IH]; intros w Hf Hs Hc w' E; cbn [acts] in E.
  - subst w'. cbn in Hc. split; [lia|exact Hf].
  - inversion Hs as [|x y Ha Hl]; subst x y. destruct a as [src p s|g].
    + assert (Hc' : copies (Copy src p s :: l) = S (copies l)) by reflexivity. rewrite Hc' in Hc.
      destruct (held content p w) eqn:Eh; [apply (IH w Hf Hl ltac:(lia) w' E)|].
      assert (Hp : p <> []) by (intros ->; discriminate).
      assert (Hd : get (k_fs w) (p ++ content) = None).
      { unfold held in Eh. destruct p; [discriminate|]. unfold content_path in Eh. destruct (get _ _); [discriminate|reflexivity]. }
      destruct (copy_up umask now stage content src p w s) as [[w1 s1] r1] eqn:E1.
      pose proof (next_counts _ _ _ _ Hap _ _ _ _ _ _ _ Hp Hd E1) as Hn. pose proof (adds_only _ _ _ _ Hap _ _ _ _ _ _ _ Hp Hd E1) as [_ Ho].
      rewrite N.mod_small in Hn by lia.
      assert (Hf1 : forall n, (k_next w1 < n < 18446744073709551616)%N -> get (k_fs w1) (staging_path stage n) = None).
      { intros n Hr. destruct (get (k_fs w1) (staging_path stage n)) eqn:Eg; [|reflexivity]. exfalso.
        assert (Hn0 : get (k_fs w) (staging_path stage n) = None) by (apply Hf; destruct Hn as [[Hn _]|Hn]; lia).
        destruct (N.eq_dec n (k_next w + 1)) as [En|En].
        - destruct Hn as [[_ Hn]|Hn]; [|lia]. rewrite next_tmp_eq in Hn. rewrite N.mod_small in Hn by lia. rewrite <- En in Hn. congruence.
        - destruct (Ho (staging_path stage n)) as [H|(b & _ & H & _)]; [|exact Hn0|congruence| |].
          + rewrite next_tmp_eq. rewrite N.mod_small by lia. intros H. apply staging_inj in H; [lia|lia|lia].
          + exact (tmp_out stage content Hap _ _ H).
          + exact (tmp_out stage content Hap _ _ H). }
      assert (Hk : (k_next w1 + N.of_nat (copies l) < 18446744073709551615)%N) by (destruct Hn as [[Hn _]|Hn]; lia).
      destruct r1; [apply (IH w1 Hf1 Hl Hk w' E)|apply (IH w1 Hf1 Hl Hk w' E)|]. subst w'. split; [lia|exact Hf1].
    + apply (IH (set_fs (g (k_fs w)) w)); [|exact Hl|exact Hc|exact E]. cbn [k_fs set_fs k_next]. intros n Hn. rewrite Ha; [apply Hf, Hn|]. unfold staging_path. apply under_cons, under_refl.
Qed.
Lemma names_free umask now stage content l w : apart stage content -> k_next w = 0%N -> emptied (k_fs w) stage ->
  Forall (sparing stage) l -> (N.of_nat (copies l) < 18446744073709551615)%N ->
  get (k_fs (acts umask now stage content w l)) (next_tmp stage (acts umask now stage content w l)) = None.
Proof.
  intros Hap H0 He Hs Hc. destruct (names_free_gen umask now stage content l Hap w) with (w' := acts umask now stage content w l) as [H1 H2].
  - intros n _. apply He. exists (s_tmp ++ fmt_uint n), []. reflexivity.
  - exact Hs.
  - rewrite H0. lia.
  - reflexivity.
  - rewrite next_tmp_eq. rewrite N.mod_small by lia. apply H2. lia.
Qed.

(* --- sweeping, and a new overlay over an old top --- *)
Lemma in_entries f d c x : get f (c :: d) = Some x -> In c (entries f d).
Proof.
  unfold entries. induction f as [|[q y] f IH]; cbn [get]; [discriminate|]. intros H. apply in_flat_map.
  destruct (path_eqb (c :: d) q) eqn:E.
  - apply path_eqb_eq in E. subst q. exists (c :: d, y). split; [left; reflexivity|]. cbn [fst]. rewrite path_eqb_refl. left. reflexivity.
  - apply IH in H. apply in_flat_map in H as (e & H1 & H2). exists e. split; [right; exact H1|exact H2].
Qed.
Lemma top_entry f d s : standing d f -> forall c x, get f (c :: s ++ d) = Some x -> exists e y, get f (e :: d) = Some y /\ under (e :: d) (c :: s ++ d).
Proof.
  intros Hst. induction s as [|b s IH]; intros c x H.
  - exists c, x. split; [exact H|apply under_refl].
  - cbn [app] in H. destruct (Hst _ (b :: s ++ d) _ ltac:(exists b, s; reflexivity) H) as [E|(m & t & E)]; [discriminate|]. destruct (IH _ _ E) as (e & y & H1 & H2).
    exists e, y. split; [exact H1|]. cbn [app]. apply under_cons, H2.
Qed.

Definition swept (f0 : files) (d : path) (f : files) : Prop :=
  (forall q, ~ strictly_under d q -> get f q = get f0 q) /\ (forall q, get f q <> None -> get f q = get f0 q).
Lemma sweep_each_spec ok d f0 ns :
  triple ok (fun w => swept f0 d (k_fs w)) (sweep_each d ns)
    (fun r w => swept f0 d (k_fs w)).
Proof.
  induction ns as [|n ns IH]; cbn [sweep_each].
  - apply (triple_ret ok tt (fun r w => swept f0 d (k_fs w))).
  - assert (Hk : forall w w', swept f0 d (k_fs w) -> f_remove_all (n :: d) w = Some w' -> swept f0 d (k_fs w')).
    { intros w w' [H1 H2] Ho. apply some_inj in Ho. subst w'. cbn [k_fs set_fs]. split.
      - intros q Hq. rewrite get_del_all. destruct (within (n :: d) q) eqn:E; [|apply H1, Hq]. exfalso. apply Hq. apply within_under in E as [s ->].
        destruct s as [|b s]; [exists n, []; reflexivity|]. exists b, (s ++ [n]). cbn [app]. rewrite <- app_assoc. reflexivity.
      - intros q Hq. rewrite get_del_all in *. destruct (within (n :: d) q); [contradiction|apply H2, Hq]. }
    apply (triple_bind _ _ _ _ (fun r w => swept f0 d (k_fs w))); [|intros _; exact IH|auto|auto].
    apply triple_call; [auto|auto|exact Hk|]. intros w w' k H _ Ho. exact (Hk w w' H Ho).
Qed.
Lemma sweep_each_gone ok d ns :
  triple ok (fun w => True) (sweep_each d ns) (fun r w => r = Val tt -> forall n q, In n ns -> under (n :: d) q -> get (k_fs w) q = None).
Proof.
  induction ns as [|n ns IH]; cbn [sweep_each].
  - eapply triple_weak; [apply (triple_ret ok tt (fun r w => r = Val tt -> forall n q, In n [] -> under (n :: d) q -> get (k_fs w) q = None))| |auto]. intros w _ _ n q [].
  - intros w s w' s' r Hs _ E. unfold bind in E. destruct (call (f_remove_all (n :: d)) w s) as [[w1 s1] r1] eqn:E1.
    assert (Hu : exists u, s = u ++ s1) by (unfold call in E1; destruct s as [|[j| |j] l]; inversion E1; subst; first [exists []; reflexivity|eexists [_]; reflexivity]).
    destruct Hu as [u Hu]. destruct r1 as [[]| |].
    + assert (Hs1 : Forall ok s1) by (rewrite Hu in Hs; exact (forall_tail _ _ _ Hs)).
      destruct (IH w1 s1 w' s' r Hs1 I E) as [[v Hv] H]. split; [exists (u ++ v); rewrite Hu, Hv, app_assoc; reflexivity|].
      intros Hr a q [->|Ha] Hq; [|exact (H Hr a q Ha Hq)].
      destruct (sweep_each_spec ok d (k_fs w1) ns w1 s1 w' s' r Hs1) as [_ [_ Hsw]]; [split; reflexivity|exact E|].
      destruct (get (k_fs w') q) eqn:Eg; [|reflexivity]. exfalso.
      assert (Hx : get (k_fs w') q = get (k_fs w1) q) by (apply Hsw; congruence).
      assert (Hy : k_fs w1 = del_all (k_fs w) (a :: d)) by (unfold call in E1; destruct s as [|[j| |j] l]; inversion E1; subst; reflexivity).
      rewrite Hy, get_del_all in Hx. apply within_under in Hq. rewrite Hq in Hx. congruence.
    + inversion E; subst w' s' r. split; [exists u; exact Hu|discriminate].
    + inversion E; subst w' s' r. split; [exists u; exact Hu|discriminate].
Qed.

Lemma sweeps d w s w' s' r : sweep_work d w s = (w', s', r) ->
  swept (k_fs w) d (k_fs w') /\ k_next w' = k_next w /\ (r = Val tt -> standing d (k_fs w) -> emptied (k_fs w') d).
Proof.
  intros E. unfold sweep_work, bind, ask in E. destruct s as [|[j| |j] l].
  1,3,4: inversion E; subst; split; [split; reflexivity|]; split; [reflexivity|discriminate].
  destruct (sweep_each_spec all_answers d (k_fs w) (entries (k_fs w) d) w l w' s' r (all_all _)) as [_ Hsw]; [split; reflexivity|exact E|].
  destruct (sweep_each_gone all_answers d (entries (k_fs w) d) w l w' s' r (all_all _) I E) as [_ Hg].
  split; [exact Hsw|]. split.
  - clear Hsw Hg. revert E. generalize (entries (k_fs w) d). intros ns. revert w l. induction ns as [|n ns IH]; intros w l E; cbn [sweep_each] in E.
    + inversion E. reflexivity.
    + unfold bind in E. destruct (call (f_remove_all (n :: d)) w l) as [[w1 s1] r1] eqn:E1.
      assert (Hn : k_next w1 = k_next w) by (unfold call in E1; destruct l as [|[i| |i] l]; inversion E1; subst; reflexivity).
      destruct r1; [rewrite <- Hn; exact (IH _ _ E)|inversion E; subst; exact Hn|inversion E; subst; exact Hn].
  - intros Hr Hst q (c & t & ->). destruct (get (k_fs w') (c :: t ++ d)) eqn:Eq; [|reflexivity]. exfalso. destruct Hsw as [_ Hsw].
    assert (E0 : get (k_fs w) (c :: t ++ d) = Some i) by (rewrite <- Hsw; congruence).
    destruct (top_entry _ _ _ Hst _ _ E0) as (e & y & H1 & H2). apply in_entries in H1. rewrite (Hg Hr e _ H1 H2) in Eq. discriminate.
Qed.

Lemma work_not_merged : s_work <> s_merged.
Proof. discriminate. Qed.
Lemma layout_apart : apart [s_work] [s_merged].
Proof. split; intros H; apply within_under in H; vm_compute in H; discriminate. Qed.

(* f' is f, or f and the directory n, which was missing. *)
Definition ensured (n : name) (f f' : files) : Prop :=
  (forall q, get f' q = get f q) \/ (get f [n] = None /\ forall q, path_eqb q [n] = false -> get f' q = get f q) /\ exists m t, get f' [n] = Some (IDir m t).
Lemma ensure_spec umask now n w s w' s' r : ensure_dir umask now n w s = (w', s', r) -> (forall t, get (k_fs w) [n] <> Some (ILink t)) ->
  ensured n (k_fs w) (k_fs w') /\ k_next w' = k_next w /\ (r = Val tt -> exists m t, get (k_fs w') [n] = Some (IDir m t)).
Proof.
  intros E Hp. unfold ensure_dir, bind, ask in E. destruct s as [|[j| |j] l].
  1,3,4: inversion E; subst; split; [left; reflexivity|]; split; [reflexivity|discriminate].
  destruct (leads (k_fs w) n) as [d|] eqn:El.
  - unfold ret in E. inversion E; subst. split; [left; reflexivity|]. split; [reflexivity|]. intros _. unfold leads in El.
    destruct (get (k_fs w') [n]) as [[m t| |t|]|] eqn:Eg; try discriminate; [exists m, t; reflexivity|]. destruct (Hp t eq_refl).
  - assert (Hm : forall w1, f_mkdir umask now [n] 511 w = Some w1 -> ensured n (k_fs w) (k_fs w1) /\ k_next w1 = k_next w /\ exists m t, get (k_fs w1) [n] = Some (IDir m t)).
    { intros w1 H. apply mkdir_upd in H as [H1 [H2 H3]]. assert (H4 : exists m t, get (k_fs w1) [n] = Some (IDir m t)) by (rewrite H3, path_eqb_refl; eexists; eexists; reflexivity).
      split; [|split; [exact H2|exact H4]]. right. split; [|exact H4]. split; [exact H1|]. intros q Hq. rewrite H3, Hq. reflexivity. }
    unfold call in E. destruct l as [|[j2| |j2] l]; [inversion E; subst; split; [left; reflexivity|]; split; [reflexivity|discriminate]| |inversion E; subst; split; [left; reflexivity|]; split; [reflexivity|discriminate]|];
      destruct (f_mkdir umask now [n] 511 w) as [w1|] eqn:Em; inversion E; subst; try (split; [left; reflexivity|]; split; [reflexivity|discriminate]).
    + destruct (Hm _ eq_refl) as (H1 & H2 & H3). auto.
    + destruct (Hm _ eq_refl) as (H1 & H2 & H3). split; [exact H1|]. split; [exact H2|discriminate].
Qed.
Lemma ensured_keeps n f f' q x : ensured n f f' -> get f q = Some x -> get f' q = Some x.
Proof.
  intros [H|[[H0 H] _]] Hq; [rewrite H; exact Hq|]. destruct (path_eqb q [n]) eqn:E; [apply path_eqb_eq in E; congruence|]. rewrite (H q E). exact Hq.
Qed.
Lemma ensured_new n f f' q : ensured n f f' -> get f q = None -> get f' q <> None -> q = [n] /\ exists m t, get f' q = Some (IDir m t).
Proof.
  intros [H|[[H0 H] Hd]] Hq Hn; [rewrite H in Hn; contradiction|]. destruct (path_eqb q [n]) eqn:E; [|rewrite (H q E) in Hn; contradiction].
  apply path_eqb_eq in E. subst q. split; [reflexivity|exact Hd].
Qed.

Lemma new_spec umask now w s w' s' r : plain (k_fs w) -> new umask now w s = (w', s', r) ->
  (forall q x, ~ strictly_under [s_work] q -> get (k_fs w) q = Some x -> get (k_fs w') q = Some x) /\
  (forall q, get (k_fs w) q = None -> get (k_fs w') q <> None -> (q = [s_merged] \/ q = [s_work]) /\ exists m t, get (k_fs w') q = Some (IDir m t)) /\
  (r = Val tt -> k_next w' = 0%N /\ is_dir_in (k_fs w') [s_merged] /\ is_dir_in (k_fs w') [s_work] /\ (standing [s_work] (k_fs w) -> emptied (k_fs w') [s_work])).
Proof.
  intros Hp E. unfold new in E. unfold bind at 1 in E. destruct (ensure_canonical umask now w s) as [[w1 s1] r1] eqn:E1.
  unfold ensure_canonical in E1. unfold bind in E1. destruct (ensure_dir umask now s_merged w s) as [[w2 s2] r2] eqn:E2.
  destruct (ensure_spec _ _ _ _ _ _ _ _ E2 (fun t => Hp s_merged t (or_introl eq_refl))) as (M1 & M2 & M3).
  assert (Hmid : forall q, (get (k_fs w) q = None -> get (k_fs w2) q <> None -> (q = [s_merged] \/ q = [s_work]) /\ exists m t, get (k_fs w2) q = Some (IDir m t))).
  { intros q H1 H2. destruct (ensured_new _ _ _ _ M1 H1 H2) as [H3 H4]. auto. }
  destruct r2 as [[]| |].
  2,3: inversion E1; subst w1 s1 r1; inversion E; subst w' s' r; (split; [intros q x _ H; exact (ensured_keeps _ _ _ _ _ M1 H)|]); split; [exact Hmid|discriminate].
  assert (Hp2 : forall t, get (k_fs w2) [s_work] <> Some (ILink t)).
  { intros t H. destruct (get (k_fs w) [s_work]) eqn:Ew.
    - pose proof (ensured_keeps _ _ _ _ _ M1 Ew) as Hk. apply (Hp s_work t (or_intror eq_refl)). congruence.
    - destruct (ensured_new _ _ _ _ M1 Ew) as [_ (m & t' & H2)]; congruence. }
  destruct (ensure_spec _ _ _ _ _ _ _ _ E1 Hp2) as (W1 & W2 & W3).
  assert (K1 : forall q x, get (k_fs w) q = Some x -> get (k_fs w1) q = Some x).
  { intros q x H. apply (ensured_keeps _ _ _ _ _ W1). exact (ensured_keeps _ _ _ _ _ M1 H). }
  assert (K2 : forall q, get (k_fs w) q = None -> get (k_fs w1) q <> None -> (q = [s_merged] \/ q = [s_work]) /\ exists m t, get (k_fs w1) q = Some (IDir m t)).
  { intros q H1 H2. destruct (get (k_fs w2) q) as [x|] eqn:Eq.
    - destruct (Hmid q H1) as [H3 (m & t & H4)]; [congruence|]. split; [exact H3|]. exists m, t. apply (ensured_keeps _ _ _ _ _ W1). exact H4.
    - destruct (ensured_new _ _ _ _ W1 Eq H2) as [H3 H4]. auto. }
  destruct r1 as [[]| |].
  2,3: inversion E; subst w' s' r; (split; [intros q x _ H; exact (K1 _ _ H)|]); split; [exact K2|discriminate].
  destruct (W3 eq_refl) as (mw & tw & Hw). destruct (M3 eq_refl) as (mm & tm & Hm). apply (ensured_keeps _ _ _ _ _ W1) in Hm.
  unfold bind, start in E. cbn [k_fs] in E. assert (El : leads (k_fs w1) s_work = Some [s_work]) by (unfold leads; rewrite Hw; reflexivity). rewrite El in E.
  destruct (sweeps _ _ _ _ _ _ E) as ([S1 S2] & S3 & S4). cbn [k_fs k_next] in *.
  assert (Hns : forall n, ~ strictly_under [s_work] [n]).
  { intros n (c & t & H). apply (f_equal (@length _)) in H. cbn in H. rewrite app_length in H. cbn in H. lia. }
  split; [|split].
  - intros q x Hq H. rewrite (S1 q Hq). exact (K1 _ _ H).
  - intros q H1 H2. pose proof (S2 q H2) as H3. rewrite H3 in H2 |- *. exact (K2 q H1 H2).
  - intros Hr. split; [exact S3|]. split; [right; exists mm, tm; rewrite S1; [exact Hm|apply Hns]|]. split; [right; exists mw, tw; rewrite S1; [exact Hw|apply Hns]|].
    intros Hst. apply S4; [exact Hr|]. intros c q x Hq H.
    destruct (get (k_fs w) (c :: q)) as [y|] eqn:Eq.
    + destruct (Hst c q y Hq Eq) as [H5|(m & t & H5)]; [left; exact H5|right; exists m, t; exact (K1 _ _ H5)].
    + destruct (K2 (c :: q) Eq) as [[H5|H5] _]; [congruence| |]; destruct Hq as (a & b & ->); discriminate.
Qed.

(* The process dies in a copy-up, or not; a new overlay over the top; the copy-up again. *)
Lemma copy_standing umask now stage content src p w s w' s' r : apart stage content -> p <> [] -> get (k_fs w) (p ++ content) = None ->
  copy_up umask now stage content src p w s = (w', s', r) -> standing stage (k_fs w) -> standing stage (k_fs w').
Proof.
  intros Hap Hp Hd E Hst. destruct (adds_only _ _ _ _ Hap _ _ _ _ _ _ _ Hp Hd E) as [H1 H2].
  assert (Hout : forall a q, strictly_under stage q -> q <> a ++ content).
  { intros a q (c & t & Hq) H. destruct Hap as [A1 A2]. rewrite Hq in H. assert (Hu : under content (c :: t ++ stage)) by (exists a; exact H).
    assert (Hv : under stage (c :: t ++ stage)) by (exists (c :: t); reflexivity).
    destruct Hu as [u Hu], Hv as [v Hv]. rewrite Hu in Hv. clear - Hv A1 A2. revert v Hv. induction u as [|x u IH]; intros [|y v] Hv; cbn [app] in Hv.
    - apply A1. exists []. exact Hv.
    - apply A1. exists (y :: v). exact Hv.
    - apply A2. exists (x :: u). symmetry. exact Hv.
    - injection Hv as _ Hv. exact (IH _ Hv). }
  intros c q x Hq H. destruct (get (k_fs w) (c :: q)) as [y|] eqn:Eq.
  - destruct (Hst c q y Hq Eq) as [H3|(m & t & H3)]; [left; exact H3|right; exists m, t; exact (H1 _ _ H3)].
  - exfalso. destruct (path_dec (c :: q) (next_tmp stage w)) as [He|Hn].
    + unfold next_tmp in He. injection He as _ He. destruct Hq as (a & b & Hq). rewrite Hq in He. apply (f_equal (@length _)) in He. cbn in He. rewrite app_length in He. lia.
    + assert (Hq' : strictly_under stage (c :: q)) by (destruct Hq as (a & b & ->); exists c, (a :: b); reflexivity).
      destruct (H2 _ Hn Eq) as [H3|(a & _ & H3 & _)]; [congruence| |]; [exact (Hout p _ Hq' H3)|exact (Hout a _ Hq' H3)].
Qed.

Lemma restarts umask now src p w s1 w1 t1 r1 s2 w2 t2 :
  p <> [] -> plain (k_fs w) -> standing [s_work] (k_fs w) -> is_dir_in (k_fs w) [s_merged] -> is_dir_in (k_fs w) [s_work] -> get (k_fs w) (p ++ [s_merged]) = None ->
  copy_up umask now [s_work] [s_merged] src p w s1 = (w1, t1, r1) -> new umask now w1 s2 = (w2, t2, Val tt) ->
  emptied (k_fs w2) [s_work] /\
  (forall q x, ~ strictly_under [s_work] q -> get (k_fs w) q = Some x -> get (k_fs w2) q = Some x) /\
  (forall q, get (k_fs w) q = None -> get (k_fs w2) q <> None ->
     q = p ++ [s_merged] \/ exists a, passes p a /\ q = a ++ [s_merged] /\ exists m t, get (k_fs w2) q = Some (IDir m t)) /\
  (get (k_fs w2) (p ++ [s_merged]) = None \/ exists x y, s_lstat src p = Some x /\ get (k_fs w2) (p ++ [s_merged]) = Some y /\ copy_of umask now x y) /\
  (forall x s3 w3 t3 r3, get (k_fs w2) (p ++ [s_merged]) = None -> clear_way [s_merged] p (k_fs w) -> s_lstat src p = Some x -> (forall m, x <> ISpecial m) ->
     Forall done s3 -> 5 * length p + bytes_of (Some x) + 11 < length s3 -> copy_up umask now [s_work] [s_merged] src p w2 s3 = (w3, t3, r3) ->
     r3 = Val tt /\ exists y, get (k_fs w3) (p ++ [s_merged]) = Some y /\ exact_copy x y).
Proof.
  intros Hp Hpl Hst Hm Hw Hd E1 E2. pose proof layout_apart as Hap.
  destruct (adds_only _ _ _ _ Hap _ _ _ _ _ _ _ Hp Hd E1) as [A1 A2]. pose proof (copy_standing _ _ _ _ _ _ _ _ _ _ _ Hap Hp Hd E1 Hst) as Hst1.
  assert (Hdir : forall n, is_dir_in (k_fs w) [n] -> exists m t, get (k_fs w) [n] = Some (IDir m t)) by (intros n [H|H]; [discriminate|exact H]).
  assert (Hpl1 : plain (k_fs w1)).
  { intros n t Hn H. destruct Hn as [->| ->]; [destruct (Hdir _ Hm) as (m & u & H1)|destruct (Hdir _ Hw) as (m & u & H1)]; apply A1 in H1; congruence. }
  destruct (new_spec _ _ _ _ _ _ _ Hpl1 E2) as (N1 & N2 & N3). destruct (N3 eq_refl) as (N4 & N5 & N6 & N7). specialize (N7 Hst1).
  assert (Hc : forall q, get (k_fs w) q = None -> get (k_fs w2) q <> None ->
     q = p ++ [s_merged] \/ exists a, passes p a /\ q = a ++ [s_merged] /\ exists m t, get (k_fs w2) q = Some (IDir m t)).
  { intros q H1 H2. destruct (get (k_fs w1) q) as [x|] eqn:Eq.
    - destruct (path_dec q (next_tmp [s_work] w)) as [He|Hn].
      + exfalso. apply H2. apply N7. rewrite He. unfold next_tmp. eexists; exists []; reflexivity.
      + destruct (A2 q Hn H1) as [H3|(a & H3 & H4 & m & t & H5)]; [congruence|left; exact H3|right]. exists a. split; [exact H3|]. split; [exact H4|]. exists m, t.
        apply N1; [|exact H5]. intros (c & u & Hu). rewrite H4 in Hu. assert (Ht := f_equal (@rev _) Hu). cbn [rev] in Ht. rewrite rev_app_distr in Ht. cbn [rev app] in Ht.
        change (c :: u ++ [s_work]) with ((c :: u) ++ [s_work]) in Hu. apply app_inj_tail in Hu as [_ Hu]. discriminate.
    - destruct (N2 q Eq H2) as [[->| ->] _]; [destruct (Hdir _ Hm) as (m & u & H3)|destruct (Hdir _ Hw) as (m & u & H3)]; congruence. }
  assert (Hk : forall q x, ~ strictly_under [s_work] q -> get (k_fs w) q = Some x -> get (k_fs w2) q = Some x).
  { intros q x Hq H. apply N1; [exact Hq|]. exact (A1 _ _ H). }
  assert (Hin : forall a, ~ strictly_under [s_work] (a ++ [s_merged])).
  { intros a (c & u & Hu). change (c :: u ++ [s_work]) with ((c :: u) ++ [s_work]) in Hu. apply app_inj_tail in Hu as [_ Hu]. discriminate. }
  split; [exact N7|]. split; [exact Hk|]. split; [exact Hc|]. split.
  - destruct (whole_or_absent _ _ _ _ Hap _ _ _ _ _ _ _ Hp Hd E1) as [[H|(x & y & H1 & H2 & H3)] _].
    + left. destruct (get (k_fs w2) (p ++ [s_merged])) eqn:Eq; [|reflexivity]. exfalso. destruct (N2 _ H) as [[H4|H4] _]; [congruence| |].
      * destruct p as [|c q]; [contradiction|]. cbn [app] in H4. injection H4 as _ H4. destruct q; discriminate.
      * destruct p as [|c q]; [contradiction|]. cbn [app] in H4. injection H4 as _ H4. destruct q; discriminate.
    + right. exists x, y. split; [exact H1|]. split; [apply N1; [apply Hin|exact H2]|exact H3].
  - intros x s3 w3 t3 r3 Hd2 Hcl Hx Hsp Hs Hl E3.
    assert (Hr : r3 = Val tt).
    { apply (succeeds umask now [s_work] [s_merged] Hap src p w2 s3 w3 t3 r3 x Hp Hd2 Hs N5 N6); [| |exact Hx|exact Hsp|exact Hl|exact E3].
      - intros a Ha. destruct (Hcl a Ha) as [H|(m & t & H)].
        + destruct (get (k_fs w2) (a ++ [s_merged])) eqn:Eq; [|left; reflexivity]. right. destruct (Hc _ H) as [H3|(b & _ & _ & m & t & H3)]; [congruence| |exists m, t; congruence].
          symmetry in H3. destruct p as [|c q]; [contradiction|]. destruct (dst_out [s_merged] c q a Ha H3).
        + right. exists m, t. apply Hk; [apply Hin|exact H].
      - apply N7. unfold next_tmp. eexists; exists []; reflexivity. }
    split; [exact Hr|]. subst r3. destruct (exact_when_served _ _ _ _ Hap _ _ _ _ _ _ Hp Hd2 Hs E3) as [(x' & y & H1 & H2 & H3) _].
    exists y. split; [exact H2|]. congruence.
Qed.

(* --- what does not hold --- *)
Definition a_source (x : item) : source := {| s_lstat := fun p => match p with [[102]%N] => Some x | _ => None end; s_stat := fun _ => None |}.
Definition fresh : world := {| k_fs := [([s_merged], IDir 493 0); ([s_work], IDir 493 0)]; k_next := 0; k_loose := [] |}.
Definition served (n : nat) : list answer := repeat (Done 9) n.

Lemma loss_cuts : exists src p x w s w' s' n, s_lstat src p = Some x /\ get (k_fs w) (p ++ [s_merged]) = None /\ Forall done s /\ (forall q, In q (k_loose w) -> get (k_fs w) q = None) /\
  copy_up 18 7 [s_work] [s_merged] src p w s = (w', s', Val tt) /\
  exists y, get (power_loss n w') (p ++ [s_merged]) = Some y /\ ~ copy_of 18 7 x y.
Proof.
  exists (a_source (IFile 420 5 [1;2;3]%N)), [[102]%N], (IFile 420 5 [1;2;3]%N), fresh, (served 20). eexists _, _, 0.
  split; [reflexivity|]. split; [reflexivity|]. split; [apply Forall_forall; intros a Ha; apply repeat_spec in Ha; exists 9; exact Ha|]. split; [intros q []|].
  split; [vm_compute; reflexivity|]. eexists. split; [vm_compute; reflexivity|]. intros [H _]. discriminate.
Qed.

Lemma attrs_dropped : exists src p x w s w' s' y, s_lstat src p = Some x /\ get (k_fs w) (p ++ [s_merged]) = None /\
  copy_up 18 7 [s_work] [s_merged] src p w s = (w', s', Val tt) /\ get (k_fs w') (p ++ [s_merged]) = Some y /\ ~ exact_copy x y.
Proof.
  exists (a_source (IFile 438 5 [1;2;3]%N)), [[102]%N], (IFile 438 5 [1;2;3]%N), fresh, (served 5 ++ [Refused; Refused] ++ served 9). eexists _, _, _.
  split; [reflexivity|]. split; [reflexivity|]. split; [vm_compute; reflexivity|]. split; [vm_compute; reflexivity|]. intros H. discriminate.
Qed.

Lemma linked_work_wiped : exists w s w' s' q x, new 18 7 w s = (w', s', Val tt) /\ strictly_under [s_merged] q /\ get (k_fs w) q = Some x /\ get (k_fs w') q = None.
Proof.
  exists {| k_fs := [([s_merged], IDir 493 0); ([s_work], ILink s_merged); ([[102]%N; s_merged], IFile 420 5 [1]%N)]; k_next := 0; k_loose := [] |}, (served 9).
  eexists _, _, [[102]%N; s_merged], _. split; [vm_compute; reflexivity|]. split; [exists [102]%N, []; reflexivity|]. split; vm_compute; reflexivity.
Qed.
