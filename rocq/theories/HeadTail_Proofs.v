(* Proofs about the path iterators. *)
From Verif Require Import Common CommonLemmas ContentRange_Model PathLex_Model PathLex_Proofs HeadTail_Model HeadTail_Spec.

Lemma index_free c : sepfree c -> index_sep c = None.
Proof.
  induction c as [|b c IH]; intros H; [reflexivity|]. cbn [index_sep].
  destruct (N.eqb_spec b sep) as [E|E]; [exfalso; apply H; left; auto|].
  rewrite IH; [reflexivity|]. intros Hx; apply H; right; exact Hx.
Qed.

Lemma index_app c r : sepfree c -> index_sep (c ++ sep :: r) = Some (length c).
Proof.
  induction c as [|b c IH]; intros H; cbn [index_sep app length].
  - rewrite N.eqb_refl. reflexivity.
  - destruct (N.eqb_spec b sep) as [E|E]; [exfalso; apply H; left; auto|].
    rewrite IH; [reflexivity|]. intros Hx; apply H; right; exact Hx.
Qed.

Lemma last_index_free c : sepfree c -> last_index_sep c = None.
Proof.
  induction c as [|b c IH]; intros H; [reflexivity|]. cbn [last_index_sep].
  rewrite IH by (intros Hx; apply H; right; exact Hx).
  destruct (N.eqb_spec b sep) as [E|E]; [exfalso; apply H; left; auto|]. reflexivity.
Qed.

Lemma last_index_app p c : sepfree c -> last_index_sep (p ++ sep :: c) = Some (length p).
Proof.
  intros H. induction p as [|b p IH]; cbn [last_index_sep app length].
  - rewrite last_index_free by exact H. rewrite N.eqb_refl. reflexivity.
  - rewrite IH. reflexivity.
Qed.

Definition good (c : list byte) : Prop := c <> [] /\ sepfree c.

Lemma normal_good root l : normal root l -> Forall good l.
Proof.
  intros (k & l' & -> & Hl & _). apply Forall_app. split.
  - clear. induction k as [|k IH]; cbn [repeat]; [constructor|]. constructor; [|exact IH].
    split; [discriminate|apply dotdot_sepfree].
  - eapply Forall_impl; [|exact Hl]. intros c (H1 & _ & _ & H2). split; auto.
Qed.

Lemma join_length_cons x l : l <> [] -> length (join_sep (x :: l)) = (length x + 1 + length (join_sep l))%nat.
Proof. intros H. rewrite join_cons by exact H. rewrite app_length. cbn [length]. lia. Qed.

Lemma head_loop_comps vol : forall suf t fuel, Forall good suf -> suf <> [] ->
  (length (join_sep suf) <= fuel)%nat ->
  head_loop fuel vol (t ++ join_sep suf) (length t) (join_sep suf) =
    Some (map (fun k => vol ++ t ++ join_sep (firstn k suf)) (seq 1 (length suf))).
Proof.
  induction suf as [|x suf IH]; intros t fuel Hg Hne Hf; [contradiction|].
  inversion Hg as [|? ? [Hx1 Hx2] Hg']; subst.
  destruct suf as [|y suf].
  - cbn [join_sep] in *. destruct x as [|b x]; [contradiction|]. destruct fuel as [|fuel]; [cbn in Hf; lia|].
    cbn [head_loop]. rewrite index_free by exact Hx2. reflexivity.
  - rewrite join_length_cons in Hf by discriminate. rewrite join_cons by discriminate.
    destruct fuel as [|fuel]; [lia|]. destruct x as [|b x]; [contradiction|].
    change ((b :: x) ++ sep :: join_sep (y :: suf)) with (b :: (x ++ sep :: join_sep (y :: suf))) at 2.
    cbn [head_loop].
    change (b :: (x ++ sep :: join_sep (y :: suf))) with ((b :: x) ++ sep :: join_sep (y :: suf)).
    rewrite index_app by exact Hx2. set (bx := b :: x) in *.
    assert (length bx =? 0 = false)%nat as Hz by (apply Nat.eqb_neq; unfold bx; cbn; lia).
    rewrite Hz.
    assert (t ++ bx ++ sep :: join_sep (y :: suf) = (t ++ bx ++ [sep]) ++ join_sep (y :: suf)) as Hn.
    { rewrite <- !app_assoc. reflexivity. }
    assert (length t + length bx + 1 = length (t ++ bx ++ [sep]))%nat as Hl.
    { rewrite !app_length. cbn [length]. lia. }
    assert (skipn (length bx + 1) (bx ++ sep :: join_sep (y :: suf)) = join_sep (y :: suf)) as ->.
    { rewrite skipn_app. rewrite skipn_all2 by lia. replace (length bx + 1 - length bx)%nat with 1%nat by lia. reflexivity. }
    assert (firstn (length t + length bx) (t ++ bx ++ sep :: join_sep (y :: suf)) = t ++ bx) as ->.
    { rewrite app_assoc, <- app_length, firstn_app, Nat.sub_diag, firstn_all. cbn [firstn]. apply app_nil_r. }
    rewrite Hn, Hl, IH; [|exact Hg'|discriminate|lia].
    cbn [option_map]. f_equal. change (length (bx :: y :: suf)) with (S (length (y :: suf))).
    cbn [seq map]. f_equal. rewrite <- (seq_shift (length (y :: suf)) 1), map_map. apply map_ext_in. intros k Hk. apply in_seq in Hk.
    destruct k as [|k]; [lia|].
    change (firstn (S (S k)) (bx :: y :: suf)) with (bx :: firstn (S k) (y :: suf)).
    rewrite join_cons by discriminate. rewrite <- !app_assoc. reflexivity.
Qed.

Lemma comps_normal p : normal (rooted p) (comps_of p).
Proof. apply clean_normal. Qed.

Lemma clean_comps_of p : clean p = render (rooted p) (comps_of p).
Proof. reflexivity. Qed.

Lemma path_from_head_spec vol p : path_from_head vol p = Some (map (app vol) (heads p)).
Proof.
  unfold path_from_head, heads, head_path. rewrite clean_comps_of.
  pose proof (normal_good _ _ (comps_normal p)) as Hg. destruct (rooted p).
  - set (cs := comps_of p) in *. unfold render at 1 2 3. destruct cs as [|x cs].
    + reflexivity.
    + cbn [length head_loop]. cbn [index_sep]. rewrite N.eqb_refl. cbn [Nat.eqb].
      cbn [skipn Nat.add].
      change (sep :: join_sep (x :: cs)) with ([sep] ++ join_sep (x :: cs)).
      change 1%nat with (length [sep]) at 1.
      rewrite (head_loop_comps vol (x :: cs) [sep] (length (join_sep (x :: cs)))); [|exact Hg|discriminate|lia].
      cbn [option_map]. f_equal. change (S (length cs)) with (length (x :: cs)).
      cbn [seq map]. f_equal. rewrite map_map. apply map_ext. reflexivity.
  - set (cs := comps_of p) in *. destruct cs as [|x cs].
    + reflexivity.
    + change (render false (x :: cs)) with (join_sep (x :: cs)).
      pose proof (head_loop_comps vol (x :: cs) [] (length (join_sep (x :: cs))) Hg ltac:(discriminate) ltac:(lia)) as Hh.
      change ([] ++ join_sep (x :: cs)) with (join_sep (x :: cs)) in Hh. change (length (@nil byte)) with 0%nat in Hh.
      rewrite Hh.
      f_equal. rewrite map_map. apply map_ext_in. intros k Hk. apply in_seq in Hk.
      destruct k as [|k]; [lia|]. reflexivity.
Qed.

Lemma vhead_head : forall fuel name cut rest, (forall i, index_sep rest = Some i -> i <> 0%nat) ->
  (forall k, rooted (skipn k rest) = true -> rooted (skipn (S k) rest) = false) ->
  vhead_loop fuel name cut rest = head_loop fuel [] name cut rest.
Proof.
  induction fuel as [|fuel IH]; intros name cut rest H0 Hd; destruct rest as [|b r]; try reflexivity.
  cbn [vhead_loop head_loop]. destruct (index_sep (b :: r)) as [i|] eqn:Ei; [|reflexivity].
  specialize (H0 i eq_refl). destruct (Nat.eqb_spec i 0); [contradiction|].
  rewrite IH; [reflexivity| |].
  - intros j Hj Hz. subst j.
    assert (Hr : forall q, index_sep q = Some 0%nat -> rooted q = true).
    { intros q Hq. destruct q as [|c q]; [discriminate|]. cbn in *. destruct (N.eqb c sep); [reflexivity|].
      destruct (index_sep q); discriminate. }
    apply Hr in Hj. replace (i + 1)%nat with (S i) in Hj by lia.
    assert (rooted (skipn i (b :: r)) = true) as Hi.
    { clear - Ei. revert i Ei. generalize (b :: r). intros q. induction q as [|c q IHq]; intros i Ei; [discriminate|].
      cbn [index_sep] in Ei. destruct (N.eqb c sep) eqn:E.
      - apply some_inj in Ei. subst i. cbn. exact E.
      - destruct (index_sep q) as [j|] eqn:Ej; [|discriminate]. cbn in Ei. apply some_inj in Ei. subst i. cbn [skipn]. apply IHq. reflexivity. }
    rewrite (Hd i Hi) in Hj. discriminate.
  - intros k Hk. rewrite skipn_skipn' in *. replace (i + 1 + S k)%nat with (S (i + 1 + k)) by lia. apply Hd. exact Hk.
Qed.

(* joined ordinary names have no two separators in a row and do not start with one *)
Lemma join_no_double l : Forall good l -> forall k,
  rooted (skipn k (join_sep l)) = true -> rooted (skipn (S k) (join_sep l)) = false.
Proof.
  intros Hg. assert (Hx : forall c, good c -> forall k r, (k < length c)%nat -> rooted (skipn k (c ++ r)) = false).
  { intros c [_ Hs] k r Hk. rewrite skipn_app. destruct (skipn k c) as [|b q] eqn:E.
    - apply (f_equal (@length _)) in E. rewrite skipn_length in E. cbn in E. lia.
    - cbn. apply N.eqb_neq. intros ->. apply Hs. rewrite <- (firstn_skipn k c). apply in_or_app. right. rewrite E. left; reflexivity. }
  induction Hg as [|x l Hxg Hl IH]; intros k Hk; [cbn in *; destruct k; discriminate|].
  destruct l as [|y l].
  - cbn [join_sep] in *. destruct (Nat.lt_ge_cases k (length x)) as [H|H].
    + rewrite <- (app_nil_r x) in Hk. rewrite (Hx x Hxg k [] H) in Hk. discriminate.
    + rewrite skipn_all2 in Hk by exact H. discriminate.
  - rewrite join_cons in * by discriminate. destruct (Nat.lt_trichotomy k (length x)) as [H|[H|H]].
    + rewrite (Hx x Hxg k _ H) in Hk. discriminate.
    + subst k. rewrite skipn_app, skipn_all2 by lia. replace (S (length x) - length x)%nat with 1%nat by lia.
      cbn [skipn app]. inversion Hl as [|? ? Hyg _]; subst. destruct l as [|z l].
      * cbn [join_sep]. destruct Hyg as [Hy1 Hy2]. rewrite <- (app_nil_r y). apply (Hx y (conj Hy1 Hy2) 0%nat []).
        destruct y; [contradiction|cbn; lia].
      * rewrite join_cons by discriminate. apply (Hx y Hyg 0%nat). destruct Hyg as [Hy1 _].
        destruct y; [contradiction|cbn; lia].
    + rewrite skipn_app, skipn_all2 in * by lia. cbn [app] in *.
      replace (S k - length x)%nat with (S (k - length x)) by lia.
      assert (exists j, k - length x = S j)%nat as [j Hj] by (exists (k - length x - 1)%nat; lia).
      rewrite Hj in *. cbn [skipn] in *. apply IH. exact Hk.
Qed.

Lemma index_good_head l : Forall good l -> forall i, index_sep (join_sep l) = Some i -> i <> 0%nat.
Proof.
  intros Hg i Hi Hz. subst i. destruct Hg as [|x l [Hx1 Hx2] Hl]; [discriminate|].
  destruct l as [|y l].
  - cbn [join_sep] in Hi. rewrite index_free in Hi by exact Hx2. discriminate.
  - rewrite join_cons, index_app in Hi by (auto; discriminate). apply some_inj in Hi. destruct x; [contradiction|discriminate].
Qed.

Lemma vpath_from_head_spec p : rooted p = false -> vpath_from_head p = Some (heads p).
Proof.
  intros Hr. pose proof (path_from_head_spec [] p) as H. rewrite map_id in H. rewrite <- H.
  unfold vpath_from_head, path_from_head. rewrite clean_comps_of, Hr.
  pose proof (normal_good _ _ (comps_normal p)) as Hg.
  destruct (comps_of p) as [|x l] eqn:E; [reflexivity|]. change (render false (x :: l)) with (join_sep (x :: l)).
  apply vhead_head; [apply index_good_head; exact Hg|apply join_no_double; exact Hg].
Qed.

(* ---- tail ---- *)

Lemma tail_loop_rel vol : forall l fuel, Forall good l -> l <> [] -> (length (join_sep l) <= fuel)%nat ->
  tail_loop fuel vol (join_sep l) = Some (rev (map (fun k => vol ++ join_sep (firstn k l)) (seq 1 (length l - 1)))).
Proof.
  induction l as [|x l IH] using rev_ind; intros fuel Hg Hne Hf; [contradiction|].
  apply Forall_app in Hg. destruct Hg as [Hg Hx]. inversion Hx as [|? ? [Hx1 Hx2] _]; subst.
  destruct l as [|y l].
  - cbn [app join_sep length] in *. destruct x as [|b x]; [contradiction|]. destruct fuel as [|fuel]; [cbn in Hf; lia|].
    cbn [tail_loop]. rewrite last_index_free by exact Hx2. reflexivity.
  - rewrite join_app in * by discriminate. cbn [join_sep] in Hf |- *.
    change (match l with [] => y | _ :: _ => y ++ sep :: join_sep l end) with (join_sep (y :: l)) in *.
    rewrite app_length in Hf. cbn [length] in Hf.
    assert (join_sep (y :: l) <> []) as Hjn.
    { inversion Hg as [|? ? [Hy _] _]; subst. destruct l; cbn; [exact Hy|]. destruct y; [contradiction|discriminate]. }
    destruct fuel as [|fuel]; [lia|].
    assert (exists b r, join_sep (y :: l) ++ sep :: x = b :: r) as (b & r & Eb).
    { destruct (join_sep (y :: l)); cbn; eauto. }
    rewrite Eb. cbn [tail_loop]. rewrite <- Eb. rewrite last_index_app by exact Hx2.
    assert (exists j, length (join_sep (y :: l)) = S j) as [j Hj].
    { destruct (join_sep (y :: l)); [contradiction|cbn; eauto]. }
    rewrite Hj. rewrite <- Hj. rewrite firstn_app, Nat.sub_diag, firstn_all. cbn [firstn]. rewrite app_nil_r.
    rewrite IH; [|exact Hg|discriminate|lia].
    cbn [option_map]. f_equal. rewrite app_length. cbn [length].
    replace (S (length l) + 1 - 1)%nat with (S (length l)) by lia.
    replace (S (length l) - 1)%nat with (length l) by lia.
    rewrite seq_S, map_app, rev_app_distr. cbn [map rev app].
    change (y :: l ++ [x]) with ((y :: l) ++ [x]).
    rewrite (firstn_app (1 + length l)), firstn_all2 by (cbn; lia).
    replace (1 + length l - length (y :: l))%nat with 0%nat by (cbn; lia). cbn [firstn]. rewrite app_nil_r.
    f_equal. f_equal. apply map_ext_in. intros k Hk. apply in_seq in Hk. f_equal. f_equal.
    change (y :: l ++ [x]) with ((y :: l) ++ [x]).
    rewrite firstn_app. replace (k - length (y :: l))%nat with 0%nat by (cbn; lia). cbn [firstn].
    rewrite app_nil_r. reflexivity.
Qed.

Lemma tail_loop_abs vol : forall l fuel, Forall good l -> (S (length (join_sep l)) <= fuel)%nat -> l <> [] ->
  tail_loop fuel vol (sep :: join_sep l) =
    Some (rev (map (fun k => vol ++ sep :: join_sep (firstn k l)) (seq 0 (length l)))).
Proof.
  induction l as [|x l IH] using rev_ind; intros fuel Hg Hf Hne; [contradiction|]. clear Hne.
  apply Forall_app in Hg. destruct Hg as [Hg Hx]. inversion Hx as [|? ? [Hx1 Hx2] _]; subst.
  destruct fuel as [|fuel]; [lia|]. cbn [tail_loop].
  destruct l as [|y l].
  - cbn [app join_sep length] in *. pose proof (last_index_app [] x Hx2) as Hi. cbn [app length] in Hi. rewrite Hi. reflexivity.
  - rewrite join_app in * by discriminate. cbn [join_sep] in Hf |- *.
    change (match l with [] => y | _ :: _ => y ++ sep :: join_sep l end) with (join_sep (y :: l)) in *.
    rewrite app_length in Hf. cbn [length] in Hf.
    change (sep :: join_sep (y :: l) ++ sep :: x) with ((sep :: join_sep (y :: l)) ++ sep :: x).
    rewrite last_index_app by exact Hx2. cbn [length].
    change (S (length (join_sep (y :: l)))) with (length (sep :: join_sep (y :: l))).
    rewrite firstn_app, Nat.sub_diag, firstn_all. cbn [firstn]. rewrite app_nil_r.
    rewrite IH; [|exact Hg|lia|discriminate].
    cbn [option_map]. f_equal. rewrite app_length. change (length [x]) with 1%nat. rewrite Nat.add_1_r.
    rewrite seq_S, map_app, rev_app_distr. cbn [map rev app]. rewrite Nat.add_0_l.
    change (y :: l ++ [x]) with ((y :: l) ++ [x]). rewrite (firstn_app (length (y :: l))), firstn_all, Nat.sub_diag. cbn [firstn]. rewrite app_nil_r.
    f_equal. f_equal. apply map_ext_in. intros k Hk. apply in_seq in Hk. f_equal. f_equal. f_equal.
    change (y :: l ++ [x]) with ((y :: l) ++ [x]). rewrite firstn_app. replace (k - length (y :: l))%nat with 0%nat by lia. cbn [firstn].
    rewrite app_nil_r. reflexivity.
Qed.

Lemma normal_not_dot l : normal false l -> join_sep l <> [dot].
Proof.
  intros Hn E. pose proof (normal_good _ _ Hn) as Hg. destruct l as [|x l]; [discriminate|].
  pose proof (split_join (x :: l) ltac:(discriminate) (normal_sepfree _ _ Hn)) as Hs. rewrite E in Hs.
  cbn in Hs. injection Hs as <- <-. destruct Hn as (k & l' & El & Hl & _). destruct k as [|k]; cbn in El.
  - subst l'. inversion Hl as [|? ? (_ & Hd & _) _]; subst. contradiction.
  - discriminate.
Qed.

Lemma path_from_tail_spec vol p : clean p <> [sep] -> path_from_tail vol p = Some (map (app vol) (rev (heads p))).
Proof.
  intros Hroot. unfold path_from_tail, heads, head_path. rewrite clean_comps_of in *.
  pose proof (comps_normal p) as Hn. pose proof (normal_good _ _ Hn) as Hg.
  destruct (rooted p).
  - set (cs := comps_of p) in *. change (render true cs) with (sep :: join_sep cs) in *.
    assert (is_dot (sep :: join_sep cs) = false) as ->.
    { eapply bool_false_iff; [apply is_dot_true|]. discriminate. }
    destruct cs as [|x cs]; [contradiction|].
    rewrite tail_loop_abs; [|exact Hg|cbn [length]; lia|discriminate].
    cbn [option_map]. f_equal. rewrite seq_S, map_app, rev_app_distr. cbn [map rev app].
    rewrite Nat.add_0_l, firstn_all. f_equal. rewrite map_rev, map_map. reflexivity.
  - set (cs := comps_of p) in *. destruct cs as [|x cs].
    + reflexivity.
    + change (render false (x :: cs)) with (join_sep (x :: cs)).
      assert (is_dot (join_sep (x :: cs)) = false) as ->.
      { eapply bool_false_iff; [apply is_dot_true|]. apply normal_not_dot. exact Hn. }
      rewrite tail_loop_rel; [|exact Hg|discriminate|lia].
      cbn [option_map]. f_equal. replace (length (x :: cs) - 1)%nat with (length cs) by (cbn; lia).
      change (length (x :: cs)) with (S (length cs)). rewrite seq_S, map_app, rev_app_distr. cbn [map rev app].
      rewrite firstn_all2 by (cbn; lia). f_equal. rewrite map_rev, map_map. f_equal.
      apply map_ext_in. intros k Hk. apply in_seq in Hk. destruct k as [|k]; [lia|]. reflexivity.
Qed.

(* every prefix occurs once *)
Lemma heads_nodup p : NoDup (heads p).
Proof.
  assert (Hinj : forall i j, (i <= length (comps_of p))%nat -> (j <= length (comps_of p))%nat ->
     head_path p i = head_path p j -> i = j).
  { intros i j Hi Hj E. unfold head_path in E.
    assert (Hnf : forall k, normal (rooted p) (firstn k (comps_of p))).
    { intros k. destruct (comps_normal p) as (m & l' & El & Hl & Hm). rewrite El, firstn_app.
      exists (min k m), (firstn (k - length (repeat [dot; dot] m)) l'). split; [|split].
      - f_equal. clear. revert k. induction m as [|m IH]; intros k; [rewrite Nat.min_0_r, firstn_nil; reflexivity|].
        destruct k; [reflexivity|]. cbn [repeat firstn Nat.min]. now rewrite IH.
      - apply Forall_firstn. exact Hl.
      - intros Hr. specialize (Hm Hr). lia. }
    apply render_inj in E; auto. apply (f_equal (@length _)) in E. rewrite !firstn_length in E. lia. }
  unfold heads. destruct (rooted p).
  - apply NoDup_map_inj_in; [|apply seq_NoDup].
    intros i j Hi Hj E. apply in_seq in Hi, Hj. apply Hinj; [lia|lia|exact E].
  - destruct (comps_of p) as [|x l] eqn:Ec; [constructor; [intros []|constructor]|]. rewrite <- Ec in *.
    apply NoDup_map_inj_in; [|apply seq_NoDup].
    intros i j Hi Hj E. apply in_seq in Hi, Hj. apply Hinj; [lia|lia|exact E].
Qed.
