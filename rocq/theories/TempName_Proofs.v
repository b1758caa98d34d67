(* Proofs about temp-file names and random-name creation. *)
From Verif Require Import Common CommonLemmas ContentRange_Model ContentRange_Proofs
  PathLex_Model PathLex_Proofs Utf8_Model Utf8_Spec Utf8_Proofs TempName_Model TempName_Spec.
Open Scope nat_scope.

Lemma is_digit_iff b : is_digit b = true <-> (48 <= b <= 57)%N.
Proof. unfold is_digit. rewrite andb_true_iff, !N.leb_le. reflexivity. Qed.

Lemma ten_digits_iff s : ten_digits s = true <-> digits10 s.
Proof.
  unfold ten_digits, digits10. rewrite andb_true_iff, Nat.eqb_eq, forallb_forall, Forall_forall.
  split; intros [H1 H2]; (split; [exact H1|]); intros x Hx; apply is_digit_iff; auto.
Qed.

(* ---- decimal numbers ---- *)

Definition dig_step (a b : N) : N := (10 * a + (b - 48))%N.

Lemma fmt_loop_digits fuel : forall n acc, Forall (fun b => (48 <= b <= 57)%N) acc ->
  Forall (fun b => (48 <= b <= 57)%N) (fmt_uint_loop fuel n acc).
Proof.
  induction fuel as [|fuel IH]; intros n acc Ha; [exact Ha|]. cbn [fmt_uint_loop].
  assert (Forall (fun b => (48 <= b <= 57)%N) ((48 + n mod 10)%N :: acc)) as H.
  { constructor; [|exact Ha]. pose proof (N.mod_lt n 10). lia. }
  destruct (n / 10 =? 0)%N; [exact H|apply IH; exact H].
Qed.

Lemma fmt_loop_length k : forall fuel n acc, (n < 10 ^ N.of_nat k)%N -> 1 <= k ->
  length (fmt_uint_loop fuel n acc) <= length acc + k.
Proof.
  induction k as [|k IH]; intros fuel n acc Hn Hk; [lia|].
  destruct fuel as [|fuel]; cbn [fmt_uint_loop]; [lia|].
  destruct (N.eqb_spec (n / 10) 0) as [E|E]; [cbn [length]; lia|].
  destruct k as [|k].
  - exfalso. apply E. apply N.div_small. exact Hn.
  - specialize (IH fuel (n / 10)%N ((48 + n mod 10)%N :: acc)). cbn [length] in IH.
    enough (n / 10 < 10 ^ N.of_nat (S k))%N as H by (specialize (IH H); lia).
    apply N.div_lt_upper_bound; [lia|]. rewrite <- N.pow_succ_r'. rewrite <- Nnat.Nat2N.inj_succ. exact Hn.
Qed.

Lemma fmt_loop_value fuel : forall n acc, (n < 10 ^ N.of_nat fuel)%N ->
  fold_left dig_step (fmt_uint_loop fuel n acc) 0%N = fold_left dig_step acc n.
Proof.
  induction fuel as [|fuel IH]; intros n acc Hn; cbn [fmt_uint_loop].
  - cbn in Hn. replace n with 0%N by lia. reflexivity.
  - pose proof (N.div_mod n 10) as Hdm. pose proof (N.mod_lt n 10) as Hm.
    destruct (N.eqb_spec (n / 10) 0) as [E|E].
    + cbn [fold_left]. unfold dig_step at 2. f_equal. lia.
    + rewrite IH.
      * cbn [fold_left]. unfold dig_step at 2. f_equal. lia.
      * apply N.div_lt_upper_bound; [lia|]. rewrite <- N.pow_succ_r'. rewrite <- Nnat.Nat2N.inj_succ. exact Hn.
Qed.

Lemma fold_zeros k s : fold_left dig_step (repeat 48%N k ++ s) 0%N = fold_left dig_step s 0%N.
Proof. induction k as [|k IH]; [reflexivity|]. exact IH. Qed.

Lemma random_padded_digits r : uint32 r -> digits10 (random_padded r).
Proof.
  intros Hr. unfold random_padded. assert (length (fmt_uint r) <= 10) as Hl.
  { apply (fmt_loop_length 10 20 r []); [|lia]. unfold uint32 in Hr. change (10 ^ N.of_nat 10)%N with 10000000000%N. lia. }
  split.
  - rewrite app_length, repeat_length. lia.
  - apply Forall_app. split; [|apply fmt_loop_digits; constructor].
    apply Forall_forall. intros x Hx. apply repeat_spec in Hx. subst x. lia.
Qed.

Lemma random_padded_inj r1 r2 : uint32 r1 -> uint32 r2 -> random_padded r1 = random_padded r2 -> r1 = r2.
Proof.
  intros H1 H2 E. apply (f_equal (fun s => fold_left dig_step s 0%N)) in E. unfold random_padded in E.
  rewrite !fold_zeros in E. unfold fmt_uint in E. unfold uint32 in *.
  rewrite !fmt_loop_value in E; [exact E| |]; change (10 ^ N.of_nat 20)%N with 100000000000000000000%N; lia.
Qed.

(* ---- cutting strings ---- *)

Lemma cut_last_none b s : cut_last b s = None <-> ~ In b s.
Proof.
  induction s as [|c s IH]; cbn [cut_last]; [split; [intros _ []|reflexivity]|].
  destruct (cut_last b s) as [[x y]|].
  - split; [discriminate|]. intros H. exfalso.
    assert (~ In b s) as Hn by (intros Hi; apply H; right; exact Hi). apply IH in Hn. discriminate.
  - destruct (N.eqb_spec c b) as [->|Hne].
    + split; [discriminate|]. intros H. exfalso. apply H. left; reflexivity.
    + split; [|reflexivity]. intros _ [->|Hi]; [contradiction|]. apply IH in Hi; [exact Hi|reflexivity].
Qed.

Lemma cut_last_some b s : forall x y, cut_last b s = Some (x, y) <-> (s = x ++ b :: y /\ ~ In b y).
Proof.
  induction s as [|c s IH]; intros x y; cbn [cut_last].
  - split; [discriminate|]. intros [H _]. destruct x; discriminate.
  - destruct (cut_last b s) as [[x0 y0]|] eqn:E.
    + destruct (proj1 (IH x0 y0) eq_refl) as [Hs Hy]. split.
      * intros H. injection H as <- <-. split; [rewrite Hs; reflexivity|exact Hy].
      * intros [H1 H2]. destruct x as [|d x]; cbn [app] in H1; injection H1 as H0 H1.
        -- subst. exfalso. apply H2. apply in_or_app. right; left; reflexivity.
        -- subst d. pose proof (proj2 (IH x y) (conj H1 H2)) as Hq. apply some_inj in Hq. injection Hq as -> ->. reflexivity.
    + pose proof (proj1 (cut_last_none b s) E) as Hn. destruct (N.eqb_spec c b) as [->|Hne].
      * split.
        -- intros H. injection H as <- <-. split; [reflexivity|exact Hn].
        -- intros [H1 H2]. destruct x as [|d x]; cbn [app] in H1; [assert (s = y) as -> by congruence; reflexivity|].
           assert (s = x ++ b :: y) as H0 by congruence. clear H1. rename H0 into H1. exfalso. apply Hn. rewrite H1. apply in_or_app. right; left; reflexivity.
      * split; [discriminate|]. intros [H1 _]. destruct x as [|d x]; cbn [app] in H1; injection H1 as H0 H1; [contradiction|].
        exfalso. apply Hn. rewrite H1. apply in_or_app. right; left; reflexivity.
Qed.

Lemma cut_suffix_some suf s x : cut_suffix suf s = Some x <-> s = x ++ suf.
Proof.
  unfold cut_suffix. split.
  - destruct (bytes_eqb _ _) eqn:E; [|discriminate]. apply bytes_eqb_eq in E. intros H. injection H as <-.
    rewrite <- E at 2. symmetry. apply firstn_skipn.
  - intros ->. rewrite app_length. replace (length x + length suf - length suf) with (length x) by lia.
    rewrite skipn_app, skipn_all, Nat.sub_diag. cbn [app skipn].
    rewrite (proj2 (bytes_eqb_eq suf suf) eq_refl).
    rewrite firstn_app, Nat.sub_diag, firstn_all. cbn [firstn]. rewrite app_nil_r. reflexivity.
Qed.

Lemma digits_no_dot s : digits10 s -> ~ In dot s.
Proof. intros [_ H] Hi. rewrite Forall_forall in H. apply H in Hi. unfold dot in Hi. lia. Qed.

Lemma random_match_iff p : random_match p = true <-> random_temp_form (base p).
Proof.
  unfold random_match, random_temp_form. split.
  - destruct (cut_suffix tmp_ext (base p)) as [s|] eqn:E; [|discriminate]. apply cut_suffix_some in E.
    destruct (cut_last dot s) as [[x y]|] eqn:E2; [|discriminate]. apply cut_last_some in E2. destruct E2 as [-> _].
    destruct x as [|c x]; [discriminate|]. intros H. apply ten_digits_iff in H.
    exists (c :: x), y. split; [discriminate|]. split; [exact H|]. rewrite E, <- app_assoc. reflexivity.
  - intros (pre & ds & Hp & Hd & E).
    assert (cut_suffix tmp_ext (base p) = Some (pre ++ dot :: ds)) as ->.
    { apply cut_suffix_some. rewrite E, <- app_assoc. reflexivity. }
    assert (cut_last dot (pre ++ dot :: ds) = Some (pre, ds)) as ->.
    { apply cut_last_some. split; [reflexivity|apply digits_no_dot; exact Hd]. }
    destruct pre; [contradiction|]. apply ten_digits_iff. exact Hd.
Qed.

Lemma in_temp_dir_iff td p : in_temp_dir td p = true <-> at_or_below (clean td) (clean p).
Proof.
  unfold in_temp_dir, at_or_below. cbv zeta.
  rewrite orb_true_iff, !andb_true_iff, !bytes_eqb_eq, Nat.ltb_lt. split.
  - intros [H|[[H1 H2] H3]]; [left; exact H|right].
    destruct (nth_error (clean p) (length (clean td))) as [c|] eqn:E; [|discriminate].
    apply N.eqb_eq in H3. subst c. apply nth_error_split in E. destruct E as (l1 & l2 & E & El).
    exists l2. rewrite E in *. rewrite firstn_app, <- El, Nat.sub_diag, firstn_all in H2. cbn [firstn] in H2.
    rewrite app_nil_r in H2. subst l1. split; [|reflexivity]. intros ->. rewrite app_length in H1. cbn [length] in H1. lia.
  - intros [H|(r & Hr & E)]; [left; exact H|right]. rewrite E. split; [split|].
    + rewrite app_length. cbn [length]. destruct r; [contradiction|cbn [length]; lia].
    + rewrite firstn_app, Nat.sub_diag, firstn_all. cbn [firstn]. apply app_nil_r.
    + rewrite nth_error_app2, Nat.sub_diag by lia. cbn [nth_error]. apply N.eqb_refl.
Qed.

Lemma dir_match_iff td p : dir_match td p = true <-> at_or_below (clean td) (clean p) /\ dir_temp_form (base (clean p)).
Proof.
  unfold dir_match. rewrite andb_true_iff, in_temp_dir_iff. unfold dir_temp_form. split.
  - intros [H1 H2]. split; [exact H1|]. destruct (cut_suffix tmp_ext (base (clean p))) as [s|] eqn:E; [|discriminate].
    apply cut_suffix_some in E. exists s. split; [apply ten_digits_iff; exact H2|exact E].
  - intros [H1 (ds & Hd & E)]. split; [exact H1|].
    rewrite (proj2 (cut_suffix_some tmp_ext (base (clean p)) ds) E). apply ten_digits_iff. exact Hd.
Qed.

(* ---- names tried by openRandom ---- *)

Lemma in_sep_iff s : existsb (N.eqb sep) s = true <-> In sep s.
Proof.
  rewrite existsb_exists. split.
  - intros (x & Hx & E). apply N.eqb_eq in E. subst x. exact Hx.
  - intros H. exists sep. split; [exact H|apply N.eqb_refl].
Qed.

Lemma split_pattern_none pat : split_pattern pat = None <-> In sep pat.
Proof.
  unfold split_pattern. destruct (existsb (N.eqb sep) pat) eqn:E.
  - apply in_sep_iff in E. split; auto.
  - split; [discriminate|]. intros H. apply in_sep_iff in H. congruence.
Qed.

Lemma split_pattern_sepfree pat ps : split_pattern pat = Some ps -> sepfree (fst ps) /\ sepfree (snd ps).
Proof.
  unfold split_pattern. destruct (existsb (N.eqb sep) pat) eqn:E; [discriminate|]. intros H. apply some_inj in H. subst ps.
  assert (sepfree pat) as Hp by (intros Hi; apply in_sep_iff in Hi; congruence).
  destruct (cut_last star pat) as [[x y]|] eqn:E2; cbn [fst snd]; [|split; [exact Hp|intros []]].
  apply cut_last_some in E2. destruct E2 as [-> _]. split; intros Hi; apply Hp; apply in_or_app; [left|right; right]; exact Hi.
Qed.

Lemma digits_sepfree s : digits10 s -> sepfree s.
Proof. intros [_ H] Hi. rewrite Forall_forall in H. apply H in Hi. unfold sep in Hi. lia. Qed.

Lemma tried_proper a b r : uint32 r -> sepfree a -> sepfree b -> proper (a ++ random_padded r ++ b).
Proof.
  intros Hr Ha Hb. pose proof (random_padded_digits r Hr) as Hd.
  assert (10 <= length (a ++ random_padded r ++ b)) as Hl by (rewrite !app_length; destruct Hd as [-> _]; lia).
  split; [intros E; rewrite E in Hl; cbn in Hl; lia|]. split; [intros E; rewrite E in Hl; cbn in Hl; lia|].
  split; [intros E; rewrite E in Hl; cbn in Hl; lia|].
  intros Hi. apply in_app_or in Hi. destruct Hi as [Hi|Hi]; [exact (Ha Hi)|].
  apply in_app_or in Hi. destruct Hi as [Hi|Hi]; [exact (digits_sepfree _ Hd Hi)|exact (Hb Hi)].
Qed.

(* A tried name lies in the directory and is prefix, ten digits, suffix. *)
Lemma random_name_shape d ps r : uint32 r -> sepfree (fst ps) -> sepfree (snd ps) ->
  dir (random_name d ps r) = clean d /\ base (random_name d ps r) = fst ps ++ random_padded r ++ snd ps.
Proof.
  intros Hr Ha Hb. pose proof (tried_proper _ _ r Hr Ha Hb) as Hp. unfold random_name.
  destruct d as [|b d].
  - destruct (join2_dir_base [dot; sep] _ ltac:(discriminate) Hp) as [H1 H2]. split; [exact H1|exact H2].
  - apply join2_dir_base; [discriminate|exact Hp].
Qed.

(* ---- the random policy ---- *)

Lemma decode_size_le4 p : decode_size p <= 4.
Proof.
  destruct p as [|b0 r]; [cbn; lia|]. unfold decode_size.
  destruct (lead b0) as [[sz [lo hi]]|]; [|lia].
  destruct sz as [|[|[|[|[|sz]]]]], r as [|b1 [|b2 [|b3 r]]]; try lia;
    repeat match goal with |- context [if ?b then _ else _] => destruct b end; lia.
Qed.


Lemma pattern_base_bounds t : (zlen (pattern_base t) <= 240)%Z /\ (base t <> [] -> pattern_base t <> []) /\
  prefix_of (pattern_base t) (base t).
Proof.
  unfold pattern_base. destruct (Z.ltb_spec max_prefix (zlen (base t))) as [H|H]; unfold max_prefix in *.
  - destruct (trunc_loop_spec (base t) 240 (length (base t)) 0) as (m & H1 & H2 & H3 & H4 & H5); try lia; [apply b_start|].
    cbn [skipn] in H1. rewrite H1. split; [|split].
    + unfold zlen. rewrite firstn_length, Nat.min_l by lia. lia.
    + intros _ E. apply (f_equal (@length _)) in E. rewrite firstn_length, Nat.min_l in E by lia. cbn [length] in E.
      unfold zlen in H. pose proof (decode_size_le4 (skipn m (base t))). lia.
    + exists (skipn m (base t)). symmetry. apply firstn_skipn.
  - split; [exact H|]. split; [auto|]. exists []. symmetry. apply app_nil_r.
Qed.

Lemma tmp_ext_sepfree : sepfree tmp_ext.
Proof. intros Hi. cbn in Hi. unfold sep in Hi. lia. Qed.

Lemma policy_split t : base t <> [sep] ->
  split_pattern (policy_pattern t) = Some (pattern_base t ++ [dot], tmp_ext) /\ sepfree (pattern_base t) /\ pattern_base t <> [].
Proof.
  intros Hb. destruct (base_cases t) as [H|[Hne Hf]]; [contradiction|].
  destruct (pattern_base_bounds t) as (Hl & Hn & (rest & Hpre)).
  assert (sepfree (pattern_base t)) as Hpf by (intros Hi; apply Hf; rewrite Hpre; apply in_or_app; left; exact Hi).
  split; [|split; [exact Hpf|apply Hn; exact Hne]].
  unfold split_pattern, policy_pattern.
  destruct (existsb (N.eqb sep) (pattern_base t ++ dot :: star :: tmp_ext)) eqn:E.
  - apply in_sep_iff in E. apply in_app_or in E. destruct E as [E|E]; [destruct (Hpf E)|].
    exfalso. cbn in E. unfold sep, dot, star in E. lia.
  - assert (cut_last star (pattern_base t ++ dot :: star :: tmp_ext) = Some (pattern_base t ++ [dot], tmp_ext)) as ->; [|reflexivity].
    apply cut_last_some. split; [rewrite <- app_assoc; reflexivity|]. intros Hi. cbn in Hi. unfold star in Hi. lia.
Qed.

(* What TempFilePolicyRandom creates for target t with random value r. *)
Lemma random_policy_name t r : uint32 r -> base t <> [sep] ->
  exists ps, split_pattern (policy_pattern t) = Some ps /\
    let name := random_name (random_policy_dir t) ps r in
    random_match name = true /\ (zlen (base name) <= 255)%Z /\ dir name = dir (clean t) /\
    exists pre, base name = pre ++ dot :: random_padded r ++ dot_tmp /\ prefix_of pre (base t).
Proof.
  intros Hr Hb. destruct (policy_split t Hb) as (Hs & Hf & Hne). exists (pattern_base t ++ [dot], tmp_ext).
  split; [exact Hs|]. cbv zeta.
  assert (sepfree (pattern_base t ++ [dot])) as Hf2.
  { intros Hi. apply in_app_or in Hi. destruct Hi as [Hi|Hi]; [exact (Hf Hi)|exact (dot_sepfree Hi)]. }
  destruct (random_name_shape (random_policy_dir t) (pattern_base t ++ [dot], tmp_ext) r Hr Hf2 tmp_ext_sepfree) as [Hd Hba].
  cbn [fst snd] in Hba. rewrite <- app_assoc in Hba. cbn [app] in Hba.
  pose proof (random_padded_digits r Hr) as Hdig. destruct (pattern_base_bounds t) as (Hl & _ & Hpre).
  split; [|split; [|split]].
  - apply random_match_iff. rewrite Hba. exists (pattern_base t), (random_padded r). split; [exact Hne|].
    split; [exact Hdig|reflexivity].
  - rewrite Hba. rewrite zlen_app, zlen_cons, zlen_app. destruct Hdig as [Hlen _]. unfold zlen at 2. rewrite Hlen.
    change (zlen tmp_ext) with 4%Z. lia.
  - rewrite Hd. apply clean_dir.
  - exists (pattern_base t). split; [exact Hba|exact Hpre].
Qed.

Lemma random_policy_root t : base t = [sep] -> split_pattern (policy_pattern t) = None.
Proof.
  intros Hb. apply split_pattern_none. unfold policy_pattern, pattern_base. rewrite Hb.
  change (max_prefix <? zlen [sep])%Z with false. left. reflexivity.
Qed.

(* ---- the directory policy ---- *)

Lemma dir_split : split_pattern dir_pattern = Some ([], tmp_ext).
Proof. reflexivity. Qed.

Lemma render_child_text root l c : normal root l -> proper c -> render root l <> [dot] -> render root l <> [sep] ->
  render root (l ++ [c]) = render root l ++ sep :: c.
Proof.
  intros Hn Hc H1 H2. destruct l as [|x l].
  - exfalso. destruct root; [apply H2|apply H1]; reflexivity.
  - unfold render. change ((x :: l) ++ [c]) with (x :: (l ++ [c])).
    destruct root.
    + change (sep :: join_sep ((x :: l) ++ [c]) = (sep :: join_sep (x :: l)) ++ sep :: c).
      rewrite join_app by discriminate. reflexivity.
    + change (join_sep ((x :: l) ++ [c]) = join_sep (x :: l) ++ sep :: c).
      apply join_app; discriminate.
Qed.

Lemma dir_policy_child td r : uint32 r -> let name := random_name (clean td) ([], tmp_ext) r in
  exists root l, normal root l /\ clean td = render root l /\ proper (random_padded r ++ tmp_ext) /\
    name = render root (l ++ [random_padded r ++ tmp_ext]) /\ clean name = name.
Proof.
  intros Hr. cbv zeta. destruct (clean_is_render td) as (root & l & Hn & E).
  pose proof (tried_proper [] tmp_ext r Hr ltac:(intros []) tmp_ext_sepfree) as Hp. cbn [app] in Hp.
  assert (random_name (clean td) ([], tmp_ext) r = render root (l ++ [random_padded r ++ tmp_ext])) as En.
  { unfold random_name. pose proof (clean_nonempty td) as Hne.
    destruct (clean td) as [|b q] eqn:Eq; [contradiction|]. rewrite E. cbn [fst snd app]. apply join2_child; assumption. }
  exists root, l. split; [exact Hn|]. split; [exact E|]. split; [exact Hp|]. split; [exact En|].
  rewrite En. apply clean_render. apply normal_snoc; assumption.
Qed.

Lemma dir_policy_name td r : uint32 r ->
  let name := random_name (clean td) ([], tmp_ext) r in
  dir name = clean td /\ base name = random_padded r ++ dot_tmp /\ zlen (base name) = 14%Z /\
  (clean td <> [dot] -> clean td <> [sep] -> dir_match (clean td) name = true).
Proof.
  intros Hr. cbv zeta. destruct (dir_policy_child td r Hr) as (root & l & Hn & E & Hp & En & Ec).
  rewrite Ec || idtac. assert (base (random_name (clean td) ([], tmp_ext) r) = random_padded r ++ dot_tmp) as Hb.
  { rewrite En. apply base_child; assumption. }
  split; [rewrite En, E; apply dir_child; assumption|]. split; [exact Hb|]. split.
  - rewrite Hb, zlen_app. destruct (random_padded_digits r Hr) as [Hl _]. unfold zlen at 1. rewrite Hl. reflexivity.
  - intros H1 H2. apply dir_match_iff. rewrite clean_idem, Ec. split.
    + right. exists (random_padded r ++ tmp_ext). split; [apply Hp|]. rewrite En, E. apply render_child_text; [assumption..| |]; rewrite <- E; assumption.
    + rewrite Hb. exists (random_padded r). split; [apply random_padded_digits; exact Hr|reflexivity].
Qed.

(* In "." and "/" the policy does not recognise its own files. *)
Lemma dir_policy_unmatched td r : uint32 r -> clean td = [dot] \/ clean td = [sep] ->
  dir_match (clean td) (random_name (clean td) ([], tmp_ext) r) = false.
Proof.
  intros Hr Ht. apply not_true_iff_false. intros H. apply dir_match_iff in H. destruct H as [H _].
  destruct (dir_policy_child td r Hr) as (root & l & Hn & E & Hp & En & Ec).
  rewrite clean_idem, Ec, En in H. pose proof (random_padded_digits r Hr) as [Hl Hd].
  destruct (random_padded r) as [|b q]; [discriminate|]. inversion Hd as [|? ? Hb _]; subst.
  assert (l = []) as ->.
  { destruct Ht as [Ht|Ht]; rewrite E in Ht; apply (render_inj root); auto using normal_nil.
    - rewrite Ht. assert (rooted (render root l) = root) as Hro by (apply rooted_render; exact Hn).
      rewrite Ht in Hro. cbn in Hro. subst root. reflexivity.
    - rewrite Ht. assert (rooted (render root l) = root) as Hro by (apply rooted_render; exact Hn).
      rewrite Ht in Hro. cbn in Hro. subst root. reflexivity. }
  destruct Ht as [Ht|Ht]; rewrite Ht in H; rewrite E in Ht; destruct root; try discriminate Ht.
  - cbn in H. destruct H as [H|(x & _ & H)]; injection H as H; unfold dot in *; lia.
  - cbn in H. destruct H as [H|(x & _ & H)]; [discriminate H|]. injection H as H _. unfold sep in *. lia.
Qed.

(* ---- the walk functions ---- *)

Lemma dir_walk_remove td p isdir : dir_walk td p isdir = Remove -> dir_match td p = true /\ clean p <> td.
Proof.
  unfold dir_walk. cbv zeta. destruct (bytes_eqb (clean p) td) eqn:E; [discriminate|].
  destruct (isdir && _); [discriminate|]. destruct (dir_match td p); [|destruct isdir; discriminate].
  intros _. split; [reflexivity|]. intros H. apply bytes_eqb_eq in H. congruence.
Qed.

Lemma has_prefix_iff pre s : has_prefix pre s = true <-> prefix_of pre s.
Proof.
  unfold has_prefix. rewrite bytes_eqb_eq. split.
  - intros H. exists (skipn (length pre) s). rewrite <- H at 1. symmetry. apply firstn_skipn.
  - intros (r & ->). rewrite firstn_app, Nat.sub_diag, firstn_all. cbn [firstn]. apply app_nil_r.
Qed.

Lemma dir_walk_own td r isdir : uint32 r -> clean td <> [dot] -> clean td <> [sep] ->
  dir_walk (clean td) (random_name (clean td) ([], tmp_ext) r) isdir = Remove.
Proof.
  intros Hr H1 H2. destruct (dir_policy_name td r Hr) as (_ & _ & _ & Hm). specialize (Hm H1 H2).
  destruct (dir_policy_child td r Hr) as (root & l & Hn & E & Hp & En & Ec).
  unfold dir_walk. cbv zeta. rewrite Ec, Hm.
  assert (random_name (clean td) ([], tmp_ext) r = clean td ++ sep :: (random_padded r ++ tmp_ext)) as Et.
  { rewrite En, E. apply render_child_text; [assumption..| |]; rewrite <- E; assumption. }
  rewrite Et.
  assert (forall a b : list byte, length a <> length b -> bytes_eqb a b = false) as Hlen.
  { intros a b Hab. apply not_true_iff_false. intros H. apply bytes_eqb_eq in H. subst. contradiction. }
  rewrite Hlen by (rewrite app_length; cbn [length]; lia).
  unfold is_dot. rewrite Hlen.
  2:{ rewrite app_length. cbn [length]. destruct (random_padded_digits r Hr) as [Hl _]. rewrite app_length, Hl. lia. }
  replace (has_prefix _ _) with false; [rewrite andb_false_r; reflexivity|].
  symmetry. apply not_true_iff_false. intros H. apply has_prefix_iff in H. destruct H as (q & H).
  apply (f_equal (@length _)) in H. rewrite !app_length in H. cbn [length] in H. lia.
Qed.

(* Every ancestor of a relative temp directory is walked into. *)
Lemma dir_walk_ancestors td k : rooted td = false ->
  dir_walk (clean td) (render false (firstn k (clean_comps false (split_sep td)))) true = Continue.
Proof.
  intros Hr. pose proof (clean_comps_normal false (split_sep td) (split_sepfree td)) as Hn.
  assert (normal false (firstn k (clean_comps false (split_sep td)))) as Hk.
  { destruct Hn as (j & l' & E & Hl & Hj). rewrite E. rewrite firstn_app, repeat_length.
    destruct (Nat.le_gt_cases k j) as [Hkj|Hkj].
    - exists k, []. split; [|split; [constructor|discriminate]].
      replace (k - j) with 0 by lia. cbn [firstn]. f_equal.
      clear -Hkj. revert k Hkj. induction j as [|j IH]; intros [|k] Hkj; try reflexivity; [lia|]. cbn. f_equal. apply IH. lia.
    - exists j, (firstn (k - j) l'). split; [|split; [apply Forall_firstn; exact Hl|discriminate]].
      f_equal. apply firstn_all2. rewrite repeat_length. lia. }
  unfold dir_walk. cbv zeta. rewrite clean_render by exact Hk.
  assert (clean td = render false (clean_comps false (split_sep td))) as E by (unfold clean; rewrite Hr; reflexivity).
  destruct (bytes_eqb _ _) eqn:Eq; [reflexivity|]. replace (_ || _) with true; [reflexivity|]. symmetry.
  rewrite E. remember (clean_comps false (split_sep td)) as l eqn:El. clear El.
  destruct (firstn k l) as [|x f] eqn:Ef; [reflexivity|]. apply orb_true_iff. right.
  apply has_prefix_iff. assert (l = (x :: f) ++ skipn k l) as Hsp by (rewrite <- Ef; symmetry; apply firstn_skipn).
  rewrite Hsp. destruct (skipn k l) as [|y g] eqn:Es.
  - rewrite app_nil_r. exists []. symmetry. apply app_nil_r.
  - change (render false ((x :: f) ++ y :: g)) with (join_sep ((x :: f) ++ y :: g)).
    rewrite join_app by discriminate. change (render false (x :: f)) with (join_sep (x :: f)).
    exists (join_sep (y :: g) ++ [sep]). rewrite <- !app_assoc. reflexivity.
Qed.

(* ---- the creation loop ---- *)

Lemma max_attempts_pos : 1 <= max_attempts.
Proof. unfold max_attempts. lia. Qed.

Lemma or_loop_bounded {V} env rnd openf d ps : forall fuel attempt (w : names V) res w' tr,
  or_loop fuel env rnd openf d ps attempt w = (res, w', tr) ->
  fuel + attempt = max_attempts -> attempt < max_attempts ->
  res <> OutOfFuel /\ length tr <= fuel /\ chain env attempt w tr w' /\ res <> BadPattern.
Proof.
  induction fuel as [|fuel IH]; intros attempt w res w' tr H Hf Ha; [lia|].
  cbn [or_loop] in H. cbv zeta in H. destruct (openf attempt (env attempt w) _) as [w2 e] eqn:Eo.
  assert (forall res0, (res0, w2, [(random_name d ps (rnd attempt), env attempt w, w2)]) = (res, w', tr) ->
    res0 <> OutOfFuel -> res0 <> BadPattern ->
    res <> OutOfFuel /\ length tr <= S fuel /\ chain env attempt w tr w' /\ res <> BadPattern) as Hone.
  { intros res0 H0 Hr0 Hr1. injection H0 as <- <- <-. split; [exact Hr0|]. split; [cbn [length]; lia|]. split; [|exact Hr1].
    apply chain_cons, chain_nil. }
  destruct e as [[|c]|].
  - destruct (Nat.ltb_spec (S attempt) max_attempts) as [Hlt|Hge].
    + destruct (or_loop fuel env rnd openf d ps (S attempt) w2) as [[r3 w3] tr3] eqn:E3.
      injection H as <- <- <-. destruct (IH _ _ _ _ _ E3) as (H1 & H2 & H3 & H4); [lia|exact Hlt|].
      split; [exact H1|]. split; [cbn [length]; lia|]. split; [apply chain_cons; exact H3|exact H4].
    + apply (Hone MaxRetry); [exact H|discriminate|discriminate].
  - apply (Hone (Failed c)); [exact H|discriminate|discriminate].
  - apply (Hone (Created (random_name d ps (rnd attempt)))); [exact H|discriminate|discriminate].
Qed.

Lemma open_random_bounded {V} env rnd openf d pat (w : names V) res w' tr :
  open_random env rnd openf d pat w = (res, w', tr) ->
  res <> OutOfFuel /\ length tr <= max_attempts /\ chain env 0 w tr w' /\
  (res = BadPattern <-> In sep pat) /\ (res = BadPattern -> tr = [] /\ w' = w).
Proof.
  unfold open_random. destruct (split_pattern pat) as [ps|] eqn:E; intros H.
  - destruct (or_loop_bounded env rnd openf d ps _ _ _ _ _ _ H) as (H1 & H2 & H3 & H4); [lia|apply max_attempts_pos|].
    split; [exact H1|]. split; [exact H2|]. split; [exact H3|]. split; [|contradiction].
    split; [contradiction|]. intros Hi. apply split_pattern_none in Hi. congruence.
  - injection H as <- <- <-. split; [discriminate|]. split; [cbn [length]; lia|]. split; [apply chain_nil|].
    split; [|auto]. split; [intros _; apply split_pattern_none; exact E|reflexivity].
Qed.

(* Every attempt uses a name of the pattern. *)
Lemma open_random_names {V} env rnd openf d pat (w : names V) res w' tr :
  (forall k, uint32 (rnd k)) ->
  open_random env rnd openf d pat w = (res, w', tr) ->
  Forall (fun a => exists ps ds, split_pattern pat = Some ps /\ digits10 ds /\
     dir (fst (fst a)) = clean d /\ base (fst (fst a)) = fst ps ++ ds ++ snd ps) tr /\
  (forall n, res = Created n -> exists tr' a, tr = tr' ++ [(n, fst a, snd a)]).
Proof.
  intros Hr. unfold open_random. destruct (split_pattern pat) as [ps|] eqn:Ep.
  2:{ intros H. injection H as <- <- <-. split; [constructor|discriminate]. }
  destruct (split_pattern_sepfree _ _ Ep) as [Ha Hb].
  assert (forall k, exists ps0 ds, Some ps = Some ps0 /\ digits10 ds /\
    dir (random_name d ps (rnd k)) = clean d /\ base (random_name d ps (rnd k)) = fst ps0 ++ ds ++ snd ps0) as Hname.
  { intros k. exists ps, (random_padded (rnd k)). split; [reflexivity|]. split; [apply random_padded_digits, Hr|].
    apply random_name_shape; auto. }
  generalize max_attempts at 1 as fuel. generalize 0 as attempt. intros attempt fuel. revert attempt w res w' tr.
  induction fuel as [|fuel IH]; intros attempt w res w' tr H; cbn [or_loop] in H; cbv zeta in H.
  { injection H as <- <- <-. split; [constructor|discriminate]. }
  destruct (openf attempt (env attempt w) _) as [w2 e] eqn:Eo. destruct e as [[|c]|].
  - destruct (S attempt <? max_attempts).
    + destruct (or_loop fuel env rnd openf d ps (S attempt) w2) as [[r3 w3] tr3] eqn:E3.
      injection H as <- <- <-. destruct (IH _ _ _ _ _ E3) as [H1 H2]. split; [constructor; [apply Hname|exact H1]|].
      intros n Hn. destruct (H2 n Hn) as (tr' & a & ->). exists ((random_name d ps (rnd attempt), env attempt w, w2) :: tr'), a.
      reflexivity.
    + injection H as <- <- <-. split; [constructor; [apply Hname|constructor]|discriminate].
  - injection H as <- <- <-. split; [constructor; [apply Hname|constructor]|discriminate].
  - injection H as <- <- <-. split; [constructor; [apply Hname|constructor]|].
    intros n Hn. injection Hn as <-. exists [], (env attempt w, w2). reflexivity.
Qed.

Lemma name_set_other {V} (w : names V) p q v : q <> p -> name_set w p v q = w q.
Proof. intros H. unfold name_set. destruct (bytes_eqb q p) eqn:E; [apply bytes_eqb_eq in E; contradiction|reflexivity]. Qed.
Lemma name_set_same {V} (w : names V) p v : name_set w p v p = v.
Proof. unfold name_set. rewrite (proj2 (bytes_eqb_eq p p) eq_refl). reflexivity. Qed.

Lemma or_loop_outcome {V} env rnd io (fresh : V) d ps : forall fuel attempt w res w' tr,
  or_loop fuel env rnd (open_excl io fresh) d ps attempt w = (res, w', tr) ->
  fuel + attempt = max_attempts -> attempt < max_attempts -> open_outcome io fresh attempt res tr.
Proof.
  induction fuel as [|fuel IH]; intros attempt w res w' tr H Hf Ha; [lia|].
  cbn [or_loop] in H. cbv zeta in H. set (nm := random_name d ps (rnd attempt)) in *. clearbody nm.
  set (w1 := env attempt w) in *. clearbody w1.
  assert ((exists v, w1 nm = Some v /\ open_excl io fresh attempt w1 nm = (w1, Some EExist)) \/
          (w1 nm = None /\ exists e, io attempt = Some e /\ open_excl io fresh attempt w1 nm = (w1, Some e)) \/
          (w1 nm = None /\ open_excl io fresh attempt w1 nm = (name_set w1 nm (Some fresh), None))) as Hc.
  { unfold open_excl. destruct (w1 nm) as [v|]; [left; exists v; auto|right].
    destruct (io attempt) as [e|]; [left; split; [reflexivity|exists e; auto]|right; auto]. }
  assert (forall e, open_excl io fresh attempt w1 nm = (w1, Some e) -> (w1 nm <> None \/ io attempt = Some e) ->
    match e with EOther c => io attempt = Some (EOther c) | EExist => True end ->
    open_outcome io fresh attempt res tr) as Hs.
  { intros e He Hw Hio. rewrite He in H. destruct e as [|c].
    - destruct (Nat.ltb_spec (S attempt) max_attempts) as [Hlt|Hge].
      + destruct (or_loop fuel env rnd (open_excl io fresh) d ps (S attempt) w1) as [[r3 w3] tr3] eqn:E3.
        injection H as <- <- <-. specialize (IH _ _ _ _ _ E3 ltac:(lia) Hlt).
        assert (retried io attempt (nm, w1, w1)) as Hr by (split; [reflexivity|exact Hw]).
        destruct r3 as [n| |c| |]; cbn [open_outcome] in *.
        * destruct IH as (tr' & a & -> & H1 & H2). exists ((nm, w1, w1) :: tr'), a. split; [reflexivity|]. split; [exact H1|].
          split; assumption.
        * destruct IH as [H1 H2]. split; [cbn [length]; lia|]. split; assumption.
        * destruct IH as (tr' & n & a & -> & H1 & H2). exists ((nm, w1, w1) :: tr'), n, a. split; [reflexivity|].
          split; [|split; assumption]. cbn [length]. rewrite <- H1. f_equal. lia.
        * exfalso. destruct (or_loop_bounded env rnd _ d ps _ _ _ _ _ _ E3) as (_ & _ & _ & Hx); [lia|exact Hlt|contradiction].
        * exact IH.
      + injection H as <- <- <-. split; [cbn [length]; lia|]. split; [split; [reflexivity|exact Hw]|exact I].
    - injection H as <- <- <-. exists [], nm, w1. split; [reflexivity|]. cbn [length]. split; [|exact I].
      rewrite Nat.add_0_r. exact Hio. }
  destruct Hc as [(v & Hv & He)|[(Hv & e & Hio & He)|(Hv & He)]].
  - apply (Hs EExist He); [left; congruence|exact I].
  - apply (Hs e He); [right; exact Hio|destruct e; auto].
  - rewrite He in H. injection H as <- <- <-. exists [], w1. split; [reflexivity|]. split; [exact Hv|exact I].
Qed.

Lemma open_file_random_outcome {V} env rnd io (fresh : V) d pat w res w' tr :
  open_random env rnd (open_excl io fresh) d pat w = (res, w', tr) -> open_outcome io fresh 0 res tr.
Proof.
  unfold open_random. destruct (split_pattern pat) as [ps|].
  - intros H. eapply or_loop_outcome; [exact H|lia|apply max_attempts_pos].
  - intros H. injection H as <- <- <-. reflexivity.
Qed.

Lemma chain_quiet_unchanged {V} tr : forall k (w w' : names V),
  chain (fun _ x => x) k w tr w' -> Forall unchanged tr -> w' = w.
Proof.
  induction tr as [|[[n a] b] tr IH]; intros k w w' Hc Hu; inversion Hc as [|k1 w1 n1 b1 tr1 w2 Hc']; subst; [reflexivity|].
  inversion Hu as [|? ? Hx Hu']; subst. unfold unchanged in Hx. cbn [fst snd] in Hx. subst b.
  eapply IH; eassumption.
Qed.

Lemma chain_app {V} env tr1 : forall k (w : names V) tr2 w', chain env k w (tr1 ++ tr2) w' ->
  exists wm, chain env k w tr1 wm /\ chain env (k + length tr1) wm tr2 w'.
Proof.
  induction tr1 as [|x tr1 IH]; intros k w tr2 w' H.
  - exists w. split; [apply chain_nil|]. cbn [length]. rewrite Nat.add_0_r. exact H.
  - cbn [app] in H. inversion H as [|? ? n b ? ? Hc]; subst. destruct (IH _ _ _ _ Hc) as (wm & H1 & H2).
    exists wm. split; [apply chain_cons; exact H1|]. cbn [length]. rewrite Nat.add_succ_r. exact H2.
Qed.

Lemma all_from_unchanged {V} io k (tr : list (list byte * names V * names V)) :
  all_from (retried io) k tr -> Forall unchanged tr.
Proof. revert k. induction tr as [|x tr IH]; intros k H; [constructor|]. destruct H as [[H _] H2]. constructor; [exact H|eapply IH; exact H2]. Qed.

(* Alone on the file system: exactly the created name appears. *)
Lemma open_file_random_quiet {V} rnd io (fresh : V) d pat w res w' tr :
  open_random (fun _ x => x) rnd (open_excl io fresh) d pat w = (res, w', tr) ->
  match res with
  | Created n => w n = None /\ w' = name_set w n (Some fresh)
  | _ => w' = w
  end.
Proof.
  intros H. pose proof (open_file_random_outcome _ _ _ _ _ _ _ _ _ _ H) as Ho.
  destruct (open_random_bounded _ _ _ _ _ _ _ _ _ H) as (_ & _ & Hc & _).
  destruct res as [n| |c| |]; cbn [open_outcome] in Ho.
  - destruct Ho as (tr' & a & -> & Ha & Hr). apply chain_app in Hc. destruct Hc as (wm & H1 & H2).
    apply chain_quiet_unchanged in H1; [|eapply all_from_unchanged; exact Hr]. subst wm.
    inversion H2 as [|? ? ? ? ? ? H3 E1 E2]; subst. inversion H3; subst. split; [exact Ha|reflexivity].
  - destruct Ho as [_ Hr]. eapply chain_quiet_unchanged; [exact Hc|eapply all_from_unchanged; exact Hr].
  - destruct Ho as (tr' & n & a & -> & _ & Hr). eapply chain_quiet_unchanged; [exact Hc|].
    apply Forall_app. split; [eapply all_from_unchanged; exact Hr|]. constructor; [reflexivity|constructor].
  - subst tr. inversion Hc. reflexivity.
  - contradiction.
Qed.

(* MkdirRandom: nothing that existed is touched, and a returned name is new. *)
Lemma mkdir_random_kept {V} env rnd io io2 (fresh : V) d pat w res w' tr :
  open_random env rnd (mkdir_open io io2 fresh) d pat w = (res, w', tr) ->
  Forall kept tr /\
  (forall n, res = Created n -> exists tr' a, tr = tr' ++ [(n, a, name_set a n (Some fresh))] /\ a n = None).
Proof.
  unfold open_random. destruct (split_pattern pat) as [ps|].
  2:{ intros H. injection H as <- <- <-. split; [constructor|discriminate]. }
  generalize max_attempts at 1 as fuel. generalize 0 as attempt. intros attempt fuel. revert attempt w res w' tr.
  induction fuel as [|fuel IH]; intros attempt w res w' tr H; cbn [or_loop] in H; cbv zeta in H.
  { injection H as <- <- <-. split; [constructor|discriminate]. }
  set (nm := random_name d ps (rnd attempt)) in *. clearbody nm. set (w1 := env attempt w) in *. clearbody w1.
  destruct (mkdir_open io io2 fresh attempt w1 nm) as [w2 e] eqn:Eo.
  assert (kept (nm, w1, w2) /\ (e = None -> w1 nm = None /\ w2 = name_set w1 nm (Some fresh))) as [Hk He].
  { unfold mkdir_open, open_excl in Eo. destruct (w1 nm) as [v|] eqn:Ew.
    - injection Eo as <- <-. split; [intros p v0 Hp; exact Hp|discriminate].
    - destruct (io attempt) as [e0|].
      + injection Eo as <- <-. split; [intros p v0 Hp; exact Hp|discriminate].
      + injection Eo as <- <-. split; [|auto]. intros p v0 Hp. cbn [fst snd] in *.
        rewrite name_set_other; [exact Hp|]. intros ->. congruence. }
  destruct e as [[|c]|].
  - destruct (S attempt <? max_attempts).
    + destruct (or_loop fuel env rnd (mkdir_open io io2 fresh) d ps (S attempt) w2) as [[r3 w3] tr3] eqn:E3.
      injection H as <- <- <-. destruct (IH _ _ _ _ _ E3) as [H1 H2]. split; [constructor; assumption|].
      intros n Hn. destruct (H2 n Hn) as (tr' & a & -> & Ha). exists ((nm, w1, w2) :: tr'), a. split; [reflexivity|exact Ha].
    + injection H as <- <- <-. split; [constructor; [exact Hk|constructor]|discriminate].
  - injection H as <- <- <-. split; [constructor; [exact Hk|constructor]|discriminate].
  - injection H as <- <- <-. split; [constructor; [exact Hk|constructor]|].
    intros n Hn. injection Hn as <-. destruct (He eq_refl) as [Ha ->]. exists [], w1. split; [reflexivity|exact Ha].
Qed.
