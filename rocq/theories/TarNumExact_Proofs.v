(* Which sparse maps are accepted, exactly. *)
From Verif Require Import Common CommonLemmas ContentRange_Model ContentRange_Spec ContentRange_Proofs TarNum_Model TarNum_Spec TarNum_Proofs.
Open Scope Z_scope.

Lemma number_sign s z c t : number s z -> s = c :: t -> (48 <= c <= 57)%N.
Proof. intros (_ & H & _) ->. now inversion H. Qed.

Lemma parse_int_iff s z : parse_int s = Some z <-> int_text s z /\ in_int64 z.
Proof.
  assert (Hdec : forall t y, parse_decimal t = Some y <-> number t y /\ y <= max_int64) by apply parse_decimal_some.
  assert (Hmin : forall t, parse_int (45%N :: t) = Some z <-> exists n, number t n /\ z = - n /\ min_int64 <= - n).
  { intros t. cbn [parse_int]. destruct t as [|b t]; [split; [discriminate|intros (n & (H & _) & _); congruence]|].
    destruct (forallb is_digit (b :: t)) eqn:E.
    - assert (number (b :: t) (dec_value (b :: t))) as Hn.
      { apply number_alt. split; [discriminate|]. split; [|reflexivity]. rewrite forallb_forall in E. apply Forall_forall. intros x Hx. specialize (E x Hx). unfold is_digit in E. lia. }
      split.
      + destruct (- dec_value (b :: t) <? min_int64) eqn:E2; [discriminate|]. intros H. apply some_inj in H. exists (dec_value (b :: t)). split; [exact Hn|]. split; [now symmetry|]. lia.
      + intros (n & Hn2 & -> & Hr). apply number_alt in Hn2 as (_ & _ & <-). assert ((- dec_value (b :: t) <? min_int64) = false) as -> by lia. reflexivity.
    - split; [discriminate|]. intros (n & Hn & _). apply number_alt in Hn as (_ & Hd & _). exfalso.
      assert (forallb is_digit (b :: t) = true) as X; [|congruence]. apply forallb_forall. intros x Hx. rewrite Forall_forall in Hd. specialize (Hd x Hx). unfold is_digit. lia. }
  assert (Hother : forall t, (forall u, t <> 43%N :: u) -> (forall u, t <> 45%N :: u) -> parse_int t = parse_decimal t).
  { intros t H1 H2. destruct t as [|b t]; [reflexivity|]. unfold parse_int. destruct b as [|p]; [reflexivity|]. repeat (destruct p as [p|p|]; try reflexivity); exfalso; [eapply H1|eapply H2]; reflexivity. }
  destruct s as [|b s].
  { cbn [parse_int]. rewrite Hdec. unfold int_text, in_int64, min_int64. split.
    - intros [(X & _) _]. congruence.
    - intros [[(X & _)|[(t & X & _)|(t & n & X & _)]] _]; congruence. }
  destruct (N.eq_dec b 43) as [->|N1]; [|destruct (N.eq_dec b 45) as [->|N2]].
  - change (parse_int (43%N :: s)) with (parse_decimal s). rewrite Hdec. unfold int_text, in_int64. split.
    + intros [H1 H2]. pose proof (number_nonneg _ _ H1). split; [right; left; eauto|unfold min_int64; lia].
    + intros [[H|[(t & E & H)|(t & n & E & _)]] H2]; [pose proof (number_sign _ _ _ _ H eq_refl); lia| |discriminate]. assert (s = t) as -> by congruence. split; [exact H|lia].
  - rewrite Hmin. unfold int_text, in_int64. split.
    + intros (n & H1 & -> & H2). pose proof (number_nonneg _ _ H1). split; [right; right; eauto|unfold max_int64; lia].
    + intros [[H|[(t & E & H)|(t & n & E & H & ->)]] H2]; [pose proof (number_sign _ _ _ _ H eq_refl); lia|discriminate|]. exists n. assert (s = t) as -> by congruence. split; [exact H|]. split; [reflexivity|lia].
  - rewrite Hother by congruence. rewrite Hdec. unfold int_text, in_int64. split.
    + intros [H1 H2]. pose proof (number_nonneg _ _ H1). split; [left; exact H1|unfold min_int64; lia].
    + intros [[H|[(t & E & H)|(t & n & E & _)]] H2]; try congruence. split; [exact H|lia].
Qed.

Lemma parse_count_iff s n : parse_count s = Some n <-> int_text s n /\ 0 <= n /\ 2 * n <= max_int64.
Proof.
  unfold parse_count. destruct (parse_int s) as [z|] eqn:E.
  - pose proof (proj1 (parse_int_iff s z) E) as [Ht [H1 H2]].
    assert (forall y, int_text s y -> 0 <= y -> 2 * y <= max_int64 -> y = z) as Hu.
    { intros y Hy Hy0 Hy2. assert (parse_int s = Some y) as X by (apply parse_int_iff; split; [exact Hy|unfold in_int64, min_int64, max_int64 in *; lia]). rewrite E in X. now apply some_inj in X. }
    destruct ((z <? 0) || (wrap64 (2 * z) <? z)) eqn:Eb.
    + split; [discriminate|]. intros (Hy & Hy0 & Hy2). pose proof (Hu n Hy Hy0 Hy2) as ->. exfalso.
      apply orb_true_iff in Eb as [Eb|Eb]; [lia|]. rewrite wrap64_id in Eb by (unfold in_int64, min_int64; lia). lia.
    + apply orb_false_iff in Eb as [E1 E2]. split.
      * intros H. apply some_inj in H as <-. split; [exact Ht|]. split; [lia|].
        destruct (Z.le_gt_cases (2 * z) max_int64) as [L|L]; [exact L|]. exfalso. unfold max_int64 in *.
        assert (wrap64 (2 * z) = 2 * z - 18446744073709551616) as X.
        { unfold wrap64. change (2 ^ 63) with 9223372036854775808. change (2 ^ 64) with 18446744073709551616.
          replace (2 * z + 9223372036854775808) with (2 * z - 9223372036854775808 + 1 * 18446744073709551616) by lia. rewrite Z.mod_add by lia. rewrite Z.mod_small by lia. lia. }
        lia.
      * intros (Hy & Hy0 & Hy2). now rewrite (Hu n Hy Hy0 Hy2).
  - split; [discriminate|]. intros (Hy & Hy0 & Hy2). assert (parse_int s = Some n) as X; [|congruence].
    apply parse_int_iff. split; [exact Hy|]. unfold in_int64, min_int64, max_int64 in *. lia.
Qed.

Lemma int_text_no s z c : int_text s z -> (c < 43)%N \/ c = 44%N -> ~ In c s.
Proof.
  intros [H|[(t & -> & H)|(t & n & -> & H & _)]] Hc Hi.
  - apply (digits_no_in _ _ c H); [lia|exact Hi].
  - destruct Hi as [Hi|Hi]; [lia|]. apply (digits_no_in _ _ c H); [lia|exact Hi].
  - destruct Hi as [Hi|Hi]; [lia|]. apply (digits_no_in _ _ c H); [lia|exact Hi].
Qed.
Lemma int_text_ne s z : int_text s z -> s <> [].
Proof. intros [(H & _)|[(t & -> & H)|(t & n & -> & H & _)]]; [exact H|discriminate|discriminate]. Qed.

Lemma texts_cons a b l x y m : texts_of (a :: b :: l) ((x, y) :: m) <-> (int_text a x /\ in_int64 x) /\ (int_text b y /\ in_int64 y) /\ texts_of l m.
Proof.
  unfold texts_of, map_numbers. cbn [map concat app fst snd]. split.
  - intros H. inversion H as [|? ? ? ? H1 H2]; subst. inversion H2; subst. auto.
  - intros (H1 & H2 & H3). constructor; [exact H1|]. constructor; assumption.
Qed.
Lemma texts_len l m : texts_of l m -> zlen l = 2 * zlen m.
Proof. intros H. rewrite <- numbers_len. unfold zlen. f_equal. exact (Forall2_length _ _ _ H). Qed.
Lemma texts_free l m c : texts_of l m -> (c < 43)%N \/ c = 44%N -> Forall (fun x => ~ In c x) l.
Proof. intros H Hc. unfold texts_of in H. induction H as [|s z l zs [H1 _] _ IH]; constructor; [apply (int_text_no _ _ _ H1 Hc)|exact IH]. Qed.

Lemma parse_pairs_iff l m : zlen l = 2 * zlen m -> (parse_pairs l = Some m <-> texts_of l m).
Proof.
  revert l. induction m as [|[x y] m IH]; intros l Hl.
  - destruct l as [|a l]; [|rewrite zlen_cons in Hl; pose proof (zlen_nonneg l); change (zlen (@nil (Z * Z))) with 0 in Hl; lia]. cbn. split; [intros _; constructor|reflexivity].
  - rewrite zlen_cons in Hl. pose proof (zlen_nonneg m) as Hz. destruct l as [|a [|b l]]; [change (zlen (@nil (list N))) with 0 in Hl; lia|change (zlen [a]) with 1 in Hl; lia|].
    rewrite !zlen_cons in Hl. assert (zlen l = 2 * zlen m) as Hl' by lia. rewrite texts_cons, <- IH by exact Hl'. rewrite <- !parse_int_iff. cbn [parse_pairs].
    destruct (parse_int a) as [u|], (parse_int b) as [v|]; try (split; [discriminate|intros (? & ? & _); congruence]).
    destruct (parse_pairs l) as [r|]; [|split; [discriminate|intros (_ & _ & ?); congruence]]. split.
    + intros H. apply some_inj in H. assert (u = x /\ v = y /\ r = m) as (-> & -> & ->) by (split; [|split]; congruence). auto.
    + intros (H1 & H2 & H3). congruence.
Qed.

Lemma split_join sep s : join_on sep (split_on sep s) = s.
Proof.
  induction s as [|b s IH]; [reflexivity|]. cbn [split_on]. assert (Hne : split_on sep s <> []).
  { destruct s as [|c s]; [discriminate|]. cbn [split_on]. destruct (c =? sep)%N; [discriminate|]. destruct (split_on sep s); discriminate. }
  destruct (b =? sep)%N eqn:E.
  - apply N.eqb_eq in E. subst b. cbn [join_on]. destruct (split_on sep s) as [|x r]; [contradiction|]. cbn [app]. now rewrite IH.
  - destruct (split_on sep s) as [|x r]; [contradiction|]. cbn [join_on] in *. destruct r as [|y r]; exact (f_equal (cons b) IH).
Qed.

Lemma parse_pairs_len : forall l r, parse_pairs l = Some r -> Z.Even (zlen l) -> zlen l = 2 * zlen r.
Proof.
  fix IH 1. intros [|a [|b l]] r; cbn [parse_pairs].
  - intros H _. apply some_inj in H as <-. reflexivity.
  - intros _ [q Hq]. change (zlen [a]) with 1 in Hq. lia.
  - destruct (parse_int a), (parse_int b); try discriminate. specialize (IH l). destruct (parse_pairs l) as [r'|]; [|discriminate]. intros H Hev. apply some_inj in H as <-. rewrite !zlen_cons in *.
    rewrite (IH r' eq_refl); [lia|]. destruct Hev as [q Hq]. exists (q - 1). lia.
Qed.

Lemma map_0x1_iff c t m : read_map_0x1 c t = Some m <->
  int_text c (zlen m) /\ 2 * zlen m <= max_int64 /\ exists l, texts_of l m /\ t = join_on 44%N l.
Proof.
  unfold read_map_0x1. set (l0 := match t with [] => [] | _ => split_on 44%N t end).
  assert (Ht : t = join_on 44%N l0) by (unfold l0; destruct t; [reflexivity|symmetry; apply split_join]).
  assert (Hu : forall l, texts_of l m -> t = join_on 44%N l -> l0 = l).
  { intros l Hl E. pose proof (texts_free l m 44%N Hl (or_intror eq_refl)) as Hf. unfold l0. destruct l as [|x l]; [cbn in E; rewrite E; reflexivity|].
    pose proof (split_join_on 44%N (x :: l) ltac:(discriminate) Hf) as Hs. rewrite <- E in Hs. destruct t as [|b t]; [|exact Hs].
    exfalso. cbn [split_on] in Hs. assert (x = []) as -> by congruence. unfold texts_of in Hl. inversion Hl as [|? ? ? ? [X _]]; subst. now apply int_text_ne in X. }
  cbv zeta. destruct (parse_count c) as [n|] eqn:Ec.
  - pose proof (proj1 (parse_count_iff c n) Ec) as (Hn & H0 & H2). destruct (zlen l0 =? 2 * n) eqn:E.
    + apply Z.eqb_eq in E. split.
      * intros H. pose proof (parse_pairs_len _ _ H (ex_intro _ n E)) as Hl.
        assert (n = zlen m) as -> by lia. split; [exact Hn|]. split; [exact H2|]. exists l0. split; [|exact Ht]. now apply parse_pairs_iff.
      * intros (_ & _ & l & Hl & El). pose proof (Hu l Hl El) as ->. apply parse_pairs_iff; [now apply texts_len|exact Hl].
    + split; [discriminate|]. intros (Hm & H3 & l & Hl & El). exfalso. apply Z.eqb_neq in E. apply E. rewrite (Hu l Hl El), (texts_len _ _ Hl).
      assert (parse_count c = Some (zlen m)) as X by (apply parse_count_iff; split; [exact Hm|]; split; [apply zlen_nonneg|exact H3]). rewrite Ec in X. apply some_inj in X. congruence.
  - split; [discriminate|]. intros (Hm & H3 & _). assert (parse_count c = Some (zlen m)) as X; [|congruence]. apply parse_count_iff. split; [exact Hm|]. split; [apply zlen_nonneg|exact H3].
Qed.

(* ---- version 1.0 ---- *)

Lemma feed_sound : forall fuel n cnt buf s cnt' buf' s', feed fuel n cnt buf s = Some (cnt', buf', s') ->
  exists i, (512 * i <= length s)%nat /\ buf' = buf ++ firstn (512 * i) s /\ s' = skipn (512 * i) s /\ cnt' = cnt + count_nl (firstn (512 * i) s) /\ n <= cnt'.
Proof.
  induction fuel as [|fuel IH]; intros n cnt buf s cnt' buf' s'; cbn [feed]; destruct (n <=? cnt) eqn:E.
  - intros H. apply some_inj in H. exists 0%nat. rewrite Nat.mul_0_r. cbn [firstn skipn]. rewrite app_nil_r. change (count_nl []) with 0. rewrite Z.add_0_r. assert (cnt = cnt') as <- by congruence. repeat split; try congruence; lia.
  - discriminate.
  - intros H. apply some_inj in H. exists 0%nat. rewrite Nat.mul_0_r. cbn [firstn skipn]. rewrite app_nil_r. change (count_nl []) with 0. rewrite Z.add_0_r. assert (cnt = cnt') as <- by congruence. repeat split; try congruence; lia.
  - destruct (zlen s <? 512) eqn:E2; [discriminate|]. intros H. apply IH in H as (i & H1 & H2 & H3 & H4 & H5). exists (S i).
    assert (zslice s 0 512 = firstn 512 s) as Ez by (unfold zslice; reflexivity). rewrite Ez in *. rewrite skipn_length in H1. unfold zlen in E2.
    assert (firstn (512 * S i) s = firstn 512 s ++ firstn (512 * i) (skipn 512 s)) as Esp.
    { rewrite <- (firstn_skipn 512 s) at 1. rewrite firstn_app, firstn_length, Nat.min_l by lia. rewrite firstn_firstn, Nat.min_r by lia. f_equal. f_equal. lia. }
    rewrite Esp, count_nl_app. rewrite skipn_skipn' in H3. replace (512 + 512 * i)%nat with (512 * S i)%nat in H3 by lia. rewrite <- app_assoc in H2. repeat split; try assumption; lia.
Qed.

Lemma next_token_sound buf t r : next_token buf = (t, r) -> 1 <= count_nl buf -> buf = t ++ [10%N] ++ r /\ count_nl r = count_nl buf - 1.
Proof.
  unfold next_token. destruct (cut 10%N buf) as [[x y]|] eqn:E.
  - intros H _. assert (x = t /\ y = r) as [-> ->] by (split; congruence). apply cut_some in E as [-> Hn]. split; [reflexivity|]. rewrite !count_nl_app, (count_nl_none t Hn). change (count_nl [10%N]) with 1. lia.
  - intros _ Hc. apply cut_none in E. rewrite count_nl_none in Hc by exact E. lia.
Qed.

Lemma token_pairs_sound : forall fuel k buf m, token_pairs fuel k buf = Some m -> 0 <= k -> 2 * k <= count_nl buf ->
  zlen m = k /\ exists l rest, texts_of l m /\ buf = lines l ++ rest.
Proof.
  induction fuel as [|fuel IH]; intros k buf m; cbn [token_pairs]; destruct (k <=? 0) eqn:E.
  - intros H Hk _. apply some_inj in H as <-. split; [change (zlen (@nil (Z * Z))) with 0; lia|]. exists [], buf. split; [constructor|reflexivity].
  - discriminate.
  - intros H Hk _. apply some_inj in H as <-. split; [change (zlen (@nil (Z * Z))) with 0; lia|]. exists [], buf. split; [constructor|reflexivity].
  - destruct (next_token buf) as [a b1] eqn:E1. destruct (next_token b1) as [b b2] eqn:E2. intros H Hk Hc.
    destruct (parse_int a) as [x|] eqn:Ea; [|discriminate]. destruct (parse_int b) as [y|] eqn:Eb; [|discriminate].
    destruct (token_pairs fuel (k - 1) b2) as [r|] eqn:Er; [|discriminate]. apply some_inj in H as <-.
    apply next_token_sound in E1 as [-> C1]; [|lia]. apply next_token_sound in E2 as [-> C2]; [|lia].
    apply IH in Er as (Hz & l & rest & Hl & ->); [|lia|lia]. split; [rewrite zlen_cons; lia|]. exists (a :: b :: l), rest.
    split; [apply texts_cons; rewrite <- !parse_int_iff; auto|]. unfold lines. cbn [map concat]. rewrite <- !app_assoc. reflexivity.
Qed.

Lemma token_pairs_texts m : forall l fuel buf s tail, texts_of l m -> (length m <= fuel)%nat -> buf ++ s = lines l ++ tail -> 2 * zlen m <= count_nl buf ->
  token_pairs fuel (zlen m) buf = Some m.
Proof.
  induction m as [|[x y] m IH]; intros l fuel buf s tail Hl Hf E Hc; [destruct fuel; reflexivity|].
  pose proof (texts_len _ _ Hl) as Hlen. rewrite zlen_cons in *. pose proof (zlen_nonneg m) as Hz. destruct l as [|a [|b l]]; [change (zlen (@nil (list N))) with 0 in Hlen; lia|change (zlen [a]) with 1 in Hlen; lia|].
  apply texts_cons in Hl as (Ha & Hb & Hl). destruct fuel as [|fuel]; [cbn in Hf; lia|]. cbn [token_pairs]. assert (1 + zlen m <=? 0 = false) as -> by lia.
  unfold lines in E. cbn [map concat] in E. rewrite <- !app_assoc in E.
  destruct (next_token_spec _ _ _ _ (int_text_no _ _ 10%N (proj1 Ha) ltac:(lia)) E) as (b1 & E1 & Eb1 & C1); [lia|]. rewrite E1.
  destruct (next_token_spec _ _ _ _ (int_text_no _ _ 10%N (proj1 Hb) ltac:(lia)) Eb1) as (b2 & E2 & Eb2 & C2); [lia|]. rewrite E2.
  apply parse_int_iff in Ha, Hb. rewrite Ha, Hb. replace (1 + zlen m - 1) with (zlen m) by lia.
  rewrite (IH l fuel b2 s tail); [reflexivity|exact Hl|cbn in Hf; lia|exact Eb2|lia].
Qed.

Lemma lines_count l : Forall (fun x => ~ In 10%N x) l -> count_nl (lines l) = zlen l.
Proof.
  unfold lines. induction 1 as [|x l Hx _ IH]; [reflexivity|]. cbn [map concat]. rewrite !count_nl_app, IH, zlen_cons, (count_nl_none x Hx). change (count_nl [10%N]) with 1. lia.
Qed.
Lemma count_nl_le x : count_nl x <= zlen x.
Proof. unfold count_nl, zlen. apply inj_le. induction x as [|b x IH]; [cbn; lia|]. cbn [filter length]. destruct (b =? 10)%N; cbn [length]; lia. Qed.

Lemma map_1x0_iff s m : read_map_1x0 s = Some m <->
  exists c l pad data, s = lines (c :: l) ++ pad ++ data /\ Z.divide 512 (zlen (lines (c :: l) ++ pad)) /\
    int_text c (zlen m) /\ 2 * zlen m <= max_int64 /\ texts_of l m.
Proof.
  split.
  - unfold read_map_1x0. destruct (feed (length s) 1 0 [] s) as [[[cnt buf] s1]|] eqn:E1; [|discriminate].
    apply feed_sound in E1 as (i & Hi & Hbuf & Hs1 & Hcnt & Hn1). cbn [app] in Hbuf. subst buf s1. set (buf := firstn (512 * i) s) in *.
    destruct (next_token buf) as [c b1] eqn:Et. apply next_token_sound in Et as [Eb C1]; [|lia].
    destruct (parse_count c) as [n|] eqn:Ec; [|discriminate]. apply parse_count_iff in Ec as (Hc & H0 & H2).
    destruct (feed (length (skipn (512 * i) s)) (2 * n) (cnt - 1) b1 (skipn (512 * i) s)) as [[[cnt2 b2] s2]|] eqn:E2; [|discriminate].
    apply feed_sound in E2 as (j & Hj & -> & -> & Hcnt2 & Hn2). intros H.
    apply token_pairs_sound in H as (Hz & l & rest & Hl & El); [|exact H0|rewrite count_nl_app; lia].
    rewrite skipn_length in Hj.
    exists c, l, rest, (skipn (512 * j) (skipn (512 * i) s)). 
    assert (lines (c :: l) ++ rest = firstn (512 * (i + j)) s) as Ehd.
    { unfold lines in *. cbn [map concat]. rewrite <- !app_assoc. rewrite <- El. 
      transitivity (buf ++ firstn (512 * j) (skipn (512 * i) s)); [rewrite Eb at 1; rewrite <- !app_assoc; reflexivity|].
      unfold buf. rewrite <- (firstn_skipn (512 * i) s) at 3. rewrite firstn_app, firstn_length, Nat.min_l by lia. rewrite firstn_firstn, Nat.min_r by lia. f_equal. f_equal. lia. }
    split; [|split; [|split; [congruence|split; [congruence|exact Hl]]]].
    + rewrite app_assoc, Ehd. rewrite skipn_skipn'. replace (512 * i + 512 * j)%nat with (512 * (i + j))%nat by lia. symmetry. apply firstn_skipn.
    + rewrite Ehd. exists (Z.of_nat (i + j)). unfold zlen. rewrite firstn_length, Nat.min_l by lia. lia.
  - intros (c & l & pad & data & Es & (q & Hq) & Hc & Hl & Ht). set (hdr := lines (c :: l) ++ pad) in *.
    assert (s = hdr ++ data) as Es1 by (unfold hdr; rewrite <- app_assoc; exact Es).
    pose proof (zlen_nonneg m) as Hz0. pose proof (zlen_nonneg hdr) as Hzh. set (J := Z.to_nat q).
    assert (length hdr = (512 * J)%nat) as Hlh by (unfold zlen in Hq, Hzh; lia).
    assert (firstn (512 * J) s = hdr) as Efull by (rewrite Es1, firstn_app, Hlh, Nat.sub_diag, <- Hlh, firstn_all; cbn; apply app_nil_r).
    assert (1 + 2 * zlen m <= count_nl hdr) as Hcnt.
    { unfold hdr. rewrite count_nl_app, lines_count.
      - rewrite zlen_cons, (texts_len _ _ Ht). pose proof (count_nl_nonneg pad). lia.
      - constructor; [apply (int_text_no _ _ 10%N Hc); lia|apply (texts_free _ _ _ Ht); lia]. }
    unfold read_map_1x0. assert (512 * J <= length s)%nat as HJs by (rewrite Es1, app_length; lia).
    destruct (feed_spec 1 J (length s) 0 [] s) as (i & Hi & Ef & Hn1); [exact HJs|lia|rewrite Efull; lia|].
    rewrite Ef. cbn [app]. set (buf := firstn (512 * i) s) in *. set (s1 := skipn (512 * i) s) in *.
    assert (buf ++ s1 = c ++ [10%N] ++ (lines l ++ pad ++ data)) as Ebs.
    { unfold buf, s1. rewrite firstn_skipn, Es. unfold lines. cbn [map concat]. rewrite <- !app_assoc. reflexivity. }
    destruct (next_token_spec _ _ _ _ (int_text_no _ _ 10%N Hc ltac:(lia)) Ebs) as (b1 & E1 & Eb1 & C1); [lia|]. rewrite E1.
    rewrite (proj2 (parse_count_iff c (zlen m))) by (split; [exact Hc|split; assumption]).
    assert (firstn (512 * J) s = buf ++ firstn (512 * (J - i)) s1) as Esplit.
    { unfold buf, s1. rewrite <- (firstn_skipn (512 * i) s) at 1. rewrite firstn_app, firstn_length, Nat.min_l by lia. rewrite firstn_firstn, Nat.min_r by lia. f_equal. f_equal. lia. }
    rewrite Efull in Esplit. rewrite Esplit, count_nl_app in Hcnt.
    destruct (feed_spec (2 * zlen m) (J - i) (length s1) (0 + count_nl buf - 1) b1 s1) as (k & Hk & Ef2 & Hn2).
    { unfold s1. rewrite skipn_length. lia. }
    { unfold s1. rewrite skipn_length. lia. }
    { lia. }
    rewrite Ef2. apply (token_pairs_texts m l _ _ (skipn (512 * k) s1) (pad ++ data)); [exact Ht| | |].
    + assert (2 * zlen m <= count_nl (b1 ++ firstn (512 * k) s1)) as Hc2 by (rewrite count_nl_app; lia).
      pose proof (count_nl_le (b1 ++ firstn (512 * k) s1)). unfold zlen in *. lia.
    + rewrite <- app_assoc, firstn_skipn. exact Eb1.
    + rewrite count_nl_app. lia.
Qed.
