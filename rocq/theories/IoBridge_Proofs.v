From Coq Require Import Permutation Sorted.
From Verif Require Import Common CommonLemmas ContentRange_Model ContentRange_Proofs PathLex_Model PathLex_Proofs Utf8_Model Utf8_Spec Utf8_Proofs Views_Model Views_Spec Views_Proofs IoBridge_Model IoBridge_Spec.
Open Scope Z_scope.

(* ---- text ---- *)
Lemma between_true lo hi b : between lo hi b = true -> (lo <= b <= hi)%N.
Proof. unfold between. intros H. apply andb_true_iff in H as [H1 H2]. apply N.leb_le in H1, H2. lia. Qed.
Lemma lead_cases b sz lo hi : lead b = Some (sz, (lo, hi)) ->
  (sz = 1%nat /\ (b < 128)%N) \/
  (sz = 2%nat /\ (194 <= b <= 223)%N /\ lo = 128%N /\ hi = 191%N) \/
  (sz = 3%nat /\ (224 <= b <= 239)%N /\ (128 <= lo)%N /\ (hi <= 191)%N /\ (b = 224 -> lo = 160)%N /\ (b = 237 -> hi = 159)%N) \/
  (sz = 4%nat /\ (240 <= b <= 244)%N /\ (128 <= lo)%N /\ (hi <= 191)%N /\ (b = 240 -> lo = 144)%N /\ (b = 244 -> hi = 143)%N).
Proof.
  unfold lead. destruct (N.ltb_spec b 128); [intros E; inversion E; subst; left; auto|].
  destruct (between 194 223 b) eqn:E1; [apply between_true in E1; intros E; inversion E; subst; right; left; repeat split; lia|].
  destruct (N.eqb_spec b 224); [intros E; inversion E; subst; right; right; left; repeat split; lia|].
  destruct (between 225 236 b) eqn:E2; [apply between_true in E2; intros E; inversion E; subst; right; right; left; repeat split; lia|].
  destruct (N.eqb_spec b 237); [intros E; inversion E; subst; right; right; left; repeat split; lia|].
  destruct (between 238 239 b) eqn:E3; [apply between_true in E3; intros E; inversion E; subst; right; right; left; repeat split; lia|].
  destruct (N.eqb_spec b 240); [intros E; inversion E; subst; right; right; right; repeat split; lia|].
  destruct (between 241 243 b) eqn:E4; [apply between_true in E4; intros E; inversion E; subst; right; right; right; repeat split; lia|].
  destruct (N.eqb_spec b 244); [intros E; inversion E; subst; right; right; right; repeat split; lia|discriminate].
Qed.

Lemma div_of a q r d : (r < d)%N -> a = (d * q + r)%N -> (a / d = q /\ a mod d = r)%N.
Proof. intros H ->. split; [symmetry; apply N.div_unique with r; auto|symmetry; apply N.mod_unique with q; auto]. Qed.

Lemma decode_is_encode b r : (128 <= b)%N -> decode_size (b :: r) <> 1%nat ->
  exists c, scalar c /\ (128 <= c)%N /\ b :: r = encode c ++ skipn (decode_size (b :: r)) (b :: r).
Proof.
  intros Hb Hd. unfold decode_size in *. destruct (lead b) as [[sz [lo hi]]|] eqn:El; [|contradiction].
  destruct (lead_cases _ _ _ _ El) as [[-> H]|[(-> & H & -> & ->)|[(-> & H1 & H2 & H3 & H4 & H5)|(-> & H1 & H2 & H3 & H4 & H5)]]]; [lia| | |].
  - destruct r as [|b1 r]; [contradiction|]. destruct (between 128 191 b1) eqn:E1; [|contradiction]. apply between_true in E1.
    exists (64 * (b - 192) + (b1 - 128))%N. destruct (div_of (64 * (b - 192) + (b1 - 128)) (b - 192) (b1 - 128) 64) as [D1 D2]; [lia|reflexivity|].
    split; [unfold scalar; lia|]. split; [lia|]. unfold encode. destruct (N.ltb_spec (64 * (b - 192) + (b1 - 128)) 128); [lia|]. destruct (N.ltb_spec (64 * (b - 192) + (b1 - 128)) 2048); [|lia].
    rewrite D1, D2. cbn [app skipn]. f_equal; [lia|]. f_equal. lia.
  - destruct r as [|b1 [|b2 r]]; [contradiction..|]. destruct (between lo hi b1) eqn:E1; [|contradiction]. destruct (cont_byte b2) eqn:E2; [|contradiction].
    apply between_true in E1. unfold cont_byte in E2. apply between_true in E2. set (c := (4096 * (b - 224) + 64 * (b1 - 128) + (b2 - 128))%N).
    destruct (div_of c (64 * (b - 224) + (b1 - 128)) (b2 - 128) 64) as [D1 D2]; [lia|subst c; lia|].
    destruct (div_of c (b - 224) (64 * (b1 - 128) + (b2 - 128)) 4096) as [D3 _]; [lia|subst c; lia|].
    destruct (div_of (64 * (b - 224) + (b1 - 128)) (b - 224) (b1 - 128) 64) as [_ D4]; [lia|reflexivity|].
    assert (Hc : (2048 <= c < 65536)%N) by (subst c; destruct (N.eq_dec b 224) as [e|e]; [rewrite (H4 e) in *; lia|lia]).
    assert (Hs : scalar c). { unfold scalar. destruct (N.eq_dec b 237) as [e|e]; [rewrite (H5 e) in *; subst c; lia|subst c; lia]. }
    exists c. split; [exact Hs|]. split; [lia|]. unfold encode. destruct (N.ltb_spec c 128); [lia|]. destruct (N.ltb_spec c 2048); [lia|]. destruct (N.ltb_spec c 65536); [|lia].
    rewrite D1, D2, D3, D4. cbn [app skipn andb]. f_equal; [lia|]. f_equal; [lia|]. f_equal. lia.
  - destruct r as [|b1 [|b2 [|b3 r]]]; [contradiction..|]. destruct (between lo hi b1) eqn:E1; [|contradiction]. destruct (cont_byte b2) eqn:E2; [|contradiction]. destruct (cont_byte b3) eqn:E3; [|contradiction].
    apply between_true in E1. unfold cont_byte in E2, E3. apply between_true in E2, E3. set (c := (262144 * (b - 240) + 4096 * (b1 - 128) + 64 * (b2 - 128) + (b3 - 128))%N).
    destruct (div_of c (4096 * (b - 240) + 64 * (b1 - 128) + (b2 - 128)) (b3 - 128) 64) as [D1 D2]; [lia|subst c; lia|].
    destruct (div_of c (64 * (b - 240) + (b1 - 128)) (64 * (b2 - 128) + (b3 - 128)) 4096) as [D3 _]; [lia|subst c; lia|].
    destruct (div_of c (b - 240) (4096 * (b1 - 128) + 64 * (b2 - 128) + (b3 - 128)) 262144) as [D4 _]; [lia|subst c; lia|].
    destruct (div_of (4096 * (b - 240) + 64 * (b1 - 128) + (b2 - 128)) (64 * (b - 240) + (b1 - 128)) (b2 - 128) 64) as [_ D5]; [lia|lia|].
    destruct (div_of (64 * (b - 240) + (b1 - 128)) (b - 240) (b1 - 128) 64) as [_ D6]; [lia|reflexivity|].
    assert (Hc : (65536 <= c < 1114112)%N).
    { subst c. destruct (N.eq_dec b 240) as [e|e]; [rewrite (H4 e) in *; lia|]. destruct (N.eq_dec b 244) as [e2|e2]; [rewrite (H5 e2) in *; lia|lia]. }
    exists c. split; [unfold scalar; lia|]. split; [lia|]. unfold encode. destruct (N.ltb_spec c 128); [lia|]. destruct (N.ltb_spec c 2048); [lia|]. destruct (N.ltb_spec c 65536); [lia|].
    rewrite D1, D2, D3, D4, D5, D6. cbn [app skipn andb]. f_equal; [lia|]. f_equal; [lia|]. f_equal; [lia|]. f_equal. lia.
Qed.

Lemma utf8_loop_sound : forall fuel p, utf8_loop fuel p = true -> valid_text p.
Proof.
  induction fuel as [|fuel IH]; intros [|b r] H; cbn [utf8_loop] in H; try discriminate; [exists []; split; [constructor|reflexivity]..|].
  destruct (N.ltb_spec b 128) as [Hb|Hb].
  - destruct (IH _ H) as (cs & Hs & ->). exists (b :: cs). split; [constructor; [left; lia|exact Hs]|]. unfold encode_all. cbn [map concat]. unfold encode at 2.
    destruct (N.ltb_spec b 128); [reflexivity|lia].
  - destruct (Nat.eqb_spec (decode_size (b :: r)) 1) as [E|E]; [discriminate|]. destruct (decode_is_encode b r Hb E) as (c & Hc & _ & Hr).
    destruct (IH _ H) as (cs & Hs & Hcs). exists (c :: cs). split; [constructor; assumption|]. rewrite Hr, Hcs. reflexivity.
Qed.
Lemma encode_len c : (1 <= length (encode c))%nat.
Proof. unfold encode. destruct (c <? 128)%N, (c <? 2048)%N, (c <? 65536)%N; cbn; lia. Qed.
Lemma utf8_loop_complete cs : Forall scalar cs -> forall fuel, (length (encode_all cs) <= fuel)%nat -> utf8_loop fuel (encode_all cs) = true.
Proof.
  induction 1 as [|c cs Hc Hs IH]; intros fuel Hf; [destruct fuel; reflexivity|].
  change (encode_all (c :: cs)) with (encode c ++ encode_all cs) in *. rewrite app_length in Hf. pose proof (encode_len c) as Hl.
  destruct fuel as [|fuel]; [lia|]. pose proof (decode_encode c (encode_all cs) Hc) as Hd.
  destruct (N.lt_ge_cases c 128) as [H1|H1].
  - assert (encode c = [c]) as E by (unfold encode; destruct (N.ltb_spec c 128); [reflexivity|lia]). rewrite E in *. cbn [app utf8_loop]. destruct (N.ltb_spec c 128); [|lia]. apply IH. cbn in Hf. lia.
  - assert (exists b r, encode c = b :: r /\ (128 <= b)%N /\ r <> []) as (b & r & E & Hb & Hr).
    { unfold encode. destruct (N.ltb_spec c 128); [lia|]. destruct (c <? 2048)%N, (c <? 65536)%N; eexists _, _; (split; [reflexivity|]); (split; [|discriminate]); lia. }
    rewrite E in *. cbn [app] in *. cbn [utf8_loop]. destruct (N.ltb_spec b 128); [lia|]. rewrite Hd. destruct r as [|b2 r]; [contradiction|]. cbn [length Nat.eqb].
    change (b :: (b2 :: r) ++ encode_all cs) with ((b :: b2 :: r) ++ encode_all cs). change (S (S (length r))) with (length (b :: b2 :: r)).
    rewrite skipn_app, skipn_all, Nat.sub_diag. cbn [app skipn]. apply IH. cbn [length] in Hf. lia.
Qed.
Lemma valid_string_spec p : valid_string p = true <-> valid_text p.
Proof. split; [apply utf8_loop_sound|]. intros (cs & Hs & ->). apply utf8_loop_complete; [exact Hs|lia]. Qed.

(* Text splits at slashes into text. *)
Lemma encode_high c b : scalar c -> (128 <= c)%N -> In b (encode c) -> (128 <= b)%N.
Proof.
  intros Hs Hc. unfold encode. destruct (N.ltb_spec c 128); [lia|]. destruct (c <? 2048)%N, (c <? 65536)%N; cbn [In]; intros H0; repeat destruct H0 as [H0|H0]; try lia; contradiction.
Qed.
Lemma text_split a b : valid_text (a ++ sep :: b) <-> valid_text a /\ valid_text b.
Proof.
  split.
  - intros (cs & Hs & E). revert a E. induction Hs as [|c cs Hc Hs IH]; intros a E; [destruct a; discriminate|].
    change (encode_all (c :: cs)) with (encode c ++ encode_all cs) in E. destruct (N.lt_ge_cases c 128) as [H1|H1].
    + assert (encode c = [c]) as Ec by (unfold encode; destruct (N.ltb_spec c 128); [reflexivity|lia]). rewrite Ec in E. destruct a as [|x a].
      * cbn in E. inversion E; subst. split; [exists []; split; [constructor|reflexivity]|exists cs; auto].
      * cbn [app] in E. injection E as <- E. destruct (IH _ E) as [(ca & Ha & ->) Hb]. split; [|exact Hb]. exists (x :: ca). split; [constructor; assumption|].
        unfold encode_all. cbn [map concat]. rewrite Ec. reflexivity.
    + assert (Hle : (length (encode c) <= length a)%nat).
      { destruct (Nat.le_gt_cases (length (encode c)) (length a)) as [H|H]; [exact H|]. exfalso.
        assert (In sep (encode c)). { apply (f_equal (fun l => nth_error l (length a))) in E. rewrite nth_error_app2, Nat.sub_diag in E by lia. cbn in E. rewrite nth_error_app1 in E by lia. symmetry in E. exact (nth_error_In _ _ E). }
        apply encode_high in H0; [unfold sep in H0; lia|assumption..]. }
      assert (exists a', a = encode c ++ a') as [a' ->].
      { exists (skipn (length (encode c)) a). rewrite <- (firstn_skipn (length (encode c)) a) at 1. f_equal. apply (f_equal (firstn (length (encode c)))) in E.
        rewrite firstn_app, firstn_app, Nat.sub_diag, firstn_all in E. cbn [firstn] in E. rewrite app_nil_r in E. replace (length (encode c) - length a)%nat with 0%nat in E by lia. cbn [firstn] in E. rewrite app_nil_r in E. exact E. }
      rewrite <- app_assoc in E. apply app_inv_head in E. destruct (IH _ E) as [(ca & Ha & ->) Hb]. split; [|exact Hb]. exists (c :: ca). split; [constructor; assumption|reflexivity].
  - intros [(ca & Ha & ->) (cb & Hb & ->)]. exists (ca ++ 47%N :: cb). split; [apply Forall_app; split; [exact Ha|constructor; [left; lia|exact Hb]]|].
    unfold encode_all. rewrite map_app, concat_app. reflexivity.
Qed.
Lemma text_elems p : valid_text p <-> Forall valid_text (split_sep p).
Proof.
  rewrite <- (join_split p) at 1. pose proof (split_nonempty p) as Hn. induction (split_sep p) as [|x l IH]; [contradiction|]. destruct l as [|y l].
  - cbn [join_sep]. split; [intros H; constructor; [exact H|constructor]|intros H; inversion H; assumption].
  - rewrite join_cons by discriminate. rewrite text_split, IH by discriminate. split; [intros [H1 H2]; constructor; assumption|intros H; inversion H; auto].
Qed.
Lemma text_join l : Forall valid_text l -> valid_text (join_sep l).
Proof.
  induction 1 as [|x l Hx Hl IH]; [exists []; split; [constructor|reflexivity]|]. destruct l as [|y l]; [exact Hx|]. rewrite join_cons by discriminate. apply text_split. auto.
Qed.
Lemma dot_text : valid_text [dot].
Proof. exists [46%N]. split; [constructor; [left; lia|constructor]|reflexivity]. Qed.

Lemma step_sub root l : forall st (P : list byte -> Prop), Forall P l -> Forall P st -> Forall P (fold_left (clean_step root) l st).
Proof.
  induction l as [|c l IH]; intros st P Hl Hst; [exact Hst|]. inversion Hl as [|? ? Hc Hl']; subst. cbn [fold_left]. apply IH; [exact Hl'|].
  unfold clean_step. destruct (is_empty c || is_dot c); [exact Hst|]. destruct (is_dotdot c); [|constructor; assumption].
  destruct st as [|t st]; [destruct root; [constructor|constructor; [exact Hc|constructor]]|]. destruct (is_dotdot t); [constructor; assumption|inversion Hst; assumption].
Qed.
Lemma comps_sub root p (P : list byte -> Prop) : Forall P (split_sep p) -> Forall P (clean_comps root (split_sep p)).
Proof. intros H. unfold clean_comps. apply Forall_rev. apply step_sub; [exact H|constructor]. Qed.

(* ---- valid paths ---- *)
Lemma element_spec e : sepfree e -> (negb (is_empty e || is_dot e || is_dotdot e) = true <-> proper e).
Proof.
  intros Hs. rewrite negb_true_iff, !orb_false_iff. split.
  - intros [[H1 H2] H3]. repeat split; [intros ->; discriminate..|exact Hs].
  - intros H. destruct (proper_tests e H) as (H1 & H2 & H3). auto.
Qed.
Lemma elements_spec p : forallb (fun e => negb (is_empty e || is_dot e || is_dotdot e)) (split_sep p) = true <-> Forall proper (split_sep p).
Proof.
  pose proof (split_sepfree p) as Hs. induction Hs as [|e l He Hl IH]; [split; [constructor|reflexivity]|]. cbn [forallb]. rewrite andb_true_iff, IH, element_spec by exact He.
  split; [intros [H1 H2]; constructor; assumption|intros H; inversion H; auto].
Qed.
Lemma fs_valid_spec p : fs_valid_path p = true <-> valid_name p.
Proof.
  unfold fs_valid_path, valid_name. rewrite andb_true_iff, valid_string_spec, orb_true_iff, is_dot_true, elements_spec. split.
  - intros [H1 [H2|H2]]; split; auto. right. exists (split_sep p). split; [apply split_nonempty|]. split; [exact H2|]. symmetry. apply join_split.
  - intros [H1 [H2|(l & H2 & H3 & ->)]]; split; auto. right. rewrite split_join by (try apply proper_sepfree; assumption). exact H3.
Qed.
Lemma no_nul_spec p : forallb (fun b => negb (b =? 0)%N) p = true <-> no_nul p.
Proof.
  rewrite forallb_forall. split.
  - intros H H0. specialize (H _ H0). discriminate.
  - intros H x Hx. apply negb_true_iff. destruct (N.eqb_spec x 0); [subst; contradiction|reflexivity].
Qed.
Lemma to_io_spec o name v n : to_io o name = Some (v, n) <-> v = counterpart o /\ n = name /\ valid_name name /\ no_nul name.
Proof.
  unfold to_io. destruct (valid_fs_path name) eqn:E; unfold valid_fs_path, localizable in E.
  - apply andb_true_iff in E as [E1 E2]. apply andb_true_iff in E2 as [_ E2]. apply fs_valid_spec in E1. apply no_nul_spec in E2. split.
    + intros H. apply some_inj in H. injection H as <- <-. split; [destruct o; reflexivity|auto].
    + intros (-> & -> & _). destruct o; reflexivity.
  - split; [discriminate|]. intros (_ & _ & H1 & H2). apply fs_valid_spec in H1. apply no_nul_spec in H2. rewrite H1, H2 in E. discriminate.
Qed.

(* ---- cleaning ---- *)
Lemma trim_clean p : trim_dot_slash (clean p) = clean p.
Proof.
  unfold trim_dot_slash. destruct (clean p) as [|a [|b r]] eqn:E; [reflexivity..|]. destruct (N.eqb_spec a dot) as [->|Ha]; [|reflexivity]. destruct (N.eqb_spec b sep) as [->|Hb]; [|reflexivity].
  exfalso. pose proof (clean_normal p) as Hn. pose proof (split_render _ _ Hn) as Hs. change (render (rooted p) (clean_comps (rooted p) (split_sep p))) with (clean p) in Hs.
  pose proof (rooted_clean p) as Hr. rewrite E in Hs, Hr. cbn in Hr. rewrite <- Hr in *. change (split_sep (dot :: sep :: r)) with ([dot] :: split_sep r) in Hs.
  destruct Hn as (k & l' & El & Hp & _). rewrite El in Hs. destruct k as [|k]; cbn [repeat app] in Hs.
  - destruct l' as [|x l']; cbn in Hs; [injection Hs as Hs; pose proof (split_nonempty r); congruence|]. injection Hs as <- _. inversion Hp as [|? ? Hx _]; subst. destruct Hx as (_ & Hx & _). apply Hx. reflexivity.
  - discriminate.
Qed.
Lemma clean_to_slash_eq p : clean_to_slash p = clean p.
Proof. apply trim_clean. Qed.
Lemma clean_from_slash_eq p : clean_from_slash p = clean p.
Proof. apply trim_clean. Qed.

Lemma clean_inside p : inside p -> clean p = render false (elems p).
Proof. intros [Hr _]. unfold clean, elems. rewrite Hr. reflexivity. Qed.
Lemma local_clean name : is_local (clean name) = true <-> inside name.
Proof.
  rewrite is_local_comps. unfold inside. rewrite rooted_clean. destruct (rooted name) eqn:Er; [split; intros H; [destruct H as (_ & H & _)|destruct H as [H _]]; discriminate|].
  pose proof (clean_normal name) as Hn. rewrite Er in Hn. unfold clean. rewrite Er, (comps_render _ _ Hn). split; [intros (_ & H1 & H2); auto|].
  intros [H1 H2]. split; [|auto]. pose proof (clean_nonempty name) as Hc. unfold clean in Hc. rewrite Er in Hc. exact Hc.
Qed.
Lemma from_resolve_spec name p : from_resolve name = Some p <-> inside name /\ p = render false (elems name).
Proof.
  unfold from_resolve. destruct (is_local (clean name)) eqn:E; cbn [negb].
  - apply local_clean in E. rewrite clean_to_slash_eq, clean_idem, clean_inside by exact E. split; [intros H; apply some_inj in H; auto|intros [_ ->]; reflexivity].
  - split; [discriminate|]. intros [H _]. apply local_clean in H. congruence.
Qed.

Lemma write_op_spec fl flag : write_op fl flag =
  negb ((Z.land flag (f_wronly fl) =? 0) && (Z.land flag (f_rdwr fl) =? 0) && (Z.land flag (f_append fl) =? 0) && (Z.land flag (f_create fl) =? 0) && (Z.land flag (f_trunc fl) =? 0)).
Proof.
  unfold write_op. f_equal. rewrite !Z.land_lor_distr_r. apply eq_true_iff_eq. rewrite !andb_true_iff, !Z.eqb_eq, !Z.lor_eq_0_iff. tauto.
Qed.
Lemma from_io_spec fl c :
  match asks fl c with
  | None => from_io fl c = ReadOnlyFs
  | Some (o, name) => (inside name -> from_io fl c = Ask o (render false (elems name))) /\ (~ inside name -> from_io fl c = Escapes)
  end.
Proof.
  assert (H : forall o name, (inside name -> from_ask o name = Ask o (render false (elems name))) /\ (~ inside name -> from_ask o name = Escapes)).
  { intros o name. unfold from_ask. destruct (from_resolve name) as [p|] eqn:E.
    - apply from_resolve_spec in E as [H ->]. split; [reflexivity|contradiction].
    - split; [|reflexivity]. intros Hi. assert (from_resolve name = Some (render false (elems name))) by (apply from_resolve_spec; auto). congruence. }
  destruct c as [[o n|a b|a b|a b|n]|n flag]; try reflexivity; [destruct o; cbn; try reflexivity; apply H|].
  cbn [asks from_io]. rewrite write_op_spec. destruct ((Z.land flag (f_wronly fl) =? 0) && _ && _ && _ && _); cbn [negb]; [apply H|reflexivity].
Qed.

Lemma elems_text name : valid_text name -> Forall valid_text (elems name).
Proof. intros H. unfold elems. apply comps_sub. apply text_elems. exact H. Qed.
Lemma rendered_valid name : inside name -> valid_text name -> valid_name (render false (elems name)).
Proof.
  intros [Hr Hi] Ht. pose proof (elems_text _ Ht) as He. unfold elems in *. rewrite Hr in *. set (l := clean_comps false (split_sep name)) in *. split.
  - unfold render. destruct l as [|x l]; [exact dot_text|]. apply text_join. exact He.
  - unfold render. destruct l as [|x l]; [left; reflexivity|]. right. exists (x :: l). split; [discriminate|]. auto.
Qed.
(* Crossing back. *)
Lemma valid_fixed name : valid_name name -> inside name /\ render false (elems name) = name.
Proof.
  intros [_ [->|(l & Hl & Hp & ->)]]; [split; [split; [reflexivity|constructor]|reflexivity]|].
  assert (rooted (join_sep l) = false).
  { destruct l as [|x l]; [contradiction|]. inversion Hp as [|? ? Hx _]; subst. destruct Hx as (H0 & _ & _ & H). destruct x as [|c x]; [contradiction|].
    assert (c <> sep) by (intros ->; apply H; left; reflexivity).
    destruct l; cbn; destruct (N.eqb_spec c sep); congruence. }
  assert (clean_comps false (split_sep (join_sep l)) = l).
  { rewrite split_join by (try apply proper_sepfree; assumption). apply clean_comps_fix. exists 0%nat, l. split; [reflexivity|]. split; [exact Hp|discriminate]. }
  unfold inside, elems. rewrite H, H0. split; [auto|]. unfold render. destruct l; [contradiction|reflexivity].
Qed.
Lemma no_nul_join l : Forall no_nul l -> no_nul (join_sep l).
Proof.
  induction 1 as [|x l Hx Hl IH]; [intros []|]. destruct l as [|y l]; [exact Hx|]. rewrite join_cons by discriminate. intros H. apply in_app_or in H as [H|[H|H]]; [exact (Hx H)|discriminate|exact (IH H)].
Qed.
Lemma no_nul_split p : no_nul p -> Forall no_nul (split_sep p).
Proof.
  intros H. apply Forall_forall. intros e He H0. apply H. rewrite <- (join_split p). clear H. induction (split_sep p) as [|x l IH]; [contradiction|]. destruct l as [|y l].
  - destruct He as [->|[]]. exact H0.
  - rewrite join_cons by discriminate. apply in_or_app. destruct He as [->|He]; [left; exact H0|right; right; exact (IH He)].
Qed.
Lemma rendered_no_nul name : no_nul name -> no_nul (render false (elems name)).
Proof.
  intros H. unfold render. destruct (elems name) eqn:E; [intros [H0|[]]; discriminate|]. rewrite <- E. apply no_nul_join. unfold elems. apply comps_sub. apply no_nul_split. exact H.
Qed.

Lemma there_and_back fl c o name p : asks fl c = Some (o, name) -> from_io fl c = Ask o p -> valid_text name -> no_nul name ->
  to_io o p = Some (counterpart o, p) /\ p = clean name.
Proof.
  intros Ha Hf Ht Hn. pose proof (from_io_spec fl c) as H. rewrite Ha in H. destruct H as [H1 H2].
  destruct (from_resolve name) as [q|] eqn:E.
  - apply from_resolve_spec in E as [Hi ->]. rewrite (H1 Hi) in Hf. injection Hf as <-. split; [|symmetry; apply clean_inside; exact Hi].
    apply to_io_spec. split; [reflexivity|]. split; [reflexivity|]. split; [apply rendered_valid; assumption|apply rendered_no_nul; exact Hn].
  - exfalso. assert (~ inside name). { intros Hi. assert (from_resolve name = Some (render false (elems name))) by (apply from_resolve_spec; auto). congruence. }
    rewrite (H2 H) in Hf. discriminate.
Qed.
Lemma back_and_there fl c o name : asks fl c = Some (o, name) -> valid_name name -> from_io fl c = Ask o name.
Proof.
  intros Ha Hv. pose proof (from_io_spec fl c) as H. rewrite Ha in H. destruct (valid_fixed _ Hv) as [Hi E]. rewrite (proj1 H Hi), E. reflexivity.
Qed.

Definition unix_flags : oflags := {| f_wronly := 1; f_rdwr := 2; f_append := 1024; f_create := 64; f_trunc := 512 |}.
Lemma invalid_passes : exists c o p, from_io unix_flags c = Ask o p /\ ~ valid_name p.
Proof.
  exists (FC (V1 Open [255]%N)), IOpen, [255]%N. split; [reflexivity|]. intros H. apply fs_valid_spec in H. discriminate.
Qed.

Lemma normalizer_spec c : same_call c (normalizer_call c) /\ paths_of (normalizer_call c) = map clean (paths_of c) /\ normalizer_call (normalizer_call c) = normalizer_call c.
Proof.
  unfold normalizer_call. destruct c; cbn; rewrite ?clean_to_slash_eq, ?clean_idem, ?clean_to_slash_eq, ?clean_idem; auto.
Qed.
Lemma localizer_spec c : localizer_call c = normalizer_call c.
Proof. reflexivity. Qed.

(* ---- listings ---- *)
Lemma names_kept {A} (p : page A) : snd p = None \/ fst p = [] -> ex_names p = (map d_name (fst p), snd p).
Proof. destruct p as [l [e|]]; cbn; intros [H|H]; try discriminate; subst; reflexivity. Qed.
Lemma infos_kept {A} (l : list (dirent A)) (infos : list A) : map d_info l = map IHas infos -> ex_infos l = inl (map Some infos).
Proof.
  revert infos. induction l as [|d l IH]; intros [|a infos] E; cbn in *; try discriminate; [reflexivity|]. injection E as E1 E2. rewrite E1, (IH _ E2). reflexivity.
Qed.
Lemma readdir_kept {A} (p : page A) infos : snd p = None \/ fst p = [] -> map d_info (fst p) = map IHas infos -> ex_readdir p = (map Some infos, snd p).
Proof.
  destruct p as [l [e|]]; cbn; intros [H|H] E; try discriminate.
  - subst l. destruct infos; [reflexivity|discriminate].
  - rewrite (infos_kept _ _ E). reflexivity.
  - subst l. destruct infos; [reflexivity|discriminate].
Qed.
Lemma names_lost : exists (p : page nat) d, In d (fst p) /\ ~ In (d_name d) (fst (ex_names p)).
Proof. exists ([{| d_name := [97]%N; d_info := IHas 1%nat |}], Some 5%nat), {| d_name := [97]%N; d_info := IHas 1%nat |}. split; [left; reflexivity|intros []]. Qed.
Lemma nil_info : exists p : page nat, snd p = None /\ snd (ex_readdir p) = None /\ In None (fst (ex_readdir p)).
Proof. exists ([{| d_name := [97]%N; d_info := IGone |}], None). split; [reflexivity|]. split; [reflexivity|left; reflexivity]. Qed.

Lemma restat_kept {A} (named : A -> list byte) lstat dir (p : page A) :
  (forall l n a, lstat = Some l -> l (join2 dir n) = Some a -> named a = n) ->
  map d_name (fst (fs_readdir named lstat dir p)) = map d_name (fst p) /\ snd (fs_readdir named lstat dir p) = snd p /\
  (forall i d d', nth_error (fst p) i = Some d -> nth_error (fst (fs_readdir named lstat dir p)) i = Some d' ->
     match lstat with
     | Some l => match l (join2 dir (d_name d)) with Some a => d_info d' = IHas a | None => d' = d end
     | None => d' = d
     end).
Proof.
  intros Hn. unfold fs_readdir. destruct lstat as [l|]; [|split; [reflexivity|split; [reflexivity|intros i d d' H1 H2; congruence]]].
  cbn [fst snd]. split; [|split; [reflexivity|]].
  - rewrite map_map. apply map_ext. intros d. unfold restat. destruct (l (join2 dir (d_name d))) as [a|] eqn:E; [exact (Hn l _ _ eq_refl E)|reflexivity].
  - intros i d d' H1 H2. rewrite nth_error_map, H1 in H2. cbn in H2. apply some_inj in H2. subst d'. unfold restat. destruct (l (join2 dir (d_name d))); reflexivity.
Qed.

Lemma cmp_le a : forall b, bytes_cmp a b <> Gt -> bytes_le a b.
Proof.
  induction a as [|x a IH]; intros [|y b] H; cbn in H; try (constructor; fail); [contradiction|]. destruct (N.compare_spec x y) as [->|H1|H1]; [constructor 3; apply IH; exact H|constructor 2; exact H1|contradiction].
Qed.
Lemma cmp_swap a : forall b, bytes_cmp a b <> Lt -> bytes_le b a.
Proof.
  induction a as [|x a IH]; intros [|y b] H; cbn in H; try (constructor; fail); [contradiction|]. destruct (N.compare_spec x y) as [->|H1|H1]; [constructor 3; apply IH; exact H|contradiction|constructor 2; exact H1].
Qed.
Lemma le_trans_bytes a : forall b c, bytes_le a b -> bytes_le b c -> bytes_le a c.
Proof.
  induction a as [|x a IH]; intros b c H1 H2; [constructor|]. inversion H1; subst; inversion H2; subst; try (constructor 2; lia).
  constructor 3. eapply IH; eassumption.
Qed.
Lemma insert_perm {A} (d : dirent A) l : Permutation (d :: l) (insert d l).
Proof.
  induction l as [|e l IH]; cbn; [reflexivity|]. destruct (bytes_cmp (d_name e) (d_name d)); try reflexivity. rewrite perm_swap. constructor. exact IH.
Qed.
Lemma insert_sorted {A} (d : dirent A) l : StronglySorted (fun a b => bytes_le (d_name a) (d_name b)) l -> StronglySorted (fun a b => bytes_le (d_name a) (d_name b)) (insert d l).
Proof.
  induction 1 as [|e l Hs IH Hf]; cbn; [constructor; constructor|]. destruct (bytes_cmp (d_name e) (d_name d)) eqn:E.
  2: { constructor; [exact IH|]. rewrite Forall_forall in *. intros x Hx. apply (Permutation_in _ (Permutation_sym (insert_perm d l))) in Hx. destruct Hx as [<-|Hx]; [apply cmp_le; congruence|apply Hf; exact Hx]. }
  all: (assert (Hd : bytes_le (d_name d) (d_name e)) by (apply cmp_swap; congruence); constructor; [constructor; assumption|]; constructor; [exact Hd|];
    rewrite Forall_forall in *; intros x Hx; eapply le_trans_bytes; [exact Hd|apply Hf; exact Hx]).
Qed.
Lemma sort_sorts {A} : sorts (@sort_entries A).
Proof.
  intros l. unfold sort_entries. induction l as [|d l [IH1 IH2]]; cbn; [split; constructor|]. split; [rewrite <- insert_perm; constructor; exact IH1|apply insert_sorted; exact IH2].
Qed.
Lemma read_dir_spec {A} (sort : list (dirent A) -> list (dirent A)) p : sorts sort ->
  Permutation (fst p) (fst (read_dir sort (Some p))) /\ StronglySorted (fun a b => bytes_le (d_name a) (d_name b)) (fst (read_dir sort (Some p))) /\
  snd (read_dir sort (Some p)) = snd p.
Proof.
  intros Hs. destruct p as [l e]. cbn [fst snd read_dir]. destruct (Nat.leb_spec 2 (length l)) as [H|H]; [destruct (Hs l); auto|].
  split; [reflexivity|]. split; [|reflexivity]. destruct l as [|x [|y l]]; [constructor|constructor; constructor|cbn in H; lia].
Qed.
