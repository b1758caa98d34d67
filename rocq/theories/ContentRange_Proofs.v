From Verif Require Import Common CommonLemmas ContentRange_Model ContentRange_Spec.
Open Scope Z_scope.

Lemma bytes_eqb_eq a b : bytes_eqb a b = true <-> a = b.
Proof.
  revert b; induction a as [|x a IH]; intros [|y b]; cbn [bytes_eqb]; split; intros H;
    try reflexivity; try discriminate.
  - apply andb_true_iff in H as [H1 H2]. apply N.eqb_eq in H1. apply IH in H2. congruence.
  - injection H as -> ->. rewrite N.eqb_refl. cbn [andb]. now apply IH.
Qed.

Lemma trim_left_decomp p s : exists w, s = w ++ trim_left p s /\ Forall (fun b => p b = true) w.
Proof.
  induction s as [|b s (w & Hw & Hf)]; [exists []; split; [reflexivity|constructor]|].
  cbn [trim_left]. destruct (p b) eqn:E.
  - exists (b :: w). split; [cbn [app]; now rewrite <- Hw|constructor; assumption].
  - exists []. split; [reflexivity|constructor].
Qed.

Lemma trim_left_app p w s : Forall (fun b => p b = true) w -> trim_left p (w ++ s) = trim_left p s.
Proof. induction 1 as [|b w Hb Hw IH]; cbn [app trim_left]; [reflexivity|]. now rewrite Hb. Qed.

Lemma trim_left_id p b s : p b = false -> trim_left p (b :: s) = b :: s.
Proof. intros H; cbn [trim_left]; now rewrite H. Qed.

Lemma trim_right_decomp p s : exists w, s = trim_right p s ++ w /\ Forall (fun b => p b = true) w.
Proof.
  destruct (trim_left_decomp p (rev s)) as (w & Hw & Hf).
  exists (rev w). split; [|now apply Forall_rev].
  unfold trim_right. rewrite <- rev_app_distr, <- Hw. now rewrite rev_involutive.
Qed.

Lemma trim_right_app p s b w : p b = false -> Forall (fun b => p b = true) w ->
  trim_right p ((s ++ [b]) ++ w) = s ++ [b].
Proof.
  intros Hb Hw. unfold trim_right. rewrite rev_app_distr.
  rewrite trim_left_app by now apply Forall_rev.
  rewrite rev_app_distr. cbn [rev app]. rewrite trim_left_id by assumption.
  cbn [rev]. now rewrite rev_involutive.
Qed.

Lemma cut_some sep s x y : cut sep s = Some (x, y) -> s = x ++ [sep] ++ y /\ ~ In sep x.
Proof.
  revert x y; induction s as [|b s IH]; intros x y; cbn [cut]; [discriminate|].
  destruct (N.eqb_spec b sep) as [->|Hne].
  - intros H; injection H as <- <-. split; [reflexivity|intros []].
  - destruct (cut sep s) as [[x' y']|] eqn:E; [|discriminate].
    intros H; injection H as <- <-. destruct (IH _ _ eq_refl) as [-> Hn].
    split; [reflexivity|]. intros [|]; [congruence|contradiction].
Qed.

Lemma cut_app sep x y : ~ In sep x -> cut sep (x ++ [sep] ++ y) = Some (x, y).
Proof.
  induction x as [|b x IH]; intros Hn; cbn [app cut].
  - now rewrite N.eqb_refl.
  - destruct (N.eqb_spec b sep) as [->|Hne]; [exfalso; apply Hn; now left|].
    cbn [app] in IH. rewrite IH; [reflexivity|]. intros H; apply Hn; now right.
Qed.

Lemma written_fold k s : written k s = fold_left (fun a b => a * k + (Z.of_N b - 48)) s 0.
Proof.
  unfold written. rewrite <- fold_left_rev_right. induction (rev s) as [|b r IH]; cbn [low_first fold_right]; [reflexivity|]. rewrite IH. lia.
Qed.

Lemma number_alt s n : number s n <-> s <> [] /\ Forall (fun b => (48 <= b <= 57)%N) s /\ dec_value s = n.
Proof. unfold number. now rewrite written_fold. Qed.

Lemma blank_ws b : blank b <-> is_ws b = true.
Proof. unfold blank, is_ws. cbn [In]. rewrite !orb_true_iff, !N.eqb_eq. intuition congruence. Qed.

Lemma ws_alt s : ws s <-> Forall (fun b => is_ws b = true) s.
Proof. unfold ws. split; apply Forall_impl; intros b; apply blank_ws. Qed.

Lemma parse_decimal_some s n : parse_decimal s = Some n <-> number s n /\ n <= max_int64.
Proof.
  rewrite number_alt. unfold parse_decimal. destruct s as [|b s]; [split; [discriminate|intros [[H _] _]; congruence]|].
  split.
  - intros H. destruct (forallb is_digit (b :: s)) eqn:E; [|discriminate].
    destruct (Z.leb_spec (dec_value (b :: s)) max_int64) as [Hle|]; [|discriminate].
    injection H as <-. repeat split; try discriminate; auto.
    rewrite forallb_forall in E. apply Forall_forall. intros x Hx. specialize (E x Hx).
    unfold is_digit in E. lia.
  - intros [[_ [Hd Hv]] Hle].
    assert (forallb is_digit (b :: s) = true) as ->.
    { apply forallb_forall. intros x Hx. rewrite Forall_forall in Hd. specialize (Hd x Hx).
      unfold is_digit. lia. }
    rewrite Hv. destruct (Z.leb_spec n max_int64); [reflexivity|lia].
Qed.

Lemma dec_value_nonneg_acc s a : 0 <= a -> Forall (fun b => (48 <= b <= 57)%N) s ->
  0 <= fold_left (fun a b => a * 10 + (Z.of_N b - 48)) s a.
Proof.
  intros Ha Hs; revert a Ha; induction Hs as [|b s Hb Hs IH]; intros a Ha; cbn [fold_left]; [assumption|].
  apply IH. lia.
Qed.

Lemma number_nonneg s n : number s n -> 0 <= n.
Proof. intros H. apply number_alt in H as (_ & Hd & <-). apply dec_value_nonneg_acc; [lia|assumption]. Qed.

Lemma digits_no_in s n x : number s n -> ~ (48 <= x <= 57)%N -> ~ In x s.
Proof. intros (_ & Hd & _) Hx Hin. rewrite Forall_forall in Hd. apply Hx, Hd, Hin. Qed.

Lemma unit_spec u : equal_fold_bytes u = true <-> bytes_unit u.
Proof.
  unfold equal_fold_bytes, bytes_unit, the_unit. rewrite bytes_eqb_eq. unfold s_bytes. split.
  - assert (forall b l, lower b = l -> (97 <= l <= 122)%N -> b = l \/ (b + 32)%N = l) as Hl.
    { intros b l E Hr. unfold lower in E.
      destruct (N.leb_spec 65 b), (N.leb_spec b 90); cbn [andb] in E; auto. }
    intros H.
    destruct u as [|x1 [|x2 [|x3 [|x4 [|x5 [|x6 u]]]]]]; cbn [map] in H; try discriminate.
    injection H as E1 E2 E3 E4 E5.
    repeat (apply Forall2_cons; [apply Hl; [assumption|lia]|]). constructor.
  - assert (forall b l, b = l \/ (b + 32)%N = l -> (97 <= l <= 122)%N -> lower b = l) as Hl.
    { intros b l E Hr. unfold lower. destruct (N.leb_spec 65 b), (N.leb_spec b 90); cbn [andb]; lia. }
    intros H. repeat (match goal with H : Forall2 _ _ (_ :: _) |- _ => inversion H; subst; clear H end).
    match goal with H : Forall2 _ _ [] |- _ => inversion H; subst end.
    cbn [map]. repeat f_equal; apply Hl; auto; lia.
Qed.

Lemma unit_no_space u : bytes_unit u -> ~ In 32%N u.
Proof.
  unfold bytes_unit, the_unit. intros H Hin.
  repeat (match goal with H : Forall2 _ _ (_ :: _) |- _ => inversion H; subst; clear H end).
  match goal with H : Forall2 _ _ [] |- _ => inversion H; subst end.
  cbn [In] in Hin. lia.
Qed.

Lemma unit_head u : bytes_unit u -> exists b r, u = b :: r /\ is_ws b = false.
Proof.
  unfold bytes_unit, the_unit. intros H. inversion H as [|b l r ll Hb Hr]; subst.
  exists b, r. split; [reflexivity|]. unfold is_ws. lia.
Qed.

Lemma number_snoc t n : number t n -> exists s b, t = s ++ [b] /\ is_ws b = false.
Proof.
  intros (Hne & Hd & _). destruct (exists_last Hne) as (s & b & ->). exists s, b. split; [reflexivity|].
  apply Forall_app in Hd as [_ Hb]. inversion Hb; subst. unfold is_ws. lia.
Qed.

Lemma number_head t n : number t n -> exists b r, t = b :: r /\ b <> 32%N.
Proof.
  intros (Hne & Hd & _). destruct t as [|b r]; [congruence|]. inversion Hd; subst.
  exists b, r; split; [reflexivity|lia].
Qed.

(* trimming of "w1 unit ... t w2" *)
Lemma trim_space_form w1 u mid t w2 n :
  ws w1 -> ws w2 -> bytes_unit u -> number t n ->
  trim_space (w1 ++ u ++ mid ++ t ++ w2) = u ++ mid ++ t.
Proof.
  intros Hw1 Hw2 Hu Ht. unfold trim_space.
  apply ws_alt in Hw1, Hw2. rewrite trim_left_app by exact Hw1.
  destruct (unit_head u Hu) as (b & r & -> & Hb). cbn [app]. rewrite trim_left_id by exact Hb.
  destruct (number_snoc t n Ht) as (s & c & -> & Hc).
  replace (b :: r ++ mid ++ (s ++ [c]) ++ w2) with (((b :: r ++ mid ++ s) ++ [c]) ++ w2)
    by (cbn [app]; rewrite <- !app_assoc; reflexivity).
  rewrite trim_right_app by assumption. cbn [app]. rewrite <- !app_assoc. reflexivity.
Qed.

Lemma trim_spaces_app sp b r : spaces sp -> b <> 32%N ->
  trim_left (fun b => (b =? 32)%N) (sp ++ b :: r) = b :: r.
Proof.
  intros Hs Hb. rewrite trim_left_app.
  - apply trim_left_id. now apply N.eqb_neq.
  - eapply Forall_impl; [|exact Hs]. intros a ->. reflexivity.
Qed.

Lemma parse_complete_range v s e t :
  denotes_range v s e t -> s <= e -> e < t -> t <= max_int64 ->
  parse_content_range v = Some (s, e, t).
Proof.
  intros (w1 & u & sp & f & l & tt & w2 & -> & Hw1 & Hw2 & Hsp & Hu & Hf & Hl & Ht) Hse Het Htm.
  unfold parse_content_range.
  replace (w1 ++ u ++ [32]%N ++ sp ++ f ++ [45]%N ++ l ++ [47]%N ++ tt ++ w2)
    with (w1 ++ u ++ ([32]%N ++ sp ++ f ++ [45]%N ++ l ++ [47]%N) ++ tt ++ w2)
    by (rewrite <- !app_assoc; reflexivity).
  rewrite (trim_space_form w1 u _ tt w2 t Hw1 Hw2 Hu Ht).
  rewrite <- !app_assoc.
  rewrite (cut_app 32%N u) by now apply unit_no_space.
  rewrite (proj2 (unit_spec u) Hu). cbn [negb].
  destruct (number_head f s Hf) as (b & r & -> & Hb).
  change (sp ++ (b :: r) ++ [45]%N ++ l ++ [47]%N ++ tt)
    with (sp ++ b :: (r ++ [45]%N ++ l ++ [47]%N ++ tt)).
  rewrite trim_spaces_app by assumption.
  pose proof (digits_no_in _ _ 47%N Hf ltac:(lia)) as Hn47f.
  pose proof (digits_no_in _ _ 47%N Hl ltac:(lia)) as Hn47l.
  pose proof (digits_no_in _ _ 45%N Hf ltac:(lia)) as Hn45.
  assert (cut 47%N (b :: r ++ [45]%N ++ l ++ [47]%N ++ tt)
          = Some (b :: r ++ [45]%N ++ l, tt)) as Hcut.
  { transitivity (cut 47%N (((b :: r) ++ [45]%N ++ l) ++ [47]%N ++ tt)).
    - f_equal. rewrite <- !app_assoc. reflexivity.
    - apply (cut_app 47%N ((b :: r) ++ [45]%N ++ l) tt). rewrite !in_app_iff. intros [H|[[H|[]]|H]]; try contradiction. discriminate. }
  match goal with |- context [cut 47%N ?X] =>
    change (cut 47%N X) with (cut 47%N (b :: r ++ [45]%N ++ l ++ [47]%N ++ tt)) end.
  rewrite Hcut.
  rewrite (proj2 (parse_decimal_some tt t)) by (split; [assumption|lia]).
  assert (bytes_eqb (b :: r ++ [45]%N ++ l) [42]%N = false) as ->.
  { destruct (bytes_eqb _ _) eqn:E; [|reflexivity]. apply bytes_eqb_eq in E.
    injection E as Eb Er. destruct r; discriminate. }
  change (b :: r ++ [45]%N ++ l) with ((b :: r) ++ [45]%N ++ l).
  rewrite (cut_app 45%N) by assumption.
  rewrite (proj2 (parse_decimal_some (b :: r) s)) by (split; [assumption|lia]).
  rewrite (proj2 (parse_decimal_some l e)) by (split; [assumption|lia]).
  destruct (Z.ltb_spec e s); [lia|]. destruct (Z.leb_spec t e); [lia|]. reflexivity.
Qed.

Lemma parse_complete_unsat v t :
  denotes_unsatisfied v t -> t <= max_int64 -> parse_content_range v = Some (-1, -1, t).
Proof.
  intros (w1 & u & sp & tt & w2 & -> & Hw1 & Hw2 & Hsp & Hu & Ht) Htm.
  unfold parse_content_range.
  replace (w1 ++ u ++ [32]%N ++ sp ++ [42]%N ++ [47]%N ++ tt ++ w2)
    with (w1 ++ u ++ ([32]%N ++ sp ++ [42]%N ++ [47]%N) ++ tt ++ w2)
    by (rewrite <- !app_assoc; reflexivity).
  rewrite (trim_space_form w1 u _ tt w2 t Hw1 Hw2 Hu Ht).
  rewrite <- !app_assoc.
  rewrite (cut_app 32%N u) by now apply unit_no_space.
  rewrite (proj2 (unit_spec u) Hu). cbn [negb].
  change (sp ++ [42]%N ++ [47]%N ++ tt) with (sp ++ 42%N :: ([47]%N ++ tt)).
  rewrite trim_spaces_app by (try assumption; discriminate).
  change (42%N :: [47]%N ++ tt) with ([42]%N ++ [47]%N ++ tt).
  rewrite (cut_app 47%N) by (intros [H|[]]; discriminate).
  rewrite (proj2 (parse_decimal_some tt t)) by (split; [assumption|lia]).
  reflexivity.
Qed.

Lemma trim_space_decomp v : exists w1 w2, v = w1 ++ trim_space v ++ w2 /\ ws w1 /\ ws w2.
Proof.
  destruct (trim_left_decomp is_ws v) as (w1 & H1 & Hf1).
  destruct (trim_right_decomp is_ws (trim_left is_ws v)) as (w2 & H2 & Hf2).
  exists w1, w2. split; [|split; apply ws_alt; assumption]. unfold trim_space. rewrite <- H2. exact H1.
Qed.

Lemma parse_sound v s e t :
  parse_content_range v = Some (s, e, t) ->
  (denotes_range v s e t /\ 0 <= s <= e /\ e < t <= max_int64) \/
  (denotes_unsatisfied v t /\ s = -1 /\ e = -1 /\ 0 <= t <= max_int64).
Proof.
  unfold parse_content_range. intros H.
  destruct (trim_space_decomp v) as (w1 & w2 & Hv & Hw1 & Hw2).
  destruct (cut 32%N (trim_space v)) as [[u spec]|] eqn:Ec; [|discriminate].
  apply cut_some in Ec as [Eu _].
  destruct (equal_fold_bytes u) eqn:Ef; cbn [negb] in H; [|discriminate].
  apply unit_spec in Ef.
  destruct (trim_left_decomp (fun b => (b =? 32)%N) spec) as (sp & Hsp & Hspf).
  destruct (cut 47%N (trim_left (fun b => (b =? 32)%N) spec)) as [[rs ts]|] eqn:Ec2; [|discriminate].
  apply cut_some in Ec2 as [Ers _].
  destruct (parse_decimal ts) as [total|] eqn:Et; [|discriminate].
  apply parse_decimal_some in Et as [Ht Htm].
  assert (spaces sp) as Hspaces.
  { eapply Forall_impl; [|exact Hspf]. intros a Ha. now apply N.eqb_eq in Ha. }
  destruct (bytes_eqb rs [42]%N) eqn:Estar.
  - apply bytes_eqb_eq in Estar. subst rs. injection H as <- <- <-. right.
    pose proof (number_nonneg _ _ Ht).
    split; [|lia].
    exists w1, u, sp, ts, w2.
    split; [|repeat split; try assumption; apply Ht].
    rewrite Hv, Eu, Hsp, Ers. rewrite <- !app_assoc. reflexivity.
  - destruct (cut 45%N rs) as [[f l]|] eqn:Ec3; [|discriminate].
    apply cut_some in Ec3 as [Efl _].
    destruct (parse_decimal f) as [st|] eqn:Efd; [|discriminate].
    destruct (parse_decimal l) as [en|] eqn:Eld; [|discriminate].
    apply parse_decimal_some in Efd as [Hf _]. apply parse_decimal_some in Eld as [Hl _].
    destruct ((en <? st) || (total <=? en)) eqn:Eb; [discriminate|].
    injection H as <- <- <-. left.
    pose proof (number_nonneg _ _ Hf).
    split; [|lia].
    exists w1, u, sp, f, l, ts, w2.
    split; [|repeat split; try assumption; try apply Ht; try apply Hf; apply Hl].
    rewrite Hv, Eu, Hsp, Ers, Efl. rewrite <- !app_assoc. reflexivity.
Qed.

Lemma parse_iff v s e t :
  parse_content_range v = Some (s, e, t) <->
  (denotes_range v s e t /\ s <= e /\ e < t /\ t <= max_int64) \/
  (denotes_unsatisfied v t /\ s = -1 /\ e = -1 /\ t <= max_int64).
Proof.
  split.
  - intros H. apply parse_sound in H as [(H & H1 & H2)|(H & H1 & H2 & H3)]; [left|right]; repeat split; auto; lia.
  - intros [(H & H1 & H2 & H3)|(H & -> & -> & H3)].
    + now apply parse_complete_range.
    + now apply parse_complete_unsat.
Qed.

(* facts the readers rely on *)
Lemma parse_bounds v s e t : parse_content_range v = Some (s, e, t) ->
  (0 <= s <= e /\ e < t <= max_int64) \/ (s = -1 /\ e = -1 /\ 0 <= t <= max_int64).
Proof. intros H; apply parse_sound in H as [(_ & H1 & H2)|(_ & H1 & H2)]; [left|right]; auto. Qed.

(* ---------- printing ---------- *)

Lemma dec_value_acc s a :
  fold_left (fun a b => a * 10 + (Z.of_N b - 48)) s a = a * 10 ^ zlen s + dec_value s.
Proof.
  unfold dec_value. revert a; induction s as [|b s IH]; intros a; cbn [fold_left].
  - change (zlen (@nil byte)) with 0. cbn; lia.
  - rewrite (IH (a * 10 + _)), (IH (0 * 10 + _)). rewrite zlen_cons.
    rewrite Z.pow_add_r by (try lia; apply zlen_nonneg). change (10 ^ 1) with 10. ring.
Qed.

Lemma digits_fuel_spec fuel n acc :
  0 <= n -> n < 10 ^ Z.of_nat fuel -> (0 < fuel)%nat ->
  Forall (fun b => (48 <= b <= 57)%N) acc ->
  let r := digits_fuel fuel n acc in
  Forall (fun b => (48 <= b <= 57)%N) r /\ r <> [] /\ dec_value r = n * 10 ^ zlen acc + dec_value acc.
Proof.
  revert n acc; induction fuel as [|fuel IH]; intros n acc Hn Hlt Hf Hacc; [lia|].
  cbn [digits_fuel]. cbn zeta.
  assert (0 <= n mod 10 < 10) as Hm by (apply Z.mod_pos_bound; lia).
  assert (Forall (fun b => (48 <= b <= 57)%N) (Z.to_N (48 + n mod 10) :: acc)) as Hacc'
    by (constructor; [lia|assumption]).
  assert (dec_value (Z.to_N (48 + n mod 10) :: acc) = (n mod 10) * 10 ^ zlen acc + dec_value acc) as Hv.
  { unfold dec_value at 1; cbn [fold_left]. rewrite dec_value_acc. rewrite Z2N.id by lia. f_equal. f_equal. lia. }
  destruct (Z.ltb_spec n 10) as [H10|H10].
  - split; [assumption|]. split; [discriminate|]. rewrite Hv. rewrite Z.mod_small by lia. reflexivity.
  - destruct fuel as [|fuel'].
    { change (Z.of_nat 1) with 1 in Hlt. change (10 ^ 1) with 10 in Hlt. lia. }
    destruct (IH (n / 10) (Z.to_N (48 + n mod 10) :: acc)) as (H1 & H2 & H3); try lia; try assumption.
    + apply Z.div_lt_upper_bound; [lia|].
      rewrite Nat2Z.inj_succ, Z.pow_succ_r in Hlt by lia. lia.
    + split; [exact H1|]. split; [exact H2|]. rewrite H3, Hv, zlen_cons.
      rewrite Z.pow_add_r by (try lia; apply zlen_nonneg). change (10 ^ 1) with 10.
      pose proof (Z.div_mod n 10 ltac:(lia)) as Hdm. rewrite Hdm at 3. ring.
Qed.

Lemma print_dec_number n : 0 <= n <= max_int64 -> number (print_dec n) n.
Proof.
  intros Hn. unfold print_dec.
  destruct (digits_fuel_spec 20 n []) as (H1 & H2 & H3); try lia; try constructor; try assumption.
  - unfold max_int64 in Hn. change (10 ^ Z.of_nat 20) with 100000000000000000000. lia.
  - apply number_alt. split; [assumption|]. split; [assumption|]. rewrite H3. change (zlen (@nil byte)) with 0. cbn; lia.
Qed.

Lemma parse_print s e t : 0 <= s <= e -> e < t <= max_int64 ->
  parse_content_range (print_range s e t) = Some (s, e, t).
Proof.
  intros H1 H2. apply parse_complete_range; try lia.
  exists [], the_unit, [], (print_dec s), (print_dec e), (print_dec t), [].
  split; [unfold print_range; rewrite !app_nil_r; reflexivity|].
  split; [constructor|]. split; [constructor|]. split; [constructor|].
  split; [unfold bytes_unit, the_unit; repeat constructor; auto|].
  split; [apply print_dec_number; lia|]. split; apply print_dec_number; lia.
Qed.
