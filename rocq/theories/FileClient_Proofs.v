(* Proofs about HTTPClient: escaping, addressing, and what the methods return. *)
From Verif Require Import Common CommonLemmas ContentRange_Model ContentRange_Spec ContentRange_Proofs
  PathLex_Model PathLex_Proofs FileClient_Model FileClient_Spec.
Open Scope Z_scope.

(* ---- bytes ---- *)

Lemma bytes_eqb_iff a b : bytes_eqb a b = true <-> a = b.
Proof.
  revert b; induction a as [|x a IH]; intros [|y b]; cbn; try (split; congruence).
  rewrite andb_true_iff, IH, N.eqb_eq. split; [intros [-> ->]; reflexivity|intros H; injection H; auto].
Qed.

Ltac byte_cases := repeat match goal with
  | H : context[N.leb ?a ?b] |- _ => destruct (N.leb_spec a b)
  | H : context[N.eqb ?a ?b] |- _ => destruct (N.eqb_spec a b)
  | |- context[N.leb ?a ?b] => destruct (N.leb_spec a b)
  | |- context[N.eqb ?a ?b] => destruct (N.eqb_spec a b)
  | |- context[N.ltb ?a ?b] => destruct (N.ltb_spec a b)
  end; cbn in *; try discriminate; try lia; try reflexivity.

Lemma plain_special b : plain_byte b = true -> b <> 37%N /\ b <> slash /\ b <> query_mark /\ b <> hash_mark.
Proof.
  intros H. repeat split; intros ->; vm_compute in H; discriminate.
Qed.

Lemma hex_digit_unhex n : (n < 16)%N -> unhex (hex_digit n) = Some n.
Proof.
  intros H. assert (exists k, (k < 16)%nat /\ n = N.of_nat k) as (k & Hk & ->).
  { exists (N.to_nat n). split; lia. }
  do 16 (destruct k as [|k]; [reflexivity|]). lia.
Qed.

Lemma hex_digit_plain n : (n < 16)%N -> plain_byte (hex_digit n) = true.
Proof.
  intros H. assert (exists k, (k < 16)%nat /\ n = N.of_nat k) as (k & Hk & ->).
  { exists (N.to_nat n). split; lia. }
  do 16 (destruct k as [|k]; [reflexivity|]). lia.
Qed.

Lemma div16 b : (b < 256)%N -> (b / 16 < 16)%N /\ (b mod 16 < 16)%N /\ (16 * (b / 16) + b mod 16 = b)%N.
Proof.
  intros H. pose proof (N.div_mod b 16 ltac:(lia)). pose proof (N.mod_lt b 16 ltac:(lia)).
  repeat split; try lia.
Qed.

Lemma unescape_plain b r : b <> 37%N ->
  unescape (b :: r) = match unescape r with Some t => Some (b :: t) | None => None end.
Proof.
  intros H. cbn [unescape].
  assert ((b =? 37)%N = false) as E by (apply N.eqb_neq; exact H).
  rewrite E. destruct b as [|p]; [reflexivity|].
  repeat (destruct p as [p|p|]; try reflexivity). exfalso; apply H; reflexivity.
Qed.

Lemma unescape_escape s t : octets s -> unescape (path_escape s ++ t) = option_map (app s) (unescape t).
Proof.
  induction 1 as [|b s Hb Hs IH]; cbn [path_escape flat_map app].
  - destruct (unescape t); reflexivity.
  - rewrite <- app_assoc. unfold escape_byte at 1. destruct (plain_byte b) eqn:E.
    + destruct (plain_special b E) as (E37 & _). cbn [app]. rewrite unescape_plain by exact E37.
      change (flat_map escape_byte s) with (path_escape s). rewrite IH.
      destruct (unescape t); reflexivity.
    + destruct (div16 b Hb) as (H1 & H2 & H3). cbn [app unescape].
      rewrite (hex_digit_unhex _ H1), (hex_digit_unhex _ H2).
      change (flat_map escape_byte s) with (path_escape s). rewrite IH, H3.
      destruct (unescape t); reflexivity.
Qed.

Lemma unescape_path_escape s : octets s -> unescape (path_escape s) = Some s.
Proof.
  intros H. pose proof (unescape_escape s [] H) as E. rewrite app_nil_r in E. rewrite E. cbn. rewrite app_nil_r. reflexivity.
Qed.

Lemma path_escape_inj s t : octets s -> octets t -> path_escape s = path_escape t -> s = t.
Proof.
  intros Hs Ht E. apply unescape_path_escape in Hs, Ht. rewrite E in Hs. congruence.
Qed.

Lemma path_escape_bytes s b : octets s -> In b (path_escape s) -> plain_byte b = true \/ b = 37%N.
Proof.
  intros Hs Hb. apply in_flat_map in Hb as (x & Hx & Hb).
  pose proof (proj1 (Forall_forall _ _) Hs x Hx) as Hlt.
  destruct (div16 x Hlt) as (H1 & H2 & _).
  unfold escape_byte in Hb. destruct (plain_byte x) eqn:E; cbn in Hb.
  - destruct Hb as [<-|[]]. left; exact E.
  - destruct Hb as [<-|[<-|[<-|[]]]]; [right; reflexivity|left; apply hex_digit_plain; assumption..].
Qed.

Lemma path_escape_clean s b : octets s -> In b (path_escape s) -> b <> slash /\ b <> query_mark /\ b <> hash_mark.
Proof.
  intros Hs Hb. destruct (path_escape_bytes s b Hs Hb) as [E| ->].
  - apply plain_special in E. tauto.
  - repeat split; discriminate.
Qed.

(* ---- addressing ---- *)

Lemma trim_left_incl p (s : str) b : In b (trim_left p s) -> In b s.
Proof. induction s as [|x s IH]; cbn; [auto|]. destruct (p x); [intros H; right; auto|auto]. Qed.

Lemma trim_right_incl p (s : str) b : In b (trim_right p s) -> In b s.
Proof. unfold trim_right. intros H. apply in_rev in H. apply trim_left_incl in H. apply in_rev in H. exact H. Qed.

Lemma before_id stop s : (forall b, In b s -> stop b = false) -> before stop s = s.
Proof.
  induction s as [|b s IH]; intros H; cbn; [reflexivity|].
  rewrite (H b (or_introl eq_refl)). f_equal. apply IH. intros x Hx. apply H. right; exact Hx.
Qed.

Lemma object_url_bytes base name b : plain_base base -> octets name -> In b (object_url base name) ->
  b <> query_mark /\ b <> hash_mark.
Proof.
  intros [Hq Hh] Hn Hb. unfold object_url in Hb. rewrite !in_app_iff in Hb.
  destruct Hb as [Hb|[[<-|[]]|Hb]].
  - apply trim_right_incl in Hb. split; intros ->; contradiction.
  - split; discriminate.
  - apply path_escape_clean in Hb; [tauto|exact Hn].
Qed.

Lemma url_path_object base name : plain_base base -> octets name ->
  url_path (object_url base name) = object_url base name /\ url_sent (object_url base name) = object_url base name.
Proof.
  intros Hb Hn. assert (url_sent (object_url base name) = object_url base name) as E.
  { unfold url_sent. apply before_id. intros b Hin. apply N.eqb_neq.
    pose proof (object_url_bytes base name b Hb Hn Hin). intuition congruence. }
  split; [|exact E]. unfold url_path. rewrite E.
  apply before_id. intros b Hin. apply N.eqb_neq.
  pose proof (object_url_bytes base name b Hb Hn Hin). intuition congruence.
Qed.

Lemma object_url_inj base n1 n2 : octets n1 -> octets n2 -> object_url base n1 = object_url base n2 -> n1 = n2.
Proof.
  intros H1 H2 E. unfold object_url in E. apply app_inv_head in E. cbn in E.
  assert (path_escape n1 = path_escape n2) as E' by congruence.
  apply path_escape_inj in E'; assumption.
Qed.

Lemma addresses_differ base n1 n2 : plain_base base -> octets n1 -> octets n2 -> n1 <> n2 ->
  url_path (object_url base n1) <> url_path (object_url base n2).
Proof.
  intros Hb H1 H2 Hn E. rewrite (proj1 (url_path_object base n1 Hb H1)), (proj1 (url_path_object base n2 Hb H2)) in E.
  apply object_url_inj in E; auto.
Qed.

Lemma after_last_none c s : ~ In c s -> after_last c s = None.
Proof.
  induction s as [|b s IH]; intros H; cbn; [reflexivity|].
  rewrite IH by (intros X; apply H; right; exact X).
  assert ((b =? c)%N = false) as -> by (apply N.eqb_neq; intros ->; apply H; left; reflexivity). reflexivity.
Qed.

Lemma after_last_app c a s : ~ In c s -> after_last c (a ++ c :: s) = Some s.
Proof.
  intros H. induction a as [|b a IH]; cbn [app after_last].
  - rewrite after_last_none by exact H. rewrite N.eqb_refl. reflexivity.
  - rewrite IH. reflexivity.
Qed.

Lemma object_url_segment base name : octets name ->
  after_last slash (object_url base name) = Some (path_escape name).
Proof.
  intros Hn. unfold object_url. cbn [app]. apply after_last_app.
  intros H. apply path_escape_clean in H; [|exact Hn]. tauto.
Qed.

Lemma normalise_plain b r : b <> 37%N -> pct_normalise (b :: r) = b :: pct_normalise r.
Proof.
  intros H. cbn [pct_normalise]. destruct b as [|p]; [reflexivity|].
  repeat (destruct p as [p|p|]; try reflexivity). exfalso; apply H; reflexivity.
Qed.
Lemma upper_digit n : (n < 16)%N -> upper_hex (hex_digit n) = hex_digit n.
Proof.
  intros H. assert (exists k, (k < 16)%nat /\ n = N.of_nat k) as (k & Hk & ->).
  { exists (N.to_nat n). split; lia. }
  do 16 (destruct k as [|k]; [reflexivity|]). lia.
Qed.
Lemma reserved_escaped b : plain_byte b = false -> unreserved b = false.
Proof. unfold plain_byte, unreserved. cbn [existsb]. repeat rewrite orb_false_iff. tauto. Qed.
Lemma normalise_escape s : octets s -> pct_normalise (path_escape s) = path_escape s.
Proof.
  induction 1 as [|b s Hb Hs IH]; [reflexivity|]. cbn [path_escape flat_map].
  change (flat_map escape_byte s) with (path_escape s). unfold escape_byte. destruct (plain_byte b) eqn:E; cbn [app].
  - destruct (plain_special b E) as (E37 & _). rewrite normalise_plain by exact E37. rewrite IH. reflexivity.
  - destruct (div16 b Hb) as (H1 & H2 & H3). cbn [pct_normalise].
    rewrite (hex_digit_unhex _ H1), (hex_digit_unhex _ H2), H3, (reserved_escaped _ E), (upper_digit _ H1), (upper_digit _ H2), IH. reflexivity.
Qed.

Lemma one_segment base name : plain_base base -> octets name ->
  exists seg, url_path (object_url base name) = trim_right (N.eqb slash) base ++ [slash] ++ seg /\
    ~ In slash seg /\ unescape seg = Some name /\ pct_normalise seg = seg.
Proof.
  intros Hb Hn. exists (path_escape name). rewrite (proj1 (url_path_object base name Hb Hn)).
  split; [reflexivity|]. split; [|split; [apply unescape_path_escape; exact Hn | apply normalise_escape; exact Hn]].
  intros H. apply path_escape_clean in H; [|exact Hn]. tauto.
Qed.

(* names other than the empty one, "." and ".." are ordinary segments *)
Lemma escape_proper name : octets name -> name <> [] -> name <> [46%N] -> name <> [46; 46]%N -> proper (path_escape name).
Proof.
  intros Hn H0 H1 H2. repeat split.
  - intros E. apply H0. apply (path_escape_inj name []); [exact Hn|constructor|exact E].
  - intros E. apply H1. apply (path_escape_inj name [46%N]); [exact Hn|repeat constructor|exact E].
  - intros E. apply H2. apply (path_escape_inj name [46; 46]%N); [exact Hn|repeat constructor|exact E].
  - intros H. apply path_escape_clean in H; [|exact Hn]. destruct H as [H _]. apply H. reflexivity.
Qed.

(* ---- numbers ---- *)

Lemma dec_loop_spec fuel n acc :
  0 <= n -> n < 10 ^ Z.of_nat fuel -> (0 < fuel)%nat ->
  dec_loop fuel n acc = digits_fuel fuel n acc.
Proof.
  revert n acc; induction fuel as [|fuel IH]; intros n acc Hn Hlt Hf; [lia|].
  cbn [dec_loop digits_fuel]. cbn zeta.
  destruct (Z.ltb_spec n 10) as [H|H].
  - rewrite Z.div_small by lia. reflexivity.
  - assert (0 < n / 10) by (apply Z.div_str_pos; lia).
    destruct (Z.eqb_spec (n / 10) 0) as [E|_]; [lia|].
    destruct fuel as [|fuel'].
    { change (Z.of_nat 1) with 1 in Hlt. change (10 ^ 1) with 10 in Hlt. lia. }
    apply IH; [lia| |lia].
    apply Z.div_lt_upper_bound; [lia|]. rewrite Nat2Z.inj_succ, Z.pow_succ_r in Hlt by lia. lia.
Qed.

Lemma fmt_dec_number n : 0 <= n <= max_int64 -> number (fmt_dec n) n.
Proof.
  intros Hn. unfold fmt_dec. rewrite dec_loop_spec; try lia.
  - apply print_dec_number. exact Hn.
  - unfold max_int64 in Hn. change (10 ^ Z.of_nat 20) with 100000000000000000000. lia.
Qed.

Lemma range_header_asks off : 0 < off <= max_int64 -> asks_from (range_header off) off.
Proof. intros H. exists (fmt_dec off). split; [reflexivity|]. apply fmt_dec_number. lia. Qed.

Lemma cut_prefix_app p s : cut_prefix p (p ++ s) = Some s.
Proof. induction p as [|b p IH]; cbn; [reflexivity|]. rewrite N.eqb_refl. exact IH. Qed.

Lemma cut_end c ds : ~ In c ds -> cut c (ds ++ [c]) = Some (ds, []).
Proof.
  induction ds as [|b ds IH]; intros H; cbn [app cut].
  - rewrite N.eqb_refl. reflexivity.
  - assert ((b =? c)%N = false) as -> by (apply N.eqb_neq; intros ->; apply H; left; reflexivity).
    rewrite IH by (intros X; apply H; right; exact X). reflexivity.
Qed.

Lemma digits_no c ds n : number ds n -> (c < 48)%N -> ~ In c ds.
Proof. intros (_ & Hd & _) Hc Hin. pose proof (proj1 (Forall_forall _ _) Hd c Hin) as H. cbn in H. lia. Qed.

Lemma read_range_header off : 0 < off <= max_int64 -> read_range (range_header off) = Some off.
Proof.
  intros H. pose proof (fmt_dec_number off ltac:(lia)) as Hn.
  unfold read_range, range_header.
  replace (s_bytes ++ [61%N] ++ fmt_dec off ++ [45%N]) with ((s_bytes ++ [61%N]) ++ fmt_dec off ++ [45%N])
    by (rewrite <- app_assoc; reflexivity).
  rewrite cut_prefix_app. rewrite cut_end by (apply (digits_no _ _ _ Hn); lia).
  apply parse_decimal_some. split; [exact Hn|lia].
Qed.

Lemma parse_int_number ds n : number ds n -> n <= max_int64 -> parse_int ds = Some n.
Proof.
  intros Hn Hm. pose proof (digits_no 43 ds n Hn ltac:(lia)) as H1. pose proof (digits_no 45 ds n Hn ltac:(lia)) as H2.
  assert (0 <= n) as H0 by apply (number_nonneg _ _ Hn).
  apply number_alt in Hn as (Hne & Hd & Hv).
  assert (forallb is_digit ds = true) as Hall.
  { apply forallb_forall. intros b Hb. pose proof (proj1 (Forall_forall _ _) Hd b Hb) as H. cbn in H.
    unfold is_digit. apply andb_true_intro. split; apply N.leb_le; lia. }
  assert (parse_int ds = if (min_int64 <=? dec_value ds) && (dec_value ds <=? max_int64) then Some (dec_value ds) else None) as ->.
  { unfold parse_int. destruct ds as [|b ds]; [congruence|]. cbn zeta.
    assert (b <> 43%N) by (intros ->; apply H1; left; reflexivity).
    assert (b <> 45%N) by (intros ->; apply H2; left; reflexivity).
    rewrite Hall.
    destruct b as [|p]; [reflexivity|]. do 6 (destruct p as [p|p|]; try reflexivity); congruence. }
  rewrite Hv. assert ((min_int64 <=? n) && (n <=? max_int64) = true) as ->; [|reflexivity].
  apply andb_true_intro. unfold min_int64. split; apply Z.leb_le; lia.
Qed.

Lemma parse_total_open a b : parse_total (print_open_range a b) = None.
Proof.
  unfold parse_total. destruct (print_open_range a b) eqn:E; [reflexivity|]. rewrite <- E.
  unfold print_open_range, trim_prefix. change the_unit with s_bytes.
  replace (s_bytes ++ [32%N] ++ print_dec a ++ [45%N] ++ print_dec b ++ [47; 42]%N)
    with ((s_bytes ++ [32%N]) ++ (print_dec a ++ [45%N] ++ print_dec b) ++ slash :: [42%N])
    by (rewrite <- !app_assoc; reflexivity).
  rewrite cut_prefix_app, after_last_app by (intros [H|[]]; discriminate H). reflexivity.
Qed.
Lemma parse_total_print a b t : 0 <= a <= max_int64 -> 0 <= b <= max_int64 -> 0 <= t <= max_int64 ->
  parse_total (print_range a b t) = Some t.
Proof.
  intros Ha Hb Ht. pose proof (print_dec_number t Ht) as Hn.
  unfold parse_total. destruct (print_range a b t) eqn:E; [discriminate|]. rewrite <- E.
  unfold print_range, trim_prefix. change the_unit with s_bytes.
  replace (s_bytes ++ [32%N] ++ print_dec a ++ [45%N] ++ print_dec b ++ [47%N] ++ print_dec t)
    with ((s_bytes ++ [32%N]) ++ (print_dec a ++ [45%N] ++ print_dec b) ++ slash :: print_dec t)
    by (rewrite <- !app_assoc; reflexivity).
  rewrite cut_prefix_app, after_last_app by (apply (digits_no _ _ _ Hn); unfold slash; lia).
  destruct (bytes_eqb (print_dec t) [42%N]) eqn:E2.
  - apply bytes_eqb_iff in E2. pose proof (digits_no 42 _ _ Hn ltac:(lia)) as H. exfalso. apply H. rewrite E2. left; reflexivity.
  - apply parse_int_number; [exact Hn|lia].
Qed.

(* ---- the map ---- *)

Lemma bytes_eqb_refl a : bytes_eqb a a = true.
Proof. apply bytes_eqb_iff. reflexivity. Qed.

Lemma skipn_zslice {A} (d : list A) off n : 0 <= off -> zlen d - off <= n -> zslice d off n = skipn (Z.to_nat off) d.
Proof.
  intros H0 H. unfold zslice. apply firstn_all2. rewrite skipn_length. unfold zlen in H. lia.
Qed.

Lemma step_is_map base s o : plain_base base -> fits s -> op_fits o ->
  let '(r, s') := client_step plain_server base s o in
  let '(r', m') := map_step (named base s) o in
  r = r' /\ (forall n, octets n -> named base s' n = m' n).
Proof.
  intros Hb Hs [Hn Ho]. destruct o as [n off|n|n size d]; cbn [op_name] in Hn;
    cbn [client_step map_step plain_server get_req stat_req put_req h_method h_url h_range h_body];
    rewrite (proj1 (url_path_object base n Hb Hn)).
  - unfold named. destruct (s (object_url base n)) as [d|] eqn:E; [|split; [reflexivity|auto]].
    split; [|auto]. f_equal. pose proof (Hs _ _ E) as Hd.
    destruct (Z.ltb_spec 0 off) as [H0|H0].
    + destruct (Z.leb_spec off 0) as [X|_]; [lia|].
      rewrite read_range_header by lia. destruct (Z.ltb_spec off (zlen d)) as [H1|H1].
      * cbn [get_answer p_status p_body p_range p_length]. change (206 =? 200) with false. change (206 =? 206) with true. cbn iota.
        rewrite parse_total_print by lia. reflexivity.
      * reflexivity.
    + destruct (Z.leb_spec off 0) as [_|X]; [|lia].
      cbn [get_answer p_status]. change (200 =? 200) with true. cbn iota.
      destruct (Z.ltb_spec 0 off); [lia|]. reflexivity.
  - unfold named. split; [|auto]. destruct (s (object_url base n)) as [d|]; [|reflexivity].
    f_equal. cbn [stat_answer p_status p_length fst]. change (200 =? 200) with true. cbn [orb].
    destruct (Z.ltb_spec (zlen d) 0) as [X|_]; [pose proof (zlen_nonneg d); lia|reflexivity].
  - destruct (size =? zlen d); (split; [reflexivity|]); [|auto].
    intros x Hx. unfold named, store_set, map_set.
    destruct (bytes_eqb (object_url base x) (object_url base n)) eqn:E.
    + apply bytes_eqb_iff in E. apply object_url_inj in E; try assumption. subst x. rewrite bytes_eqb_refl. reflexivity.
    + destruct (bytes_eqb x n) eqn:E2; [|reflexivity].
      apply bytes_eqb_iff in E2. subst x. rewrite bytes_eqb_refl in E. discriminate.
Qed.

Lemma map_step_ext m1 m2 o : octets (op_name o) -> (forall n, octets n -> m1 n = m2 n) ->
  fst (map_step m1 o) = fst (map_step m2 o) /\ (forall n, octets n -> snd (map_step m1 o) n = snd (map_step m2 o) n).
Proof.
  intros Hn H. destruct o as [n off|n|n size d]; cbn [op_name] in Hn; cbn.
  - rewrite (H n Hn). auto.
  - rewrite (H n Hn). auto.
  - destruct (size =? zlen d); cbn; (split; [reflexivity|]); [|auto].
    intros x Hx. unfold map_set. destruct (bytes_eqb x n); [reflexivity|apply H; exact Hx].
Qed.

Lemma map_run_ext ops : forall m1 m2, Forall (fun o => octets (op_name o)) ops -> (forall n, octets n -> m1 n = m2 n) ->
  fst (map_run m1 ops) = fst (map_run m2 ops) /\ (forall n, octets n -> snd (map_run m1 ops) n = snd (map_run m2 ops) n).
Proof.
  induction ops as [|o ops IH]; intros m1 m2 Ho H; [auto|].
  apply Forall_cons_iff in Ho as [Ho Hos]. cbn.
  destruct (map_step_ext m1 m2 o Ho H) as [H1 H2].
  destruct (map_step m1 o) as [r1 a1], (map_step m2 o) as [r2 a2]. cbn in H1, H2.
  destruct (IH a1 a2 Hos H2) as [H3 H4].
  destruct (map_run a1 ops), (map_run a2 ops). cbn in *. split; [congruence|exact H4].
Qed.

Lemma fits_step base s o : fits s -> op_small o -> fits (snd (client_step plain_server base s o)).
Proof.
  intros Hs Ho. destruct o as [n off|n|n size d]; cbn; try exact Hs.
  destruct (size =? zlen d); cbn; [|exact Hs].
  intros k v H. unfold store_set in H. match type of H with (if ?c then _ else _) = _ => destruct c end.
  - apply some_inj in H. subst v. exact Ho.
  - apply (Hs k v H).
Qed.

Lemma client_is_map base ops : plain_base base -> forall s, fits s -> Forall op_fits ops -> Forall op_small ops ->
  fst (client_run plain_server base s ops) = fst (map_run (named base s) ops) /\
  (forall n, octets n -> named base (snd (client_run plain_server base s ops)) n = snd (map_run (named base s) ops) n).
Proof.
  intros Hb. induction ops as [|o ops IH]; intros s Hs Ho Hsm; [split; reflexivity|].
  apply Forall_cons_iff in Ho as [Ho Hos]. apply Forall_cons_iff in Hsm as [Hsm Hsms].
  pose proof (step_is_map base s o Hb Hs Ho) as St. pose proof (fits_step base s o Hs Hsm) as Hf.
  cbn [client_run map_run].
  destruct (client_step plain_server base s o) as [r s1], (map_step (named base s) o) as [r' m1]. cbn in Hf.
  destruct St as [-> Hm]. specialize (IH s1 Hf Hos Hsms) as [I1 I2].
  assert (Forall (fun o => octets (op_name o)) ops) as Hnm
    by (eapply Forall_impl; [|exact Hos]; intros a [A _]; exact A).
  destruct (map_run_ext ops _ _ Hnm Hm) as [E1 E2].
  destruct (client_run plain_server base s1 ops) as [rs s2]. destruct (map_run m1 ops) as [rs' m2].
  destruct (map_run (named base s1) ops) as [rs3 m3]. cbn in *.
  split; [congruence|]. intros n Hn. rewrite I2 by exact Hn. apply E2. exact Hn.
Qed.

(* what is not under the base is not touched *)
Lemma put_frame base s n size d k : plain_base base -> octets n ->
  k <> object_url base n -> snd (client_step plain_server base s (FPut n size d)) k = s k.
Proof.
  intros Hb Hn Hk. cbn [client_step plain_server put_req h_method h_url h_body]. rewrite (proj1 (url_path_object base n Hb Hn)).
  destruct (size =? zlen d); cbn; [|reflexivity].
  unfold store_set. destruct (bytes_eqb k (object_url base n)) eqn:E; [apply bytes_eqb_iff in E; contradiction|reflexivity].
Qed.

(* ---- arbitrary answers ---- *)

Lemma get_not_exist off x : fst (get_answer off x) = GErr CNotExist <->
  x = DoErr true \/ exists r, x = DoResp r /\ (p_status r = 404 \/ p_status r = 410).
Proof.
  destruct x as [ne|r]; cbn.
  - destruct ne; cbn; split; intros H; auto; try discriminate.
    destruct H as [H|(r & H & _)]; discriminate.
  - split.
    + intros H. right. exists r. split; [reflexivity|].
      destruct (p_status r =? 200); [destruct (0 <? off); discriminate|].
      destruct (p_status r =? 206); [destruct (parse_total (p_range r)); discriminate|].
      destruct (Z.eqb_spec (p_status r) 404); [auto|]. destruct (Z.eqb_spec (p_status r) 410); [auto|]. discriminate.
    + intros [H|(r' & H & Hs)]; [discriminate|]. injection H as <-.
      destruct Hs as [-> | ->]; reflexivity.
Qed.

Lemma stat_not_exist x : fst (stat_answer x) = TErr CNotExist <->
  x = DoErr true \/ exists r, x = DoResp r /\ (p_status r = 404 \/ p_status r = 410).
Proof.
  destruct x as [ne|r]; cbn.
  - destruct ne; cbn; split; intros H; auto; try discriminate.
    destruct H as [H|(r & H & _)]; discriminate.
  - split.
    + intros H. right. exists r. split; [reflexivity|].
      destruct ((p_status r =? 200) || (p_status r =? 204)); [destruct (p_length r <? 0); discriminate|].
      destruct (Z.eqb_spec (p_status r) 404); [auto|]. destruct (Z.eqb_spec (p_status r) 410); [auto|]. discriminate.
    + intros [H|(r' & H & Hs)]; [discriminate|]. injection H as <-.
      destruct Hs as [-> | ->]; reflexivity.
Qed.

(* every body is either handed to the caller, with success, or closed once *)
Lemma get_bodies off x :
  match x with
  | DoErr _ => snd (get_answer off x) = [] /\ exists e, fst (get_answer off x) = GErr e
  | DoResp r =>
      (exists total, fst (get_answer off x) = GOk (p_body r) total /\ snd (get_answer off x) = [HandOver]) \/
      (exists e, fst (get_answer off x) = GErr e /\ snd (get_answer off x) = [Drain; CloseBody])
  end.
Proof.
  destruct x as [ne|r]; cbn; [split; [reflexivity|eexists; reflexivity]|].
  destruct (p_status r =? 200); [destruct (0 <? off)|destruct (p_status r =? 206); [destruct (parse_total (p_range r))|destruct ((p_status r =? 404) || (p_status r =? 410))]];
    cbn; try (solve [left; eexists; split; reflexivity]); right; eexists; split; reflexivity.
Qed.

Lemma get_statuses off r b t : fst (get_answer off (DoResp r)) = GOk b t ->
  b = p_body r /\ ((p_status r = 200 /\ off <= 0 /\ t = p_length r) \/ (p_status r = 206 /\ parse_total (p_range r) = Some t)).
Proof.
  cbn. destruct (Z.eqb_spec (p_status r) 200) as [E|E].
  - destruct (Z.ltb_spec 0 off); [discriminate|]. cbn. intros X. injection X as <- <-. auto.
  - destruct (Z.eqb_spec (p_status r) 206) as [E2|E2].
    + destruct (parse_total (p_range r)) as [t'|] eqn:P; [|discriminate]. cbn. intros X.
      assert (b = p_body r /\ t = t') as [-> ->] by (split; congruence). auto.
    + destruct ((p_status r =? 404) || (p_status r =? 410)); discriminate.
Qed.

Lemma get_exact d off r b t : zlen d <= max_int64 -> 0 <= off -> exact d off r ->
  fst (get_answer off (DoResp r)) = GOk b t -> b = skipn (Z.to_nat off) d /\ t = zlen d.
Proof.
  intros Hd Ho (H200 & H206) H. apply get_statuses in H as [-> [(Es & H0 & ->)|(Es & P)]].
  - assert (off = 0) as -> by lia. destruct (H200 Es) as [-> ->]. split; reflexivity.
  - destruct (H206 Es) as (Hlt & Er & ->). rewrite Er in P. rewrite parse_total_print in P by lia.
    split; [reflexivity|congruence].
Qed.

Lemma get_truthful_total d off r b t : zlen d <= max_int64 -> truthful d r ->
  fst (get_answer off (DoResp r)) = GOk b t -> t = zlen d \/ (p_status r = 200 /\ t = -1).
Proof.
  intros Hd (H200 & H206) H. apply get_statuses in H as [-> [(Es & H0 & ->)|(Es & P)]].
  - destruct (H200 Es) as [_ [->| ->]]; auto.
  - destruct (H206 Es) as (a & z & Ha & Hz & [Er|Er] & _); rewrite Er in P.
    + rewrite parse_total_print in P by lia. left; congruence.
    + rewrite parse_total_open in P. discriminate.
Qed.

Lemma stat_size x n : fst (stat_answer x) = TOk n ->
  0 <= n /\ exists r, x = DoResp r /\ (p_status r = 200 \/ p_status r = 204) /\ p_length r = n.
Proof.
  destruct x as [ne|r]; cbn; [discriminate|].
  destruct (Z.eqb_spec (p_status r) 200); destruct (Z.eqb_spec (p_status r) 204); cbn [orb];
    try (destruct (Z.ltb_spec (p_length r) 0); [discriminate|]; intros X; injection X as <-; split; [lia|]; exists r; auto).
  destruct ((p_status r =? 404) || (p_status r =? 410)); discriminate.
Qed.

Lemma put_ok x : fst (put_answer x) = None <-> exists r, x = DoResp r /\ 200 <= p_status r < 300.
Proof.
  destruct x as [ne|r]; cbn.
  - split; [discriminate|intros (r & H & _); discriminate].
  - destruct (Z.ltb_spec (p_status r) 200); destruct (Z.leb_spec 300 (p_status r)); cbn;
      (split; intros X; [first [discriminate|exists r; split; [reflexivity|lia]]|]);
      destruct X as (r' & X & ?); first [reflexivity|injection X as <-; lia].
Qed.

Lemma stat_put_bodies x :
  match x with
  | DoErr _ => snd (stat_answer x) = [] /\ snd (put_answer x) = []
  | DoResp _ => snd (stat_answer x) = [CloseBody] /\ snd (put_answer x) = [Drain; CloseBody]
  end.
Proof. destruct x; split; reflexivity. Qed.

(* ---- findings ---- *)

(* "h?k", names "a" and "b": the names are in the query. "h#k": they are not sent at all. *)
Definition base_query : str := [104; 63; 107]%N.
Definition base_hash : str := [104; 35; 107]%N.
Lemma query_shares : exists base n1 n2, ~ In hash_mark base /\ octets n1 /\ octets n2 /\ n1 <> n2 /\
  url_path (object_url base n1) = url_path (object_url base n2).
Proof.
  exists base_query, [97%N], [98%N]. split; [vm_compute; intuition discriminate|].
  repeat split; try (repeat constructor); discriminate.
Qed.
Lemma hash_shares : exists base n1 n2, ~ In query_mark base /\ octets n1 /\ octets n2 /\ n1 <> n2 /\
  url_sent (object_url base n1) = url_sent (object_url base n2).
Proof.
  exists base_hash, [97%N], [98%N]. split; [vm_compute; intuition discriminate|].
  repeat split; try (repeat constructor); discriminate.
Qed.

(* a put under one name, read back under another *)
Lemma query_overwrites : exists base n1 n2, octets n1 /\ octets n2 /\ n1 <> n2 /\
  fst (client_run plain_server base (fun _ => None) [FPut n1 1 [1%N]; FPut n2 1 [2%N]; FGet n1 0]) =
  [RPut None; RPut None; RGet (GOk [2%N] 1)].
Proof.
  exists base_query, [97%N], [98%N]. repeat split; try (repeat constructor); try discriminate.
Qed.

(* "/a/b" and "..": normalised, the URL is outside the base *)
Definition base_ab : str := [47; 97; 47; 98]%N.
Lemma dotdot_leaves : exists base name, plain_base base /\ octets name /\ name <> [] /\
  clean (url_path (object_url base name)) = dir base.
Proof.
  exists base_ab, [46; 46]%N. split; [split; vm_compute; intuition discriminate|].
  split; [repeat constructor|]. split; [discriminate|]. vm_compute. reflexivity.
Qed.

Lemma trim_right_split (s : str) : exists k, s = trim_right (N.eqb slash) s ++ repeat slash k.
Proof.
  unfold trim_right. assert (forall r : str, exists k, r = repeat slash k ++ trim_left (N.eqb slash) r) as H.
  { induction r as [|b r [k IH]]; [exists 0%nat; reflexivity|]. cbn [trim_left].
    destruct (N.eqb_spec slash b) as [<-|]; [exists (S k); cbn; rewrite <- IH; reflexivity|exists 0%nat; reflexivity]. }
  destruct (H (rev s)) as [k Hk]. exists k. apply (f_equal (@rev _)) in Hk. rewrite rev_involutive, rev_app_distr in Hk.
  rewrite Hk at 1. f_equal. apply rev_repeat'.
Qed.

Lemma split_seps k : split_sep (repeat sep k) = repeat [] (S k).
Proof. induction k as [|k IH]; [reflexivity|]. cbn [repeat split_sep]. rewrite N.eqb_refl, IH. reflexivity. Qed.

Lemma fold_empties root k : forall st, fold_left (clean_step root) (repeat [] k) st = st.
Proof. induction k as [|k IH]; intros st; [reflexivity|]. cbn. apply IH. Qed.

Lemma clean_trailing p k : p <> [] -> clean (p ++ repeat sep k) = clean p.
Proof.
  intros Hp. destruct k as [|k]; [rewrite app_nil_r; reflexivity|]. cbn [repeat].
  unfold clean. assert (rooted (p ++ sep :: repeat sep k) = rooted p) as -> by (destruct p; [contradiction|reflexivity]).
  f_equal. unfold clean_comps. rewrite split_app_gen, split_seps, fold_left_app, fold_empties. reflexivity.
Qed.

Lemma segment_survives base name : plain_base base -> octets name -> trim_right (N.eqb slash) base <> [] ->
  name <> [] -> name <> [46%N] -> name <> [46; 46]%N ->
  let u := clean (url_path (object_url base name)) in
  dir u = clean base /\ unescape (PathLex_Model.base u) = Some name.
Proof.
  intros Hb Hn Ht H0 H1 H2. rewrite (proj1 (url_path_object base name Hb Hn)).
  pose proof (escape_proper name Hn H0 H1 H2) as Hp. cbn zeta.
  destruct (trim_right_split base) as [k Hk]. set (t := trim_right (N.eqb slash) base) in *.
  replace (object_url base name) with (t ++ sep :: path_escape name) by reflexivity.
  rewrite (clean_app_child t _ Ht Hp).
  pose proof (clean_normal t) as Hnorm.
  rewrite dir_child, base_child by assumption. split; [|apply unescape_path_escape; exact Hn].
  change (clean t = clean base). transitivity (clean (t ++ repeat sep k)); [symmetry; apply clean_trailing; exact Ht|].
  f_equal. symmetry. exact Hk.
Qed.

(* bytes 0-9/10 answered to bytes=5-: truthful, and taken for the bytes from 5 on *)
Definition ten : str := [0;1;2;3;4;5;6;7;8;9]%N.
Lemma wrong_start : exists d off r b t, 0 < off < zlen d /\ truthful d r /\
  fst (get_answer off (DoResp r)) = GOk b t /\ b <> skipn (Z.to_nat off) d.
Proof.
  exists ten, 5, (HResp 206 10 (print_range 0 9 10) ten), ten, 10.
  split; [vm_compute; split; reflexivity|]. split.
  - split; [discriminate|]. intros _. exists 0, 9. split; [lia|]. split; [vm_compute; reflexivity|]. split; [left|]; reflexivity.
  - split; [reflexivity|]. vm_compute. discriminate.
Qed.

Lemma short_whole : exists d r b t, truthful d r /\
  fst (get_answer 0 (DoResp r)) = GOk b t /\ b <> d /\ t = zlen d.
Proof.
  exists ten, (HResp 206 4 (print_range 0 3 10) [0;1;2;3]%N), [0;1;2;3]%N, 10.
  split.
  - split; [discriminate|]. intros _. exists 0, 3. split; [lia|]. split; [vm_compute; reflexivity|]. split; [left|]; reflexivity.
  - split; [reflexivity|]. split; [vm_compute; discriminate|reflexivity].
Qed.

Lemma negative_total : exists d r b, truthful d r /\ fst (get_answer 0 (DoResp r)) = GOk b (-1).
Proof.
  exists ten, (HResp 200 (-1) [] ten), ten. split; [|reflexivity].
  split; [intros _; split; [reflexivity|right; reflexivity]|discriminate].
Qed.

Lemma get_range base name off : off <= max_int64 ->
  match h_range (get_req base name off) with
  | Some h => 0 < off /\ asks_from h off
  | None => off <= 0
  end.
Proof.
  intros H. cbn [get_req h_range]. destruct (Z.ltb_spec 0 off); [|assumption].
  split; [assumption|]. apply range_header_asks. lia.
Qed.

Lemma get_ignored off r : 0 < off -> p_status r = 200 -> get_answer off (DoResp r) = (GErr COther, [Drain; CloseBody]).
Proof. intros H E. cbn. rewrite E. cbn. destruct (Z.ltb_spec 0 off); [reflexivity|lia]. Qed.

Lemma not_exist_both off x :
  (fst (get_answer off x) = GErr CNotExist <->
   x = DoErr true \/ exists r, x = DoResp r /\ (p_status r = 404 \/ p_status r = 410)) /\
  (fst (stat_answer x) = TErr CNotExist <->
   x = DoErr true \/ exists r, x = DoResp r /\ (p_status r = 404 \/ p_status r = 410)).
Proof. split; [apply get_not_exist|apply stat_not_exist]. Qed.
