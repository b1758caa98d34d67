(* Proofs about read-only views. *)
From Verif Require Import Common CommonLemmas Views_Model MemBuf_Model RoViews_Model RoViews_Spec.
Open Scope Z_scope.

Lemma zslice_zslice {A} (l : list A) o n off len : 0 <= o -> 0 <= off -> 0 <= n -> 0 <= len ->
  zslice (zslice l o n) off len = zslice l (o + off) (Z.min len (n - off)).
Proof.
  intros Ho Hoff Hn Hlen. unfold zslice. rewrite skipn_firstn_comm, skipn_skipn', firstn_firstn.
  f_equal; [lia|]. f_equal. lia.
Qed.

Lemma zslice_zlen {A} (l : list A) o n : 0 <= o -> 0 <= n -> zlen (zslice l o n) = Z.max 0 (Z.min n (zlen l - o)).
Proof. intros Ho Hn. unfold zslice, zlen. rewrite firstn_length, skipn_length. lia. Qed.

Lemma limit_declared o n : 0 <= o <= max_int64 -> 0 < n <= max_int64 -> sr_limit o n = o + Z.min n (max_int64 - o).
Proof. intros Ho Hn. unfold sr_limit. destruct (Z.leb_spec o (max_int64 - n)); lia. Qed.

Lemma content_small env v : view_ok v -> zlen env <= max_int64 -> zlen (content env v) <= max_int64.
Proof.
  intros Hv He. induction v as [d| |inner IH o n]; cbn in *; [exact Hv|exact He|].
  destruct Hv as (Hv & Ho & Hn). rewrite zslice_zlen by lia. lia.
Qed.

Lemma bytes_read_at_spec d len off : 0 <= len -> 0 <= off ->
  bytes_read_at d len off = MOk (zlen (zslice d off len)) (zslice d off len) (if past_end d len off then e_eof else e_nil).
Proof.
  intros Hl Ho. unfold bytes_read_at, past_end. destruct (Z.ltb_spec off 0); [lia|].
  destruct (Z.leb_spec (zlen d) off).
  - rewrite zslice_past by assumption. reflexivity.
  - reflexivity.
Qed.

(* ReadAt of a view reads its bytes. *)
Lemma view_read_at_spec env v : zlen env <= max_int64 -> view_ok v -> forall len off, 0 <= len -> 0 <= off ->
  view_read_at env v len off =
  MOk (zlen (zslice (content env v) off len)) (zslice (content env v) off len)
      (if past_end (content env v) len off then e_eof else e_nil).
Proof.
  intros He. induction v as [d| |inner IH o n]; intros Hv len off Hlen Hoff; cbn [view_read_at content].
  - apply bytes_read_at_spec; assumption.
  - apply bytes_read_at_spec; assumption.
  - cbn [view_ok] in Hv. destruct Hv as (Hv & Ho & Hn).
    pose proof (content_small env inner Hv He) as Hs. rewrite (limit_declared o n Ho Hn).
    specialize (IH Hv). set (c := content env inner) in *. clearbody c.
    destruct (Z.ltb_spec off 0); [lia|]. cbn [orb].
    destruct (Z.leb_spec (o + Z.min n (max_int64 - o) - o) off) as [H1|H1].
    + assert (zlen (zslice c o n) <= off) as Hc by (rewrite zslice_zlen by lia; lia).
      rewrite zslice_past by exact Hc. unfold past_end.
      destruct (Z.leb_spec (zlen (zslice c o n)) off); [reflexivity|lia].
    + rewrite (zslice_zslice c o n off len) by lia.
      assert (past_end (zslice c o n) len off =
              (zlen c <=? o + off) || (zlen (zslice c (o + off) (Z.min len (n - off))) <? len)) as Hp.
      { unfold past_end. rewrite (zslice_zslice c o n off len) by lia.
        destruct (Z.leb_spec (zlen (zslice c o n)) off) as [X|X]; destruct (Z.leb_spec (zlen c) (o + off)) as [Y|Y]; try reflexivity;
          rewrite zslice_zlen in X by lia; lia. }
      rewrite Hp.
      destruct (Z.ltb_spec (o + Z.min n (max_int64 - o) - (off + o)) len) as [H2|H2].
      * rewrite IH by lia. rewrite (Z.add_comm off o).
        replace (o + Z.min n (max_int64 - o) - (o + off)) with (Z.min n (max_int64 - o) - off) by lia.
        assert (zslice c (o + off) (Z.min n (max_int64 - o) - off) = zslice c (o + off) (Z.min len (n - off))) as E.
        { destruct (Z.leb_spec n (max_int64 - o)) as [G|G].
          - f_equal. lia.
          - rewrite (zslice_clip c (o + off) (Z.min n (max_int64 - o) - off)) by lia.
            symmetry. apply zslice_clip; lia. }
        rewrite E.
        assert ((zlen c <=? o + off) || (zlen (zslice c (o + off) (Z.min len (n - off))) <? len) = true) as ->.
        { apply orb_true_iff. destruct (Z.leb_spec (zlen c) (o + off)); [left; reflexivity|right].
          apply Z.ltb_lt. rewrite zslice_zlen by lia. lia. }
        destruct (past_end c (Z.min n (max_int64 - o) - off) (o + off)); reflexivity.
      * rewrite IH by lia. rewrite (Z.add_comm off o). replace (Z.min len (n - off)) with len by lia. reflexivity.
Qed.

Lemma view_read_at_neg env v len off : off < 0 ->
  view_read_at env v len off = MOk 0 [] (match v with VRange _ _ _ => e_eof | _ => e_inval end).
Proof.
  intros H. destruct v; cbn; unfold bytes_read_at; destruct (Z.ltb_spec off 0); try lia; reflexivity.
Qed.

(* flags *)
Lemma land_lor_zero a b c : Z.land a (Z.lor b c) = 0 -> Z.land a b = 0 /\ Z.land a c = 0.
Proof. rewrite Z.land_lor_distr_r. apply Z.lor_eq_0_iff. Qed.

Lemma readonly_flags fl flag : write_op fl flag = false -> readable fl flag = true /\ writable fl flag = false.
Proof.
  unfold write_op, readable, writable. intros H. apply negb_false_iff, Z.eqb_eq in H.
  apply land_lor_zero in H as [H _]. apply land_lor_zero in H as [H _]. apply land_lor_zero in H as [H _].
  pose proof (land_lor_zero _ _ _ H) as [H1 H2]. rewrite H1, H. split; reflexivity.
Qed.

(* ---- the refinement ---- *)

Definition origin (v : view) : Z := match v with VRange _ o _ => o | _ => 0 end.

Definition matches (fl : oflags) (v : view) (h : fhandle) (k : cursor) : Prop :=
  write_op fl (f_flag h) = false /\ f_closed h = k_closed k /\ r_view (f_inner h) = v /\
  r_pos (f_inner h) = origin v + k_pos k /\ 0 <= k_pos k /\ origin v + k_pos k <= max_int64 /\ v <> VMem.

Lemma in_int64_wrap_add a b : in_int64 a -> 0 <= b <= max_int64 ->
  wrap64 (a + b) = if max_int64 <? a + b then a + b - 18446744073709551616 else a + b.
Proof.
  unfold in_int64, min_int64, max_int64. intros Ha Hb. destruct (Z.ltb_spec 9223372036854775807 (a + b)).
  - unfold wrap64. replace (a + b + 9223372036854775808) with ((a + b - 18446744073709551616 + 9223372036854775808) + 1 * 18446744073709551616) by lia.
    rewrite Z.mod_add by lia. rewrite Z.mod_small by lia. lia.
  - apply wrap64_id. unfold in_int64, min_int64, max_int64. lia.
Qed.

Lemma zslice_min {A} (l : list A) off len : 0 <= off -> zslice l off (Z.min len (zlen l - off)) = zslice l off len.
Proof.
  intros Ho. destruct (Z.leb_spec len (zlen l - off)) as [H|H].
  - f_equal. lia.
  - rewrite (zslice_clip l off len) by lia. f_equal. lia.
Qed.

Lemma origin_nonneg v : view_ok v -> 0 <= origin v <= max_int64.
Proof. destruct v; cbn; unfold max_int64; intros H; lia. Qed.

Definition seek_to (h : rhandle) (base p : Z) : mres * rhandle :=
  if p <? base then (MOk 0 [] e_inval, h) else (MOk (p - base) [] e_nil, {| r_view := r_view h; r_pos := p |}).
Definition spec_seek (k : cursor) (org p : Z) : mres * cursor :=
  if (p <? 0) || (max_int64 - org <? p) then (MOk 0 [] e_inval, k) else (MOk p [] e_nil, {| k_pos := p; k_closed := false |}).

Lemma seek_go fl v h k off b :
  view_ok v -> matches fl v h k -> in_int64 off -> 0 <= b -> origin v + b <= max_int64 -> f_closed h = false ->
  let r := seek_to (f_inner h) (origin v) (wrap64 (off + (origin v + b))) in
  let s := spec_seek k (origin v) (b + off) in
  fst r = fst s /\ matches fl v {| f_flag := f_flag h; f_closed := f_closed h; f_inner := snd r |} (snd s).
Proof.
  intros Hv M Ho Hb Hm Hc. pose proof (origin_nonneg v Hv) as Hor.
  destruct M as (M1 & M2 & M3 & M4 & M5 & M6 & M7). cbn zeta.
  rewrite (in_int64_wrap_add off (origin v + b)) by (try assumption; lia).
  unfold seek_to, spec_seek. unfold in_int64, min_int64, max_int64 in *.
  destruct (Z.ltb_spec 9223372036854775807 (off + (origin v + b))) as [H1|H1];
    match goal with |- context[Z.ltb ?a (origin v)] => destruct (Z.ltb_spec a (origin v)) as [H2|H2] end;
    destruct (Z.ltb_spec (b + off) 0) as [H3|H3];
    destruct (Z.ltb_spec (9223372036854775807 - origin v) (b + off)) as [H4|H4]; cbn [orb]; try (exfalso; lia); cbn [fst snd].
  all: first [ split; [reflexivity|]; unfold matches, max_int64; cbn; repeat split; assumption
             | split; [f_equal; lia|]; unfold matches, max_int64; cbn; repeat split; try assumption; try lia; try congruence ].
Qed.

Lemma step_refines fl env v h k o : view_ok v -> call_ok (env, o) -> matches fl v h k ->
  let '(r, h') := fh_step fl env h o in
  let '(r', k') := ro_step env v k o in
  r = r' /\ matches fl v h' k'.
Proof.
  intros Hv [He Ho] M. cbn [fst snd] in He, Ho. pose proof M as M'. destruct M as (M1 & M2 & M3 & M4 & M5 & M6 & M7).
  destruct (readonly_flags fl _ M1) as [Hr Hw].
  destruct o as [len|len off|off wh| |p|p off|size| |]; cbn [fh_step ro_step].
  - (* Read *)
    rewrite <- M2. destruct (f_closed h) eqn:Ec; [split; [reflexivity|exact M']|]. rewrite Hr. cbn [negb].
    unfold inner_step. rewrite M3, M4.
    destruct v as [d| |inner og n]; [| |].
    + cbn [origin content declared Z.add]. 
      destruct (Z.leb_spec (zlen d) (k_pos k)) as [H|H].
      * split; [reflexivity|]. unfold matches; cbn. repeat split; try assumption; congruence.
      * rewrite zslice_min by lia.
        assert (past_end d (Z.min len (zlen d - k_pos k)) (k_pos k) = false) as ->.
        { unfold past_end. rewrite zslice_zlen by lia. apply orb_false_iff. split; [apply Z.leb_gt; lia|apply Z.ltb_ge; lia]. }
        split; [reflexivity|]. cbn [view_ok] in Hv.
        assert (zlen (zslice d (k_pos k) len) <= zlen d - k_pos k) by (rewrite zslice_zlen by lia; lia).
        pose proof (zlen_nonneg (zslice d (k_pos k) len)).
        unfold matches; cbn. repeat split; try assumption; try lia.
    + congruence.
    + pose proof Hv as Hv'. cbn [view_ok] in Hv. destruct Hv as (Hvi & Hog & Hn). cbn [origin declared] in *.
      rewrite (limit_declared og n Hog Hn).
      destruct (Z.leb_spec (og + Z.min n (max_int64 - og)) (og + k_pos k)) as [H|H];
        destruct (Z.leb_spec (Z.min n (max_int64 - og)) (k_pos k)) as [H'|H']; try lia.
      * split; [reflexivity|]. unfold matches; cbn. repeat split; try assumption; try congruence.
      * set (N := Z.min n (max_int64 - og)) in *.
        assert ((if og + N - (og + k_pos k) <? len then og + N - (og + k_pos k) else len) = Z.min len (N - k_pos k)) as ->.
        { destruct (Z.ltb_spec (og + N - (og + k_pos k)) len); lia. }
        rewrite (view_read_at_spec env inner He Hvi) by lia.
        cbn [content]. set (c := content env inner) in *.
        rewrite (zslice_zslice c og n (k_pos k) (Z.min len (N - k_pos k))) by lia.
        replace (Z.min (Z.min len (N - k_pos k)) (n - k_pos k)) with (Z.min len (N - k_pos k)) by lia.
        assert (past_end (zslice c og n) (Z.min len (N - k_pos k)) (k_pos k) = past_end c (Z.min len (N - k_pos k)) (og + k_pos k)) as ->.
        { unfold past_end. rewrite (zslice_zslice c og n (k_pos k) (Z.min len (N - k_pos k))) by lia.
          replace (Z.min (Z.min len (N - k_pos k)) (n - k_pos k)) with (Z.min len (N - k_pos k)) by lia.
          f_equal. rewrite zslice_zlen by lia. apply eq_true_iff_eq. rewrite !Z.leb_le. lia. }
        split; [reflexivity|].
        assert (zlen (zslice c (og + k_pos k) (Z.min len (N - k_pos k))) <= N - k_pos k) by (rewrite zslice_zlen by lia; lia).
        pose proof (zlen_nonneg (zslice c (og + k_pos k) (Z.min len (N - k_pos k)))).
        unfold matches; cbn. repeat split; try assumption; try congruence; try lia.
  - (* ReadAt *)
    rewrite <- M2. destruct (f_closed h) eqn:Ec; [split; [reflexivity|exact M']|]. rewrite Hr. cbn [negb inner_step].
    rewrite M3. destruct (Z.ltb_spec off 0) as [H|H].
    + rewrite view_read_at_neg by exact H. split; [reflexivity|]. unfold matches; cbn. repeat split; try assumption; congruence.
    + rewrite view_read_at_spec by (try assumption; lia). split; [reflexivity|]. unfold matches; cbn. repeat split; try assumption; congruence.
  - (* Seek *)
    rewrite <- M2. destruct (f_closed h) eqn:Ec; [split; [reflexivity|exact M']|].
    pose proof (origin_nonneg v Hv) as Hor.
    assert (exists N, declared env v = N /\ 0 <= N /\ origin v + N <= max_int64 /\
      (match v with VRange _ o n => (o, sr_limit o n) | VBytes d => (0, zlen d) | VMem => (0, 0) end) = (origin v, origin v + N)) as (N & EN & HN0 & HN1 & Ep).
    { destruct v as [d| |inner og n]; [|congruence|]; cbn [view_ok origin declared] in Hv, Hor |- *.
      - exists (zlen d). pose proof (zlen_nonneg d). repeat split; try lia.
      - exists (Z.min n (max_int64 - og)). rewrite limit_declared by tauto. repeat split; lia. }
    cbn [inner_step]. rewrite M3, Ep, EN, M4. cbn zeta.
    change (match v with VRange _ o _ => o | _ => 0 end) with (origin v).
    assert (Hs : forall b, 0 <= b -> origin v + b <= max_int64 ->
      let r := seek_to (f_inner h) (origin v) (wrap64 (off + (origin v + b))) in
      let s := spec_seek k (origin v) (b + off) in
      fst r = fst s /\ matches fl v {| f_flag := f_flag h; f_closed := false; f_inner := snd r |} (snd s)).
    { intros b Hb Hb2. rewrite <- Ec. apply seek_go; assumption. }
    destruct (wh =? 0); [|destruct (wh =? 1); [|destruct (wh =? 2)]].
    + specialize (Hs 0 ltac:(lia) ltac:(lia)). cbn zeta in Hs. unfold seek_to, spec_seek in Hs.
      rewrite Z.add_0_r, M3 in Hs.
      destruct (wrap64 (off + origin v) <? origin v); destruct ((0 + off <? 0) || (max_int64 - origin v <? 0 + off)); exact Hs.
    + specialize (Hs (k_pos k) ltac:(lia) ltac:(lia)). cbn zeta in Hs. unfold seek_to, spec_seek in Hs. rewrite M3 in Hs.
      destruct (wrap64 (off + (origin v + k_pos k)) <? origin v); destruct ((k_pos k + off <? 0) || (max_int64 - origin v <? k_pos k + off)); exact Hs.
    + specialize (Hs N ltac:(lia) ltac:(lia)). cbn zeta in Hs. unfold seek_to, spec_seek in Hs. rewrite M3 in Hs.
      destruct (wrap64 (off + (origin v + N)) <? origin v); destruct ((N + off <? 0) || (max_int64 - origin v <? N + off)); exact Hs.
    + split; [reflexivity|]. unfold matches; cbn. repeat split; try assumption; congruence.
  - (* Stat *) rewrite M3. split; [reflexivity|exact M'].
  - rewrite <- M2. destruct (f_closed h) eqn:Ec; [split; [reflexivity|exact M']|]. rewrite Hw. split; [reflexivity|exact M'].
  - rewrite <- M2. destruct (f_closed h) eqn:Ec; [split; [reflexivity|exact M']|]. rewrite Hw. split; [reflexivity|exact M'].
  - rewrite <- M2. destruct (f_closed h) eqn:Ec; [split; [reflexivity|exact M']|]. rewrite Hw. split; [reflexivity|exact M'].
  - rewrite <- M2. destruct (f_closed h) eqn:Ec; [split; [reflexivity|exact M']|]. split; [reflexivity|]. unfold matches; cbn. repeat split; try assumption; congruence.
  - destruct (f_closed h) eqn:Ec; (split; [reflexivity|]); unfold matches; cbn; repeat split; try assumption; congruence.
Qed.

Lemma run_refines fl v cs : view_ok v -> forall h k, Forall call_ok cs -> matches fl v h k ->
  fst (fh_run fl h cs) = fst (ro_run v k cs).
Proof.
  intros Hv. induction cs as [|[env o] cs IH]; intros h k Hc M; [reflexivity|].
  apply Forall_cons_iff in Hc as [Hc Hcs]. pose proof (step_refines fl env v h k o Hv Hc M) as S.
  cbn [fh_run ro_run]. destruct (fh_step fl env h o) as [r h1]. destruct (ro_step env v k o) as [r' k1].
  destruct S as [-> M1]. specialize (IH h1 k1 Hcs M1).
  destruct (fh_run fl h1 cs) as [rs h2]. destruct (ro_run v k1 cs) as [rs' k2]. cbn in *. congruence.
Qed.

Lemma open_matches fl v flag h : view_ok v -> fh_open fl v flag = Some h -> matches fl v h {| k_pos := 0; k_closed := false |}.
Proof.
  intros Hv H. unfold fh_open, view_open in H. pose proof (origin_nonneg v Hv).
  destruct v as [d| |inner og n]; cbn in H; try discriminate;
    destruct (write_op fl flag) eqn:W; cbn in H; try discriminate; apply some_inj in H; subst h;
    unfold matches; cbn in *; repeat split; try assumption; try lia; try discriminate.
Qed.

Lemma handle_is_cursor fl v flag h cs : view_ok v -> fh_open fl v flag = Some h -> Forall call_ok cs ->
  fst (fh_run fl h cs) = fst (ro_run v {| k_pos := 0; k_closed := false |} cs).
Proof. intros Hv H Hc. apply run_refines; [exact Hv|exact Hc|]. apply (open_matches fl v flag); assumption. Qed.

(* Opening: exactly without write flags. *)
Lemma opens_for_reading fl v flag : v <> VMem -> (fh_open fl v flag <> None <-> write_op fl flag = false).
Proof.
  intros Hv. unfold fh_open, view_open. destruct v as [d| |inner og n]; [|congruence|];
    destruct (write_op fl flag); cbn; split; intros H; try congruence; try discriminate.
Qed.

(* Inside the inner view, Stat's size is the number of bytes. *)
Lemma size_is_length env v : zlen env <= max_int64 -> view_ok v -> within env v ->
  view_size env v = zlen (content env v) /\ declared env v = zlen (content env v).
Proof.
  intros He Hv Hw. destruct v as [d| |inner o n]; cbn [view_ok within view_size declared content] in *; [split; reflexivity|split; reflexivity|].
  destruct Hv as (Hv & Ho & Hn). destruct Hw as [_ Hw]. pose proof (content_small env inner Hv He).
  rewrite zslice_zlen by lia. lia.
Qed.

(* A whole read from the start. *)
Lemma read_all env fl v flag h n : zlen env <= max_int64 -> view_ok v -> fh_open fl v flag = Some h -> within env v -> zlen (content env v) <= n <= max_int64 ->
  fst (fh_run fl h [(env, RReadAt n 0); (env, RStat)]) =
  [MOk (zlen (content env v)) (content env v) (if (zlen (content env v) <=? 0) || (zlen (content env v) <? n) then e_eof else e_nil);
   MOk (zlen (content env v)) [] e_nil].
Proof.
  intros He Hv Ho Hw Hn. pose proof (zlen_nonneg (content env v)).
  rewrite (handle_is_cursor fl v flag h) by (try assumption; repeat constructor; cbn; unfold in_int64, min_int64, max_int64 in *; lia).
  cbn [ro_run ro_step k_closed fst]. change (0 <? 0) with false. cbn iota. unfold past_end.
  rewrite zslice_all by lia. rewrite (proj1 (size_is_length env v He Hv Hw)). reflexivity.
Qed.

Definition lin : oflags := {| f_wronly := 1; f_rdwr := 2; f_append := 1024; f_create := 64; f_trunc := 512 |}.

(* Ten bytes declared over three: Stat says ten, three are there, Seek to the end says ten. *)
Lemma size_disagrees : exists fl v flag h env, new_ranged VMem 0 10 = Some v /\ view_ok v /\ fh_open fl v flag = Some h /\
  fst (fh_run fl h [(env, RStat); (env, RSeek 0 2); (env, RReadAt 10 0)]) = [MOk 10 [] e_nil; MOk 10 [] e_nil; MOk 3 [1; 2; 3]%N e_eof].
Proof.
  exists lin, (VRange VMem 0 10), 0, {| f_flag := 0; f_closed := false; f_inner := {| r_view := VRange VMem 0 10; r_pos := 0 |} |}, [1; 2; 3]%N.
  split; [reflexivity|]. split; [cbn; unfold max_int64; lia|]. split; [reflexivity|]. vm_compute. reflexivity.
Qed.

Lemma ranges_accepted inner off n v : view_ok inner -> in_int64 off -> in_int64 n ->
  (new_ranged inner off n = Some v <-> v = VRange inner off n /\ view_ok v).
Proof.
  intros Hi Ho Hn. unfold in_int64 in *. unfold new_ranged. destruct (Z.ltb_spec off 0) as [L|L].
  - split; [discriminate|]. intros [-> (_ & H & _)]. lia.
  - destruct (Z.leb_spec n 0) as [L2|L2].
    + split; [discriminate|]. intros [-> (_ & _ & H)]. lia.
    + split; [intros E; apply some_inj in E; subst v; split; [reflexivity|]; cbn [view_ok]; split; [exact Hi | lia]|]. intros [-> _]. reflexivity.
Qed.
