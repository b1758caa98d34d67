From Verif Require Import Common CommonLemmas Views_Model MemBuf_Model MemBuf_Spec MemBuf_Proofs AferoFile_Model AferoFile_Spec.
Open Scope Z_scope.

(* ---- in-memory files: the functions of synthfs's ---- *)

Lemma land_pow2 a i : 0 <= i -> Z.land a (2 ^ i) = if Z.testbit a i then 2 ^ i else 0.
Proof.
  intros Hi. apply Z.bits_inj'. intros k Hk. rewrite Z.land_spec, Z.pow2_bits_eqb by exact Hi.
  destruct (Z.eqb_spec i k) as [->|Hn].
  - rewrite andb_true_r. destruct (Z.testbit a k); [rewrite Z.pow2_bits_eqb by exact Hi; rewrite Z.eqb_refl; reflexivity|rewrite Z.bits_0; reflexivity].
  - rewrite andb_false_r. destruct (Z.testbit a i); [rewrite Z.pow2_bits_eqb by exact Hi; symmetry; apply Z.eqb_neq; exact Hn|rewrite Z.bits_0; reflexivity].
Qed.

Lemma modes fl flag : access_bits fl -> Z.land flag (f_wronly fl) = 0 \/ Z.land flag (f_rdwr fl) = 0 ->
  af_readable fl flag = readable fl flag /\ af_writable fl flag = writable fl flag.
Proof.
  intros (i & j & Hi & Hj & Hij & Hw & Hr) H. unfold af_readable, af_writable, readable, writable, acc_mode.
  rewrite Z.land_lor_distr_r. rewrite Hw, Hr in *. rewrite !land_pow2 in * by assumption.
  assert (0 < 2 ^ i) by (apply Z.pow_pos_nonneg; lia). assert (0 < 2 ^ j) by (apply Z.pow_pos_nonneg; lia).
  assert (2 ^ i <> 2 ^ j) by (intros E; apply Hij; apply (Z.pow_inj_r 2); lia).
  destruct (Z.testbit flag i), (Z.testbit flag j); rewrite ?Z.lor_0_l, ?Z.lor_0_r; try (exfalso; lia);
    repeat match goal with |- context [?a =? ?b] => destruct (Z.eqb_spec a b) end; cbn; split; try reflexivity; try (exfalso; lia).
Qed.

Lemma af_grow_is g b n : af_grow g b n = grow g b n.
Proof. unfold af_grow, grow. rewrite Z.geb_leb. reflexivity. Qed.
Lemma af_truncate_is g b size : af_truncate g b size = truncate g b size.
Proof.
  unfold af_truncate, truncate. destruct (size <? 0); [reflexivity|]. cbn zeta. rewrite Z.gtb_ltb, af_grow_is. reflexivity.
Qed.
Lemma af_read_at_is b n off : af_read_at b n off = read_at b n off.
Proof. unfold af_read_at, read_at. rewrite Z.geb_leb. reflexivity. Qed.
Lemma af_write_at_is g b p off : zlen p <= max_int64 -> off <= max_int64 -> af_write_at g b p off = write_at g b p off.
Proof.
  intros Hp Ho. unfold af_write_at, write_at. destruct (Z.ltb_spec off 0) as [|Hpos]; [reflexivity|].
  rewrite Z.gtb_ltb. destruct (Z.ltb_spec max_int64 off); [lia|].
  assert (0 <= zlen p) by (unfold zlen; lia).
  destruct (Z.ltb_spec (max_int64 - off) (zlen p)) as [Hov|Hov].
  - pose proof (wrap64_over (off + zlen p) ltac:(lia) ltac:(lia)). destruct (Z.ltb_spec (wrap64 (off + zlen p)) off); [reflexivity|lia].
  - rewrite wrap64_id by (unfold in_int64, min_int64; lia). destruct (Z.ltb_spec (off + zlen p) off); [lia|].
    destruct p as [|x p]; [reflexivity|]. destruct (Z.eqb_spec (zlen (x :: p)) 0) as [E|_]; [unfold zlen in E; cbn [length] in E; lia|].
    cbn zeta. rewrite Z.gtb_ltb. rewrite af_grow_is.
    destruct (Z.ltb_spec (s_len b) (off + zlen (x :: p))), (Z.ltb_spec 0 (off + zlen (x :: p) - s_len b)); try lia;
      [destruct (grow g b (off + zlen (x :: p) - s_len b)) as [b1|]; [|reflexivity]|]; unfold copy_at, zslice; cbn zeta;
      rewrite (Z.min_comm (s_len _ - off)); reflexivity.
Qed.

Definition flag_ok (fl : oflags) (h : handle) : Prop := Z.land (h_flag h) (f_wronly fl) = 0 \/ Z.land (h_flag h) (f_rdwr fl) = 0.

Lemma af_step_is fl g b h o : access_bits fl -> flag_ok fl h -> clean_buf b -> in_range h -> op_fits (O, o) -> len_ok (O, o) ->
  af_step fl g b h o = mem_step fl g b h o.
Proof.
  intros Hf Hh (_ & Hb & _) Hr Ho Hl. pose proof (modes fl (h_flag h) Hf Hh) as (Er & Ew).
  unfold af_step, mem_step. rewrite Er, Ew. change (af_appends fl (h_flag h)) with (appends fl (h_flag h)).
  unfold in_range in Hr. unfold op_fits in Ho. unfold len_ok in Hl. cbn [snd] in *.
  destruct o; try reflexivity; try (rewrite af_read_at_is; reflexivity).
  - destruct (negb (writable fl (h_flag h))); [reflexivity|]. cbn zeta.
    destruct (appends fl (h_flag h)); cbn [h_off moved];
      rewrite af_write_at_is by lia; match goal with |- context [write_at ?a ?b ?c ?d] => destruct (write_at a b c d) as [b1 [k d0 e|]] end; reflexivity || (destruct h; reflexivity).
  - destruct (appends fl (h_flag h)); [reflexivity|]. destruct (negb (writable fl (h_flag h))); [reflexivity|].
    unfold in_int64 in Ho. rewrite af_write_at_is by lia. reflexivity.
  - unfold mem_seek. cbn zeta.
    destruct (Z.ltb_spec whence 0) as [H0|H0]; cbn [orb].
    { destruct (Z.eqb_spec whence 0); [lia|]. destruct (Z.eqb_spec whence 1); [lia|]. destruct (Z.eqb_spec whence 2); [lia|reflexivity]. }
    destruct (Z.ltb_spec 2 whence) as [H2|H2].
    { destruct (Z.eqb_spec whence 0); [lia|]. destruct (Z.eqb_spec whence 1); [lia|]. destruct (Z.eqb_spec whence 2); [lia|reflexivity]. }
    destruct (Z.eqb_spec whence 0); [destruct (off <? 0); reflexivity|]. destruct (Z.eqb_spec whence 1); [destruct (wrap64 (off + h_off h) <? 0); reflexivity|].
    destruct (Z.eqb_spec whence 2); [|lia]. destruct (wrap64 (off + s_len b) <? 0); reflexivity.
  - rewrite af_truncate_is. reflexivity.
Qed.

Lemma mem_step_flag fl g b h o : h_flag (snd (fst (mem_step fl g b h o))) = h_flag h.
Proof.
  destruct o; cbn; try reflexivity.
  - destruct (negb (readable fl (h_flag h))); [reflexivity|]. destruct (read_at b n (h_off h)); reflexivity.
  - destruct (negb (readable fl (h_flag h))); reflexivity.
  - destruct (negb (writable fl (h_flag h))); [reflexivity|]. destruct (appends fl (h_flag h));
      match goal with |- context [write_at ?a ?b ?c ?d] => destruct (write_at a b c d) as [b1 [k d0 e|]] end; reflexivity.
  - destruct (appends fl (h_flag h)); [reflexivity|]. destruct (negb (writable fl (h_flag h))); [reflexivity|]. destruct (write_at g b p off); reflexivity.
  - unfold mem_seek. cbn zeta. destruct (whence =? 0); [destruct (off <? 0); reflexivity|].
    destruct (whence =? 1); [destruct (wrap64 (off + h_off h) <? 0); reflexivity|]. destruct (whence =? 2); [destruct (wrap64 (off + s_len b) <? 0); reflexivity|reflexivity].
  - destruct (negb (writable fl (h_flag h))); [reflexivity|]. destruct (truncate g b size); reflexivity.
Qed.

Definition view_of (s : mstate) : afile := {| a_len := s_len (m_buf s); a_at := fun k => match zget (s_bytes (m_buf s)) k with Some x => x | None => 0%N end; a_handles := m_handles s |}.
Lemma minv_step fl g s c : minv s -> op_fits c -> minv (fst (mstep fl g s c)).
Proof.
  intros Hm Hc. assert (shows s (view_of s)) as Hs by (repeat split). pose proof (step_spec fl g s (view_of s) c Hm Hs Hc) as H.
  destruct (mstep fl g s c) as [s1 r]. destruct (a_step fl (view_of s) c) as [f1 r']. exact (proj1 H).
Qed.
Lemma op_fits_any i j o : op_fits (i, o) -> op_fits (j, o).
Proof. exact (fun H => H). Qed.

Lemma af_mstep_is fl g s c : access_bits fl -> minv s -> Forall (flag_ok fl) (m_handles s) -> op_fits c -> len_ok c -> one_access fl c ->
  af_mstep fl g s c = mstep fl g s c /\ Forall (flag_ok fl) (m_handles (fst (mstep fl g s c))).
Proof.
  intros Hf (Hb & Hr) Hh Hc Hl Ho. destruct c as [i o].
  assert (forall h, nth_error (m_handles s) i = Some h -> af_step fl g (m_buf s) h o = mem_step fl g (m_buf s) h o /\ flag_ok fl (snd (fst (mem_step fl g (m_buf s) h o)))) as Hstep.
  { intros h E. apply nth_error_In in E. rewrite Forall_forall in Hh, Hr. split.
    - apply af_step_is; auto.
    - unfold flag_ok. rewrite mem_step_flag. exact (Hh h E). }
  unfold af_mstep, mstep.
  destruct o; try (destruct (nth_error (m_handles s) i) as [h|] eqn:E; [|split; [reflexivity|exact Hh]];
    destruct (Hstep h eq_refl) as (E1 & E2); rewrite E1; split; [reflexivity|];
    match goal with |- context [mem_step ?a ?b ?c ?d ?e] => destruct (mem_step a b c d e) as [[b1 h1] r] end;
    cbn [fst snd m_handles] in *; apply set_nth_Forall; assumption).
  split; [reflexivity|]. cbn [fst m_handles]. apply Forall_app. split; [exact Hh|]. constructor; [exact Ho|constructor].
Qed.

Lemma af_run_is fl g : access_bits fl -> forall cs s, minv s -> Forall (flag_ok fl) (m_handles s) -> Forall op_fits cs -> Forall len_ok cs -> Forall (one_access fl) cs ->
  af_run fl g s cs = mrun fl g s cs.
Proof.
  intros Hf. induction cs as [|c cs IH]; intros s Hm Hh H1 H2 H3; [reflexivity|]. inversion H1; inversion H2; inversion H3; subst.
  destruct (af_mstep_is fl g s c Hf Hm Hh) as (E & Hh1); [assumption..|]. cbn [af_run mrun]. rewrite E.
  pose proof (minv_step fl g s c Hm ltac:(assumption)) as Hm1. destruct (mstep fl g s c) as [s1 r]. cbn [fst] in *. rewrite IH by assumption. reflexivity.
Qed.

Lemma af_refines fl g cs : access_bits fl -> Forall op_fits cs -> Forall len_ok cs -> Forall (one_access fl) cs -> affordable fl g a_fresh cs ->
  snd (af_run fl g fresh_mem cs) = snd (a_run fl a_fresh cs) /\ shows (fst (af_run fl g fresh_mem cs)) (fst (a_run fl a_fresh cs)).
Proof. intros Hf H1 H2 H3 Ha. rewrite af_run_is by (assumption || exact fresh_minv || constructor). apply mem_refines; assumption. Qed.

(* ---- metadata ---- *)

Lemma meta_run keep : forall os s m, vm_init m = true ->
  vm_init (snd (vm_run keep (s, m) os)) = true /\
  vm_stat (fst (vm_run keep (s, m) os)) (snd (vm_run keep (s, m) os)) =
    {| vs_mode := last_set (chmods keep) os (vm_mode m); vs_mtime := last_set chtimes os (vm_mtime m); vs_size := last_set resizes os (vs_size s) |}.
Proof.
  induction os as [|o os IH]; intros s m Hi; [split; [exact Hi|reflexivity]|]. cbn [vm_run fold_left last_set]. change (fold_left (vm_step keep) os) with (fun w => vm_run keep w os). cbv beta.
  destruct o; cbn [vm_step chmods chtimes resizes].
  - assert (vm_open s m = m) as -> by (unfold vm_open; rewrite Hi; reflexivity). apply IH. exact Hi.
  - exact (IH s (vm_chmod keep mode m) Hi).
  - pose proof (IH s (vm_chtimes t m) Hi) as H. cbn [vm_chtimes vm_mode vm_mtime] in H. destruct (t =? 0); exact H.
  - exact (IH {| vs_mode := vs_mode s; vs_mtime := now; vs_size := size |} m Hi).
Qed.

(* ---- ranges ---- *)

Lemma rv_new_is d off n v : rv_new d off n = Some v -> rv_off v = off /\ rv_n v = n /\ 0 <= off /\ 0 < n.
Proof.
  unfold rv_new. destruct (Z.ltb_spec off 0); [discriminate|]. destruct (Z.leb_spec n 0); [discriminate|]. destruct d; [discriminate|].
  intros E. apply some_inj in E. subst. auto.
Qed.
Lemma limit_is v : 0 <= rv_off v <= max_int64 -> 0 < rv_n v <= max_int64 -> rv_limit v = Z.min (rv_off v + rv_n v) max_int64.
Proof. intros. unfold rv_limit. destruct (Z.leb_spec (rv_off v) (max_int64 - rv_n v)); lia. Qed.

Lemma zslice_range d off n p len : 0 <= off -> 0 <= p -> 0 <= len -> zslice (range_of d off n) p len = zslice d (off + p) (Z.min len (Z.max 0 (n - p))).
Proof.
  intros Ho Hp Hl. unfold zslice, range_of. rewrite skipn_firstn_comm, firstn_firstn, skipn_skipn'.
  f_equal; [lia|]. f_equal. lia.
Qed.
Lemma zslice_len_le {A} (d : list A) off n : 0 <= off -> 0 <= n -> zlen (zslice d off n) = Z.max 0 (Z.min n (zlen d - off)).
Proof. intros. unfold zslice, zlen. rewrite firstn_length, skipn_length. lia. Qed.
Lemma zslice_past {A} (d : list A) off n : zlen d <= off -> zslice d off n = [].
Proof. intros. unfold zslice. rewrite skipn_all2 by (unfold zlen in *; lia). apply firstn_nil. Qed.
Lemma zslice_more {A} (d : list A) off n m : 0 <= off -> zlen d - off <= n -> zlen d - off <= m -> zslice d off n = zslice d off m.
Proof. intros. unfold zslice. rewrite !firstn_all2 by (rewrite skipn_length; unfold zlen in *; lia). reflexivity. Qed.

Lemma gave_nil len : gave (MOk 0 [] e_eof) [] len.
Proof. exists e_eof. split; [reflexivity|]. split; [intros H E; change (zlen (@nil N)) with 0 in E; lia|reflexivity]. Qed.

Lemma ranged_read_at d off n v len p : fits d off n -> rv_new d off n = Some v -> 0 <= len -> 0 <= p <= max_int64 ->
  gave (rv_read_at d v len p) (zslice (range_of d off n) p len) len.
Proof.
  intros (Ho & Hn & Hd) Hv Hl Hp. destruct (rv_new_is _ _ _ _ Hv) as (Eo & En & _). subst off n.
  unfold rv_read_at. rewrite (limit_is v Ho Hn). rewrite zslice_range by lia. destruct (Z.ltb_spec p 0); [lia|]. cbn [orb]. rewrite Z.geb_leb.
  destruct (Z.leb_spec (Z.min (rv_off v + rv_n v) max_int64 - rv_off v) p) as [Hpast|Hin].
  { assert (zslice d (rv_off v + p) (Z.min len (Z.max 0 (rv_n v - p))) = []) as ->; [|apply gave_nil].
    destruct (Z.leb_spec (rv_n v) p).
    - replace (Z.min len (Z.max 0 (rv_n v - p))) with 0 by lia. reflexivity.
    - apply zslice_past. lia. }
  cbn zeta. rewrite Z.gtb_ltb. replace (p + rv_off v) with (rv_off v + p) by lia.
  destruct (Z.leb_spec (zlen d) (rv_off v + p)) as [Hend|Hend].
  { rewrite zslice_past by exact Hend. destruct (_ <? len); [|apply gave_nil]. exact (gave_nil len). }
  destruct (Z.ltb_spec (Z.min (rv_off v + rv_n v) max_int64 - (rv_off v + p)) len) as [Hshort|Hfull].
  - assert (zslice d (rv_off v + p) (Z.min len (Z.max 0 (rv_n v - p))) = zslice d (rv_off v + p) (Z.min (rv_off v + rv_n v) max_int64 - (rv_off v + p))) as ->.
    { destruct (Z.leb_spec (rv_off v + rv_n v) max_int64); [f_equal; lia|]. apply zslice_more; lia. }
    set (x := zslice d _ _). assert (zlen x < len) as Hx by (unfold x; rewrite zslice_len_le by lia; lia).
    exists e_eof. split; [|split; [lia|reflexivity]]. destruct (zlen x <? _); reflexivity.
  - replace (Z.min len (Z.max 0 (rv_n v - p))) with len by lia. set (x := zslice d _ _). eexists. split; [reflexivity|]. split.
    + intros _ E. rewrite E. rewrite Z.ltb_irrefl. reflexivity.
    + intros E. destruct (Z.ltb_spec (zlen x) len); [reflexivity|lia].
Qed.

Lemma ranged_read d off n v len q : fits d off n -> rv_new d off n = Some v -> 0 <= len -> 0 <= q -> off + q <= max_int64 ->
  let x := zslice (range_of d off n) q len in
  exists r, rv_read d v len (off + q) = (r, off + q + zlen x) /\ data_of r = x.
Proof.
  intros (Ho & Hn & Hd) Hv Hl Hq Hm. destruct (rv_new_is _ _ _ _ Hv) as (Eo & En & _). subst off n. cbn zeta.
  unfold rv_read. rewrite (limit_is v Ho Hn). rewrite zslice_range by lia. rewrite Z.geb_leb.
  destruct (Z.leb_spec (Z.min (rv_off v + rv_n v) max_int64) (rv_off v + q)) as [Hpast|Hin].
  { assert (zslice d (rv_off v + q) (Z.min len (Z.max 0 (rv_n v - q))) = []) as ->.
    { destruct (Z.leb_spec (rv_n v) q); [replace (Z.min len (Z.max 0 (rv_n v - q))) with 0 by lia; reflexivity|]. apply zslice_past. lia. }
    eexists. split; [change (zlen (@nil N)) with 0; rewrite Z.add_0_r; reflexivity|reflexivity]. }
  cbn zeta. rewrite Z.gtb_ltb. destruct (Z.leb_spec (zlen d) (rv_off v + q)) as [Hend|Hend].
  { rewrite zslice_past by exact Hend. eexists. split; [change (zlen (@nil N)) with 0; rewrite Z.add_0_r; reflexivity|reflexivity]. }
  assert (zslice d (rv_off v + q) (if Z.min (rv_off v + rv_n v) max_int64 - (rv_off v + q) <? len then Z.min (rv_off v + rv_n v) max_int64 - (rv_off v + q) else len)
    = zslice d (rv_off v + q) (Z.min len (Z.max 0 (rv_n v - q)))) as ->.
  { destruct (Z.ltb_spec (Z.min (rv_off v + rv_n v) max_int64 - (rv_off v + q)) len).
    - destruct (Z.leb_spec (rv_off v + rv_n v) max_int64); [f_equal; lia|]. apply zslice_more; lia.
    - f_equal. lia. }
  eexists. split; [reflexivity|reflexivity].
Qed.

Lemma range_len d off n : 0 <= off -> 0 <= n -> zlen (range_of d off n) = Z.max 0 (Z.min n (zlen d - off)).
Proof. intros. exact (zslice_len_le d off n H H0). Qed.

Lemma firstn_plus' {A} n k (l : list A) : firstn (n + k) l = firstn n l ++ firstn k (skipn n l).
Proof. revert l. induction n as [|n IH]; intros [|x l]; cbn [Nat.add firstn skipn app]; rewrite ?firstn_nil; [reflexivity..|]. rewrite IH. reflexivity. Qed.

Lemma ranged_reads d off n v : fits d off n -> rv_new d off n = Some v -> forall lens q, Forall (fun l => 0 <= l) lens -> 0 <= q -> off + q <= max_int64 ->
  concat (map data_of (rv_reads d v (off + q) lens)) = zslice (range_of d off n) q (fold_right Z.add 0 lens).
Proof.
  intros Hf Hv. pose proof Hf as ((Ho & _) & (Hn & _) & Hd). induction lens as [|len lens IH]; intros q HF Hq Hm; [reflexivity|].
  inversion HF; subst. destruct (ranged_read d off n v len q Hf Hv ltac:(assumption) Hq Hm) as (r & E & Er). cbn zeta in *.
  cbn [rv_reads]. rewrite E. cbn [map concat fold_right]. rewrite Er.
  set (R := range_of d off n) in *. assert (0 <= fold_right Z.add 0 lens) as Hs.
  { clear - H2. induction H2; cbn [fold_right]; lia. }
  pose proof (zslice_len_le R q len Hq ltac:(assumption)) as Hx. pose proof (range_len d off n Ho ltac:(lia)) as HR. fold R in HR.
  rewrite <- Z.add_assoc. rewrite IH by (assumption || lia).
  rewrite Hx. unfold zslice. destruct (Z.leb_spec (zlen R) (q + len)).
  - rewrite (firstn_all2 (n := Z.to_nat len)) by (rewrite skipn_length; unfold zlen in *; lia).
    rewrite (firstn_all2 (n := Z.to_nat (len + fold_right Z.add 0 lens))) by (rewrite skipn_length; unfold zlen in *; lia).
    rewrite (skipn_all2 (n := Z.to_nat (q + _))) by (unfold zlen in *; lia). rewrite firstn_nil, app_nil_r. reflexivity.
  - replace (Z.to_nat (q + Z.max 0 (Z.min len (zlen R - q)))) with (Z.to_nat q + Z.to_nat len)%nat by lia.
    rewrite <- skipn_skipn'. replace (Z.to_nat (len + fold_right Z.add 0 lens)) with (Z.to_nat len + Z.to_nat (fold_right Z.add 0%Z lens))%nat by lia.
    rewrite firstn_plus'. reflexivity.
Qed.

(* ---- temporary files ---- *)

Lemma t_set_keeps d n f : ~ In n (map fst d) -> t_set d n f = d.
Proof.
  induction d as [|[k x] d IH]; intros H; [reflexivity|]. cbn [t_set map fst] in *. destruct (Nat.eqb_spec k n) as [->|_]; [exfalso; apply H; left; reflexivity|].
  f_equal. apply IH. intros Hin. apply H. right. exact Hin.
Qed.
Lemma t_set_app d e n f : t_set (d ++ e) n f = t_set d n f ++ t_set e n f.
Proof. apply map_app. Qed.
Lemma t_set_names d n f : map fst (t_set d n f) = map fst d.
Proof. unfold t_set. rewrite map_map. apply map_ext. intros [k x]. cbn [fst snd]. destruct (Nat.eqb k n); reflexivity. Qed.
Lemma t_set_length d n f : length (t_set d n f) = length d.
Proof. apply map_length. Qed.

Definition t_inv (d0 : tdir) (w : tdir * tview) : Prop :=
  exists extra, fst w = d0 ++ extra /\ match snd w with Some n => In n (map fst extra) /\ ~ In n (map fst d0) | None => True end.
Definition t_live (v : tview) : nat := match v with Some _ => 1 | None => 0 end.

Lemma t_step_spec pick d0 w o : picks_fresh pick -> t_inv d0 w ->
  t_inv d0 (fst (t_step pick w o)) /\
  (length (fst (fst (t_step pick w o))) + t_live (snd w) = length (fst w) + t_live (snd (fst (t_step pick w o))) + failed_closes [o] [snd (t_step pick w o)])%nat.
Proof.
  intros Hp (extra & Hd & Hv). destruct w as [d v]. cbn [fst snd] in *. subst d.
  assert (let '(d1, n) := t_create pick (d0 ++ extra) v in
          (exists extra', d1 = d0 ++ extra' /\ In n (map fst extra') /\ ~ In n (map fst d0)) /\ length d1 + t_live v = S (length (d0 ++ extra)))%nat as Hc.
  { destruct v as [n|]; cbn [t_create].
    - split; [exists extra; auto|cbn [t_live]; lia].
    - split; [|rewrite app_length; cbn [length t_live]; lia]. exists (extra ++ [(pick (map fst (d0 ++ extra)), [])]). split; [rewrite app_assoc; reflexivity|].
      set (m := pick (map fst (d0 ++ extra))).
      split; [rewrite map_app; apply in_or_app; right; left; reflexivity|]. intros Hin. apply (Hp (map fst (d0 ++ extra))). fold m. rewrite map_app. apply in_or_app. left. exact Hin. }
  destruct o; cbn [t_step].
  1,2: destruct (t_create pick (d0 ++ extra) v) as [d1 nm]; destruct Hc as ((e' & -> & Hin & Hnot) & Hlen); cbn [fst snd failed_closes t_live]; split; [exists e'; cbn [fst snd]; auto|lia].
  - destruct (t_create pick (d0 ++ extra) v) as [d1 nm]; destruct Hc as ((e' & -> & Hin & Hnot) & Hlen). cbn [fst snd failed_closes t_live]. rewrite t_set_length. split; [|lia].
    eexists. split; [cbn [fst]; rewrite t_set_app, t_set_keeps by exact Hnot; reflexivity|]. cbn [snd]. rewrite t_set_names. auto.
  - destruct v as [n|]; cbn [t_remove fst snd failed_closes t_live]; (split; [|lia]); exists extra; cbn [fst snd]; auto.
Qed.

Lemma t_run_spec pick d0 : picks_fresh pick -> forall os w, t_inv d0 w ->
  t_inv d0 (fst (t_run pick w os)) /\
  (length (fst (fst (t_run pick w os))) + t_live (snd w) = length (fst w) + t_live (snd (fst (t_run pick w os))) + failed_closes os (snd (t_run pick w os)))%nat.
Proof.
  intros Hp. induction os as [|o os IH]; intros w Hw; [cbn; split; [exact Hw|lia]|].
  destruct (t_step_spec pick d0 w o Hp Hw) as (H1 & H2). cbn [t_run]. destruct (t_step pick w o) as [w1 r]. cbn [fst snd] in *.
  destruct (IH w1 H1) as (H3 & H4). destruct (t_run pick w1 os) as [w2 rs]. cbn [fst snd] in *. split; [exact H3|].
  assert (failed_closes (o :: os) (r :: rs) = failed_closes [o] [r] + failed_closes os rs)%nat as ->; [destruct o, r; reflexivity|lia].
Qed.

Lemma tmp_files pick d0 os : picks_fresh pick ->
  let '((d, v), rs) := t_run pick (d0, None) os in
  exists extra, d = d0 ++ extra /\ length extra = ((match v with Some _ => 1 | None => 0 end) + failed_closes os rs)%nat.
Proof.
  intros Hp. destruct (t_run_spec pick d0 Hp os (d0, None)) as ((extra & H1 & _) & H2); [exists []; split; [rewrite app_nil_r; reflexivity|exact I]|].
  destruct (t_run pick (d0, None) os) as [[d v] rs]. cbn [fst snd] in *. exists extra. split; [exact H1|]. subst d. rewrite app_length in H2. unfold t_live in H2. lia.
Qed.

(* ---- listings ---- *)

Section Pages.
  Context {A : Type}.
  Definition d_rel (h : dhandle A) (s : option (list A)) : Prop :=
    match d_snap h, s with
    | None, None => d_off h = 0
    | Some l, Some rest => 0 <= d_off h <= zlen l /\ rest = skipn (Z.to_nat (d_off h)) l
    | _, _ => False
    end.

  Lemma d_read_spec h l count : 0 <= d_off h <= zlen l ->
    d_rel (fst (d_read h l count)) (Some (fst (page (skipn (Z.to_nat (d_off h)) l) count))) /\ snd (d_read h l count) = snd (page (skipn (Z.to_nat (d_off h)) l) count).
  Proof.
    intros H. unfold d_read, page. destruct (Z.ltb_spec (d_off h) 0); [lia|]. destruct (Z.ltb_spec (zlen l) (d_off h)); [lia|]. cbn [orb]. cbn zeta.
    set (rest := skipn (Z.to_nat (d_off h)) l). assert (zlen rest = zlen l - d_off h) as Hr by (unfold rest, zlen in *; rewrite skipn_length; lia).
    rewrite Z.gtb_ltb, Z.geb_leb.
    assert (skipn (Z.to_nat (zlen l)) l = []) as Hend by (apply skipn_all2; unfold zlen; lia).
    destruct (Z.leb_spec count 0) as [Hc|Hc]; cbn [orb].
    - cbn [fst snd]. unfold d_rel. cbn [d_snap d_off]. rewrite Hend. split; [split; [unfold zlen in *; lia|reflexivity]|].
      f_equal. destruct (Z.ltb_spec 0 count); [lia|]. apply andb_false_r.
    - destruct (Z.ltb_spec 0 count); [|lia]. rewrite andb_true_r. destruct (Z.leb_spec (zlen rest) count) as [Hall|Hsome]; cbn [fst snd].
      + unfold d_rel. cbn [d_snap d_off]. rewrite Hend. rewrite firstn_all2, skipn_all2 by (unfold zlen in *; lia). split; [split; [unfold zlen in *; lia|reflexivity]|].
        f_equal. destruct rest as [|x r]; [reflexivity|]. unfold zlen. cbn [length]. destruct (Z.eqb_spec (Z.of_nat (S (length r))) 0); [lia|reflexivity].
      + unfold d_rel. cbn [d_snap d_off]. split; [split; [lia|]|].
        * unfold rest. rewrite skipn_skipn'. f_equal. lia.
        * f_equal. destruct rest; [unfold zlen in Hsome; cbn [length] in Hsome; lia|reflexivity].
  Qed.

  Lemma d_step_spec h s c : d_rel h s -> d_rel (fst (d_step h c)) (fst (page_step s c)) /\ snd (d_step h c) = snd (page_step s c).
  Proof.
    intros H. destruct c as [count now|offset whence]; cbn [d_step page_step].
    - unfold d_rel in H. destruct (d_snap h) as [l|] eqn:E, s as [rest|]; try contradiction.
      + destruct H as (H & ->). destruct (d_read_spec h l count H) as (H1 & H2). destruct (page (skipn (Z.to_nat (d_off h)) l) count) as [r1 r2]. cbn [fst snd] in *. auto.
      + destruct now as [l|]; [|cbn [fst snd]; unfold d_rel; rewrite E; auto].
        destruct (d_read_spec h l count ltac:(unfold zlen; lia)) as (H1 & H2). rewrite H in H1, H2. cbn [Z.to_nat skipn] in H1, H2.
        destruct (page l count) as [r1 r2]. cbn [fst snd] in *. auto.
    - cbn [fst snd]. split; [reflexivity|]. f_equal. rewrite Z.gtb_ltb, !Z.ltb_antisym, !negb_involutive.
      destruct (Z.eqb_spec whence 0), (Z.eqb_spec whence 1), (Z.eqb_spec whence 2); try lia; cbn [orb andb]; rewrite ?orb_false_r; reflexivity.
  Qed.

  Lemma d_run_spec cs : forall h s, d_rel h s -> snd (d_run h cs) = snd (page_run s cs).
  Proof.
    induction cs as [|c cs IH]; intros h s H; [reflexivity|]. cbn [d_run page_run]. destruct (d_step_spec h s c H) as (H1 & H2).
    destruct (d_step h c) as [h1 r1]. destruct (page_step s c) as [s1 r2]. cbn [fst snd] in *. subst r2. specialize (IH h1 s1 H1).
    destruct (d_run h1 cs), (page_run s1 cs). cbn [snd] in *. congruence.
  Qed.
  Lemma readdir_refines cs : snd (d_run d_fresh cs) = snd (page_run (@None (list A)) cs).
  Proof. apply d_run_spec. reflexivity. Qed.

  Lemma page_keeps (rest : list A) count : page_of (snd (page rest count)) ++ fst (page rest count) = rest.
  Proof. unfold page. destruct (count <=? 0); cbn [fst snd page_of]; [apply app_nil_r|apply firstn_skipn]. Qed.
  Lemma pages_keep cs : forall l : list A, Forall is_readdir cs ->
    exists rest, fst (page_run (Some l) cs) = Some rest /\ concat (map page_of (snd (page_run (Some l) cs))) ++ rest = l.
  Proof.
    induction cs as [|c cs IH]; intros l H; [exists l; auto|]. inversion H as [|? ? Hc Hcs]; subst. destruct c as [count now|]; [|destruct Hc].
    cbn [page_run page_step]. pose proof (page_keeps l count) as Hp. destruct (page l count) as [rest r]. cbn [fst snd] in Hp.
    destruct (IH rest Hcs) as (rest' & E1 & E2). destruct (page_run (Some rest) cs) as [s2 rs]. cbn [fst snd map concat] in *. exists rest'. split; [exact E1|].
    rewrite <- app_assoc, E2. exact Hp.
  Qed.
  Lemma readdir_all count (l : list A) cs : Forall is_readdir cs ->
    exists rest, concat (map page_of (snd (d_run d_fresh (DReaddir count (Some l) :: cs)))) ++ rest = l /\
      (In true (map (fun r => match r with DOk _ e => e | _ => false end) (snd (d_run d_fresh (DReaddir count (Some l) :: cs)))) -> rest = []).
  Proof.
    intros H. rewrite readdir_refines. destruct (pages_keep (DReaddir count (Some l) :: cs) l) as (rest & E1 & E2); [constructor; [exact I|exact H]|].
    assert (page_run None (DReaddir count (Some l) :: cs) = page_run (Some l) (DReaddir count (Some l) :: cs)) as -> by reflexivity.
    exists rest. split; [exact E2|]. clear E2. revert E1. assert (Forall is_readdir (DReaddir count (Some l) :: cs)) as HF by (constructor; [exact I|exact H]).
    revert HF. generalize (DReaddir count (Some l) :: cs) as ds. generalize l. clear H cs l count.
    assert (forall ds, Forall is_readdir ds -> fst (page_run (Some (@nil A)) ds) = Some []) as Hnil.
    { induction ds as [|d ds IH]; intros HF; [reflexivity|]. inversion HF as [|? ? Hd Hds]; subst. destruct d; [|destruct Hd]. cbn [page_run page_step].
      assert (fst (page (@nil A) count) = []) as E by (unfold page; destruct (count <=? 0); cbn [fst]; [reflexivity|apply skipn_nil]).
      destruct (page [] count) as [r0 r]. cbn [fst] in E. subst r0. specialize (IH Hds). destruct (page_run (Some []) ds). exact IH. }
    intros l ds. revert l. induction ds as [|d ds IH]; intros l HF E; [intros []|]. inversion HF as [|? ? Hd Hds]; subst. destruct d; [|destruct Hd].
    cbn [page_run page_step] in *. destruct (page l count) as [r0 r] eqn:Ep. specialize (IH r0 Hds). specialize (Hnil ds Hds). destruct (page_run (Some r0) ds) as [s2 rs] eqn:Er. cbn [fst snd map] in *.
    intros [He|He]; [|exact (IH E He)]. unfold page in Ep. destruct (count <=? 0); [apply pair_equal_spec in Ep; destruct Ep as (_ & <-); discriminate|].
    apply pair_equal_spec in Ep. destruct Ep as (<- & <-). destruct l as [|x l]; [|discriminate]. rewrite skipn_nil in Er. rewrite Er in Hnil. cbn [fst] in Hnil. congruence.
  Qed.
End Pages.

(* ---- closing ---- *)

Lemma closed_refuses cs : forall s, cl_closed s = true -> cl_calls s cs = (s, map (fun _ => false) cs).
Proof. induction cs as [|c cs IH]; intros s H; [reflexivity|]. cbn [cl_calls map]. unfold cl_call. rewrite H, IH by exact H. reflexivity. Qed.
Lemma closable_calls cs : forall log,
  let '(s, rs) := cl_calls {| cl_closed := false; cl_inner := log |} cs in
  cl_inner s = log ++ upto_close cs /\ rs = repeat true (length (upto_close cs)) ++ repeat false (length cs - length (upto_close cs)).
Proof.
  induction cs as [|c cs IH]; intros log; [cbn; rewrite app_nil_r; auto|]. cbn [cl_calls cl_call cl_closed cl_inner]. destruct c as [m|].
  - specialize (IH (log ++ [CMethod m])). destruct (cl_calls {| cl_closed := false; cl_inner := log ++ [CMethod m] |} cs) as [s rs]. destruct IH as (E & ->).
    cbn [upto_close]. split; [rewrite E, <- app_assoc; reflexivity|reflexivity].
  - rewrite closed_refuses by reflexivity. cbn [cl_inner upto_close length repeat app]. split; [reflexivity|]. f_equal. rewrite Nat.sub_succ, Nat.sub_0_r.
    clear. induction cs; cbn; congruence.
Qed.

Lemma ccall_eqb_eq a b : ccall_eqb a b = true <-> a = b.
Proof. destruct a, b; cbn; rewrite ?Nat.eqb_eq; split; congruence. Qed.

Definition not_begun (c : ccall) (w : cworld) : Prop :=
  cw_closed w = true /\ forall t, In t (cw_threads w) -> ct_call t = c -> ct_pc t = PCheck \/ ct_pc t = PDone false.
Lemma In_set_nth {A} (l : list A) i x y : In y (set_nth l i x) -> y = x \/ In y l.
Proof. revert i. induction l as [|a l IH]; intros [|i] H; cbn in *; [tauto..| |]; [destruct H as [<-|H]; auto|destruct H as [<-|H]; [auto|]]. destruct (IH i H); auto. Qed.
Lemma late_step c w i : not_begun c w -> not_begun c (cw_step w i) /\ times c (cw_inner (cw_step w i)) = times c (cw_inner w).
Proof.
  intros (Hc & Ht). unfold cw_step. destruct (nth_error (cw_threads w) i) as [t|] eqn:E; [|split; [split; assumption|reflexivity]].
  pose proof (nth_error_In _ _ E) as Hin. cbn zeta.
  destruct (ct_pc t) eqn:Ep.
  - rewrite Hc. split; [|reflexivity]. split; [reflexivity|]. cbn [cw_threads]. intros t' Ht' Ec. apply In_set_nth in Ht'. destruct Ht' as [->|Ht']; [right; reflexivity|exact (Ht t' Ht' Ec)].
  - split; [|reflexivity]. split; [reflexivity|]. cbn [cw_threads]. intros t' Ht' Ec. apply In_set_nth in Ht'. destruct Ht' as [->|Ht']; [|exact (Ht t' Ht' Ec)].
    cbn [ct_call] in Ec. destruct (Ht t Hin Ec); congruence.
  - assert (ct_call t <> c) as Hne by (intros Ec; destruct (Ht t Hin Ec); congruence). split.
    + split; [exact Hc|]. cbn [cw_threads]. intros t' Ht' Ec. apply In_set_nth in Ht'. destruct Ht' as [->|Ht']; [|exact (Ht t' Ht' Ec)]. contradiction.
    + cbn [cw_inner]. unfold times. rewrite filter_app, app_length. cbn [filter]. destruct (ccall_eqb c (ct_call t)) eqn:Eq; [apply ccall_eqb_eq in Eq; congruence|cbn [length]; lia].
  - split; [split; assumption|reflexivity].
Qed.
Lemma late_calls_refused c is : forall w, cw_closed w = true -> (forall t, In t (cw_threads w) -> ct_call t = c -> ct_pc t = PCheck) ->
  times c (cw_inner (cw_run w is)) = times c (cw_inner w) /\ forall t, In t (cw_threads (cw_run w is)) -> ct_call t = c -> ct_pc t = PCheck \/ ct_pc t = PDone false.
Proof.
  assert (forall is w, not_begun c w -> not_begun c (cw_run w is) /\ times c (cw_inner (cw_run w is)) = times c (cw_inner w)) as H.
  { clear is. induction is as [|i is IH]; intros w Hw; [auto|]. destruct (late_step c w i Hw) as (H1 & H2). destruct (IH _ H1) as (H3 & H4).
    cbn [cw_run fold_left]. split; [exact H3|]. unfold cw_run in H4. rewrite H4. exact H2. }
  intros w Hc Ht. destruct (H is w) as ((_ & H1) & H2); [split; [exact Hc|]; intros t Hin E; left; exact (Ht t Hin E)|]. auto.
Qed.

(* Each goroutine's call reaches the file at most once. *)
Definition reach (ts : list cthread) : nat := length (filter reached ts).
Lemma reach_set ts i t t' : nth_error ts i = Some t -> (reach (set_nth ts i t') + Nat.b2n (reached t) = reach ts + Nat.b2n (reached t'))%nat.
Proof.
  revert i. unfold reach. induction ts as [|x ts IH]; intros [|i] E; try discriminate.
  - cbn in E. apply some_inj in E. subst x. cbn [set_nth filter]. destruct (reached t), (reached t'); cbn; lia.
  - cbn [nth_error] in E. specialize (IH i E). cbn [set_nth filter]. destruct (reached x); cbn [length]; lia.
Qed.
Lemma inner_once is : forall w, (length (cw_inner (cw_run w is)) + reach (cw_threads w) = length (cw_inner w) + reach (cw_threads (cw_run w is)))%nat.
Proof.
  induction is as [|i is IH]; intros w; [reflexivity|]. cbn [cw_run fold_left]. pose proof (IH (cw_step w i)) as H. unfold cw_run in H.
  assert (length (cw_inner (cw_step w i)) + reach (cw_threads w) = length (cw_inner w) + reach (cw_threads (cw_step w i)))%nat as Hs; [|lia].
  unfold cw_step. destruct (nth_error (cw_threads w) i) as [t|] eqn:E; [|reflexivity]. cbn zeta.
  destruct (ct_pc t) eqn:Ep.
  - assert (forall pc, (forall b, pc <> PDone b) \/ pc = PDone false -> reach (set_nth (cw_threads w) i {| ct_call := ct_call t; ct_pc := pc |}) = reach (cw_threads w)) as Hr.
    { intros pc Hpc. pose proof (reach_set _ i t {| ct_call := ct_call t; ct_pc := pc |} E) as Hr. unfold reached in Hr. rewrite Ep in Hr. cbn [ct_pc] in Hr.
      destruct Hpc as [Hpc| ->]; [destruct pc as [| | |b]; [..|destruct (Hpc b eq_refl)]|]; cbn in Hr; lia. }
    destruct (cw_closed w); cbn [cw_inner cw_threads]; rewrite Hr; [lia|right; reflexivity|lia|left; intros b; destruct (ct_call t); discriminate].
  - pose proof (reach_set _ i t {| ct_call := ct_call t; ct_pc := PInner |} E) as Hr. unfold reached in Hr. rewrite Ep in Hr. cbn in Hr. cbn [cw_inner cw_threads]. lia.
  - pose proof (reach_set _ i t {| ct_call := ct_call t; ct_pc := PDone true |} E) as Hr. unfold reached in Hr. rewrite Ep in Hr. cbn in Hr. cbn [cw_inner cw_threads]. rewrite app_length. cbn [length]. lia.
  - reflexivity.
Qed.

Lemma ranged_size d off n v : fits d off n -> rv_new d off n = Some v -> off + n <= zlen d ->
  rv_handle_size v = zlen (range_of d off n) /\ (off = 0 -> rv_stat_size v = zlen (range_of d off n)).
Proof.
  intros (Ho & Hn & Hd) Hv Hin. destruct (rv_new_is _ _ _ _ Hv) as (Eo & En & _). subst off n. rewrite range_len by lia. unfold rv_handle_size, rv_stat_size. rewrite limit_is by assumption.
  split; [|intros H0]; rewrite wrap64_id by (unfold in_int64, min_int64; lia); lia.
Qed.

Lemma started_once cs is : length (cw_inner (cw_run (cw_start cs) is)) = length (filter reached (cw_threads (cw_run (cw_start cs) is))).
Proof.
  pose proof (inner_once is (cw_start cs)) as H. cbn [cw_start cw_inner cw_threads length] in H.
  assert (reach (map starting cs) = O) as H0 by (clear H; induction cs as [|c cs IH]; [reflexivity|exact IH]). unfold reach in *. lia.
Qed.
