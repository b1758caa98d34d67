From Verif Require Import Common CommonLemmas Paging_Model Paging_Spec.
Open Scope Z_scope.

Lemma zlen_page {A} (L : list A) p k : 0 <= p -> 0 <= k -> p + k <= zlen L -> zlen (zslice L p k) = k.
Proof. intros. rewrite zslice_length by lia. lia. Qed.

(* Reads since a rewind hand out exactly the entries before the position, in order. *)
Lemma reads_prefix {A} (L : list A) mv : forall ns p rs, 0 <= p <= zlen L -> rs = pages mv L p (map PRead ns) ->
  exists q, p <= q <= zlen L /\ handed rs = zslice L p (q - p) /\
    (In PEof rs -> q = zlen L) /\ ((exists n, In n ns /\ n <= 0) -> q = zlen L) /\ Forall (fun r => r <> PErr /\ r <> PPanic) rs.
Proof.
  induction ns as [|n ns IH]; intros p rs Hp ->.
  - exists p. cbn. split; [lia|]. split; [rewrite Z.sub_diag; unfold zslice; cbn; reflexivity|]. split; [tauto|]. split; [intros (n & [] & _)|constructor].
  - cbn [map pages]. set (r := page L p n). assert (exists k, 0 <= k <= zlen L - p /\ advance p r = p + k /\
      (match r with POut l => l = zslice L p k | PEof => k = 0 /\ p = zlen L | _ => False end) /\ (n <= 0 -> p + k = zlen L)) as (k & Hk & Ea & Hr & Hn).
    { unfold r, page. destruct (Z.leb_spec n 0).
      - exists (zlen L - p). split; [lia|]. cbn [advance]. rewrite zlen_page by lia. repeat split; lia.
      - destruct (Z.geb_spec p (zlen L)).
        + exists 0. cbn [advance]. repeat split; lia.
        + exists (Z.min n (zlen L - p)). split; [lia|]. cbn [advance]. rewrite zlen_page by lia. repeat split; lia. }
    rewrite Ea. destruct (IH (p + k) _ ltac:(lia) eq_refl) as (q & Hq & Eh & He & Hz & Hf). exists q. split; [lia|]. split; [|split; [|split]].
    + unfold handed in *. cbn [flat_map]. rewrite Eh. destruct r as [l| | |]; try contradiction.
      * subst l. replace (q - p) with (k + (q - (p + k))) by lia. rewrite zslice_split by lia. reflexivity.
      * destruct Hr as [-> ->]. cbn. f_equal; lia.
    + intros [E|Hin]; [|apply He, Hin]. rewrite E in Hr. destruct Hr; lia.
    + intros (n0 & [<-|Hin] & Hn0); [specialize (Hn Hn0); lia|]. apply Hz. eauto.
    + constructor; [|exact Hf]. destruct r; try contradiction; split; discriminate.
Qed.

(* Each handle follows the position. *)
Lemma tar_step {A} (L : list A) n h : p_closed h = false -> 0 <= p_cur h <= zlen L -> exists h',
  tar_read (zlen L) L n h = (page L (p_cur h) n, h') /\ p_closed h' = false /\ p_cur h' = advance (p_cur h) (page L (p_cur h) n) /\ 0 <= p_cur h' <= zlen L.
Proof.
  intros Hc Hp. unfold tar_read, page. rewrite Hc. destruct (Z.geb_spec (p_cur h) (zlen L)) as [Hg|Hg].
  - exists h. destruct (n <=? 0); cbn [advance]; [rewrite zslice_past by lia; change (zlen (@nil A)) with 0|]; repeat split; try assumption; lia.
  - destruct (Z.leb_spec n 0).
    + rewrite Z.min_id. assert ((zlen L - p_cur h <? 0) = false) as -> by lia. assert ((p_cur h + (zlen L - p_cur h) >? zlen L) = false) as -> by lia.
      eexists. split; [reflexivity|]. cbn [p_closed p_cur advance]. rewrite zlen_page by lia. repeat split; lia.
    + assert ((Z.min n (zlen L - p_cur h) <? 0) = false) as -> by lia. assert ((p_cur h + Z.min n (zlen L - p_cur h) >? zlen L) = false) as -> by lia.
      eexists. split; [reflexivity|]. cbn [p_closed p_cur advance]. rewrite zlen_page by lia. repeat split; lia.
Qed.

Lemma tar_pages {A} (L : list A) : forall ops h, p_closed h = false -> 0 <= p_cur h <= zlen L ->
  fst (prun (tar_read (zlen L) L) (tar_seek L) h ops) = pages tar_move L (p_cur h) ops.
Proof.
  induction ops as [|[n|o w] ops IH]; intros h Hc Hp; [reflexivity| |]; cbn [prun pages].
  - destruct (tar_step L n h Hc Hp) as (h' & -> & Hc' & Ea & Hp'). specialize (IH h' Hc' Hp'). destruct (prun _ _ h' ops) as [rs h2]. cbn [fst] in *. rewrite IH, Ea. reflexivity.
  - unfold tar_seek. rewrite Hc. unfold tar_move, moved. pose proof (zlen_nonneg L).
    destruct (Z.eqb_spec w 0); [subst; change (0 =? 2) with false; cbn [andb]; rewrite IH; cbn; try lia; reflexivity|].
    destruct (Z.eqb_spec w 1); [subst; change (1 =? 2) with false; cbn [andb]; rewrite IH; cbn; try lia; reflexivity|].
    destruct (Z.eqb_spec w 2); cbn [andb]; [|rewrite IH; cbn; try lia; reflexivity].
    destruct (Z.gtb_spec o 0); [assert ((o <=? 0) = false) as -> by lia|assert ((o <=? 0) = true) as -> by lia]; rewrite IH; cbn; try lia; reflexivity.
Qed.

Lemma batch_end_fits cur n len : 0 <= cur < len -> len <= max_int64 -> n + len <= max_int64 -> batch_end cur n len = if n <=? 0 then len else cur + Z.min n (len - cur).
Proof.
  intros Hc Hl Hn. unfold batch_end. destruct (Z.leb_spec n 0); [assert ((n >? 0) = false) as -> by lia; reflexivity|]. assert ((n >? 0) = true) as -> by lia. cbn [andb].
  rewrite wrap64_id by (unfold in_int64, min_int64; lia). destruct (Z.ltb_spec (cur + n) len); lia.
Qed.

Lemma synth_step {A} (L : list A) n h : p_closed h = false -> 0 <= p_cur h <= zlen L -> zlen L <= max_int64 -> n + zlen L <= max_int64 -> exists h',
  synth_read L n h = (page L (p_cur h) n, h') /\ p_closed h' = false /\ p_cur h' = advance (p_cur h) (page L (p_cur h) n) /\ 0 <= p_cur h' <= zlen L.
Proof.
  intros Hc Hp HL Hn. unfold synth_read, page. rewrite Hc. destruct (Z.geb_spec (p_cur h) (zlen L)) as [Hg|Hg].
  - exists h. destruct (n <=? 0); cbn [advance]; [rewrite zslice_past by lia; change (zlen (@nil A)) with 0|]; repeat split; try assumption; lia.
  - cbv zeta. rewrite batch_end_fits by lia. destruct (Z.leb_spec n 0).
    + assert ((zlen L <? p_cur h) = false) as -> by lia. eexists. split; [reflexivity|]. cbn [p_closed p_cur advance]. rewrite zlen_page by lia. repeat split; lia.
    + assert ((p_cur h + Z.min n (zlen L - p_cur h) <? p_cur h) = false) as -> by lia. replace (p_cur h + Z.min n (zlen L - p_cur h) - p_cur h) with (Z.min n (zlen L - p_cur h)) by lia.
      eexists. split; [reflexivity|]. cbn [p_closed p_cur advance]. rewrite zlen_page by lia. repeat split; lia.
Qed.

Lemma synth_pages {A} (L : list A) : zlen L <= max_int64 -> forall ops, Forall (batch_fits L) ops -> forall h, p_closed h = false -> 0 <= p_cur h <= zlen L ->
  fst (prun (synth_read L) (synth_seek L) h ops) = pages synth_move L (p_cur h) ops.
Proof.
  intros HL. induction 1 as [|[n|o w] ops Hf _ IH]; intros h Hc Hp; [reflexivity| |]; cbn [prun pages].
  - destruct (synth_step L n h Hc Hp HL Hf) as (h' & -> & Hc' & Ea & Hp'). specialize (IH h' Hc' Hp'). destruct (prun _ _ h' ops) as [rs h2]. cbn [fst] in *. rewrite IH, Ea. reflexivity.
  - unfold synth_seek, synth_move, moved. pose proof (zlen_nonneg L).
    destruct (Z.eqb_spec w 0); [subst; change (0 =? 2) with false; cbn [andb]; destruct (Z.ltb_spec o 0); [assert ((0 <=? o) = false) as -> by lia|assert ((0 <=? o) = true) as -> by lia]; rewrite IH; cbn; try assumption; try lia; reflexivity|].
    destruct (Z.eqb_spec w 1); [subst; change (1 =? 2) with false; cbn [andb]; rewrite IH; try assumption; reflexivity|]. cbn [andb].
    destruct (Z.eqb_spec w 2); cbn [andb]; [|rewrite IH; try assumption; reflexivity].
    destruct (Z.gtb_spec o 0); [assert ((o <=? 0) = false) as -> by lia|assert ((o <=? 0) = true) as -> by lia]; rewrite IH; cbn; try assumption; try lia; reflexivity.
Qed.

Definition snap_ok {A} (L : list A) (h : ph A) : Prop := p_snap h = None \/ p_snap h = Some L.

Lemma over_step {A} (L : list A) n h : p_closed h = false -> snap_ok L h -> 0 <= p_cur h <= zlen L -> zlen L <= max_int64 -> n + zlen L <= max_int64 -> exists h',
  over_read L n h = (page L (p_cur h) n, h') /\ p_closed h' = false /\ snap_ok L h' /\ p_cur h' = advance (p_cur h) (page L (p_cur h) n) /\ 0 <= p_cur h' <= zlen L.
Proof.
  intros Hc Hs Hp HL Hn. unfold over_read, page. rewrite Hc. assert (match p_snap h with Some l => l | None => L end = L) as -> by (destruct Hs as [-> | ->]; reflexivity). cbv zeta.
  destruct (Z.geb_spec (p_cur h) (zlen L)) as [Hg|Hg].
  - exists (PH (p_cur h) false (Some L)). destruct (n <=? 0); cbn [advance]; [rewrite zslice_past by lia; change (zlen (@nil A)) with 0|]; repeat split; cbn; try assumption; try lia; right; reflexivity.
  - rewrite batch_end_fits by lia. destruct (Z.leb_spec n 0).
    + assert ((zlen L <? p_cur h) = false) as -> by lia. eexists. split; [reflexivity|]. cbn [p_closed p_cur advance]. rewrite zlen_page by lia. repeat split; try lia; right; reflexivity.
    + assert ((p_cur h + Z.min n (zlen L - p_cur h) <? p_cur h) = false) as -> by lia. replace (p_cur h + Z.min n (zlen L - p_cur h) - p_cur h) with (Z.min n (zlen L - p_cur h)) by lia.
      eexists. split; [reflexivity|]. cbn [p_closed p_cur advance]. rewrite zlen_page by lia. repeat split; try lia; right; reflexivity.
Qed.

Lemma over_pages {A} (L : list A) : zlen L <= max_int64 -> forall ops, Forall (batch_fits L) ops -> forall h, p_closed h = false -> snap_ok L h -> 0 <= p_cur h <= zlen L ->
  fst (prun (over_read L) (over_seek L) h ops) = pages over_move L (p_cur h) ops.
Proof.
  intros HL. induction 1 as [|[n|o w] ops Hf _ IH]; intros h Hc Hs Hp; [reflexivity| |]; cbn [prun pages].
  - destruct (over_step L n h Hc Hs Hp HL Hf) as (h' & -> & Hc' & Hs' & Ea & Hp'). specialize (IH h' Hc' Hs' Hp'). destruct (prun _ _ h' ops) as [rs h2]. cbn [fst] in *. rewrite IH, Ea. reflexivity.
  - unfold over_seek, over_move, moved. pose proof (zlen_nonneg L). assert (match p_snap h with Some l => l | None => L end = L) as El by (destruct Hs as [-> | ->]; reflexivity).
    destruct (Z.eqb_spec w 0); [subst; change (0 =? 2) with false; cbn [andb]; destruct (o =? 0); cbn [negb]; rewrite IH; cbn; try assumption; try lia; try reflexivity; left; reflexivity|].
    destruct (Z.eqb_spec w 1); [subst; change (1 =? 2) with false; cbn [andb]; rewrite IH; try assumption; reflexivity|]. cbn [andb].
    destruct (Z.eqb_spec w 2); cbn [andb]; [|rewrite IH; try assumption; reflexivity]. cbv zeta. rewrite El.
    destruct (o =? 0); cbn [negb]; rewrite IH; cbn; try assumption; try lia; try reflexivity. right; reflexivity.
Qed.

Lemma zlen_skip {A} (L : list A) p : 0 <= p <= zlen L -> zlen (skipn (Z.to_nat p) L) = zlen L - p.
Proof. intros. unfold zlen in *. rewrite skipn_length. lia. Qed.

Lemma sftp_pages {A} (L : list A) mv : forall ns p h, 0 <= p <= zlen L -> match p_snap h with Some l => l | None => L end = skipn (Z.to_nat p) L ->
  fst (prun (sftp_read L) (sftp_seek L) h (map PRead ns)) = pages mv L p (map PRead ns).
Proof.
  induction ns as [|n ns IH]; intros p h Hp Hs; [reflexivity|]. cbn [map prun pages].
  assert (exists h', sftp_read L n h = (page L p n, h') /\ match p_snap h' with Some l => l | None => L end = skipn (Z.to_nat (advance p (page L p n))) L /\ 0 <= advance p (page L p n) <= zlen L) as (h' & -> & Hs' & Hp').
  { unfold sftp_read, page. rewrite Hs. pose proof (zlen_skip L p Hp) as Hl. destruct (Z.leb_spec n 0).
    - eexists. split; [|split].
      + f_equal. f_equal. unfold zslice. rewrite firstn_all2 by (unfold zlen in *; lia). reflexivity.
      + cbn [p_snap advance]. rewrite zlen_page by lia. rewrite skipn_all2 by (unfold zlen in *; lia). reflexivity.
      + cbn [advance]. rewrite zlen_page by lia. lia.
    - destruct (skipn (Z.to_nat p) L) as [|x l] eqn:E.
      + cbn in Hl. assert ((p >=? zlen L) = true) as -> by lia. eexists. split; [reflexivity|]. cbn [advance p_snap]. rewrite E. split; [reflexivity|lia].
      + assert (0 < zlen (x :: l)) by (unfold zlen; cbn [length]; lia). assert ((p >=? zlen L) = false) as -> by lia. rewrite <- E. rewrite zlen_skip by lia.
        assert ((if n >? zlen L - p then zlen L - p else n) = Z.min n (zlen L - p)) as -> by (destruct (Z.gtb_spec n (zlen L - p)); lia).
        eexists. split; [f_equal|]. cbn [p_snap advance]. rewrite zlen_page by lia. split; [|lia]. rewrite skipn_skipn'. f_equal. lia. }
  specialize (IH _ h' Hp' Hs'). destruct (prun _ _ h' (map PRead ns)) as [rs h2]. cbn [fst] in *. rewrite IH. reflexivity.
Qed.

Lemma over_live {A} : forall (ops : list (list A * pop)), all_fit ops -> forall h, p_closed h = false ->
  (forall L, p_snap h = Some L -> zlen L <= max_int64 /\ (forall all o, In (all, o) ops -> batch_fits L o) /\ 0 <= p_cur h <= zlen L) ->
  (p_snap h = None -> p_cur h = 0) ->
  fst (prun_live over_read over_seek h ops) = live_pages over_move (p_snap h) (p_cur h) ops.
Proof.
  induction ops as [|[all o] ops IH]; intros Hf h Hc Hs Hn; [reflexivity|].
  assert (all_fit ops) as Hf' by (intros L o1 o2 a2 H1 H2; apply (Hf L o1 o2 a2); right; assumption).
  set (L := taken (p_snap h) all).
  assert (zlen L <= max_int64 /\ (forall a2 o2, In (a2, o2) ((all, o) :: ops) -> batch_fits L o2) /\ 0 <= p_cur h <= zlen L) as (HL & Hb & Hp).
  { unfold L, taken. destruct (p_snap h) as [l|] eqn:E; [apply Hs; reflexivity|]. rewrite (Hn eq_refl). split; [apply (Hf all o o all); left; reflexivity|]. split.
    - intros a2 o2 H2. apply (Hf all o o2 a2); [left; reflexivity|exact H2].
    - pose proof (zlen_nonneg all). lia. }
  assert (forall l2 : list A, zlen l2 <= max_int64 -> (forall a2 o2, In (a2, o2) ((all, o) :: ops) -> batch_fits l2 o2) -> forall a2 o2, In (a2, o2) ops -> batch_fits l2 o2) as Hb'
    by (intros l2 _ H2 a2 o2 Hi; apply (H2 a2 o2); right; exact Hi).
  assert (taken (p_snap h) all = L) as EL by reflexivity. clearbody L.
  destruct o as [n|off w]; cbn [prun_live live_pages].
  - assert (exists h', over_read all n h = (page L (p_cur h) n, h') /\ p_closed h' = false /\ p_snap h' = Some L /\ p_cur h' = advance (p_cur h) (page L (p_cur h) n) /\ 0 <= p_cur h' <= zlen L) as (h' & -> & Hc' & Hs' & Ea & Hp').
    { pose proof (Hb all (PRead n) (or_introl eq_refl)) as Hfit. cbn in Hfit.
      assert (over_read all n h = over_read L n (PH (p_cur h) false (Some L))) as ->.
      { unfold over_read. rewrite Hc. cbn [p_closed p_snap p_cur]. unfold taken in EL. rewrite EL. reflexivity. }
      unfold over_read, page. cbn [p_closed p_snap p_cur]. cbv zeta. destruct (Z.geb_spec (p_cur h) (zlen L)) as [Hg|Hg].
      - exists (PH (p_cur h) false (Some L)). destruct (n <=? 0); cbn [advance]; [rewrite zslice_past by lia; change (zlen (@nil A)) with 0|]; repeat split; cbn; lia.
      - rewrite batch_end_fits by lia. destruct (Z.leb_spec n 0).
        + assert ((zlen L <? p_cur h) = false) as -> by lia. eexists. split; [reflexivity|]. cbn [p_closed p_cur p_snap advance]. rewrite zlen_page by lia. repeat split; lia.
        + assert ((p_cur h + Z.min n (zlen L - p_cur h) <? p_cur h) = false) as -> by lia. replace (p_cur h + Z.min n (zlen L - p_cur h) - p_cur h) with (Z.min n (zlen L - p_cur h)) by lia.
          eexists. split; [reflexivity|]. cbn [p_closed p_cur p_snap advance]. rewrite zlen_page by lia. repeat split; lia. }
    rewrite EL. cbv zeta. specialize (IH Hf' h' Hc'). destruct (prun_live _ _ h' ops) as [rs h2]. cbn [fst] in *. rewrite IH, Ea, Hs'; [reflexivity| |congruence].
    intros L2 E2. assert (L2 = L) as -> by congruence. split; [exact HL|]. split; [apply Hb'; assumption|exact Hp'].
  - unfold over_seek, over_move. rewrite EL. pose proof (zlen_nonneg L) as HL0.
    assert (forall L2, p_snap h = Some L2 -> zlen L2 <= max_int64 /\ (forall a2 o2, In (a2, o2) ops -> batch_fits L2 o2) /\ 0 <= p_cur h <= zlen L2) as Hs0.
    { intros L2 E2. destruct (Hs L2 E2) as (X1 & X2 & X3). split; [exact X1|]. split; [|exact X3]. intros a2 o2 Hi. apply (X2 a2 o2). right; exact Hi. }
    destruct (Z.eqb_spec w 0) as [Ew|Ew]; cbn [andb].
    { destruct (off =? 0); cbn [negb].
      - rewrite IH; [reflexivity|assumption..| |]; cbn [p_snap p_cur p_closed]; [discriminate|reflexivity].
      - assert ((w =? 2) = false) as -> by lia. cbn [andb]. apply IH; assumption. }
    destruct (Z.eqb_spec w 1) as [Ew1|Ew1]; [assert ((w =? 2) = false) as -> by lia; cbn [andb]; apply IH; assumption|].
    destruct (w =? 2); cbn [andb]; [|apply IH; assumption]. destruct (off =? 0); cbn [negb]; [|apply IH; assumption].
    unfold taken in EL. rewrite EL. cbv zeta. rewrite IH; [reflexivity|assumption..| |]; cbn [p_snap p_cur p_closed]; [|discriminate].
    intros L2 E2. assert (L2 = L) as -> by congruence. split; [exact HL|]. split; [apply Hb'; assumption|lia].
Qed.

(* Reads alone page through the listing of the first. *)
Lemma live_reads {A} mv (L : list A) : forall (ns : list (list A * Z)) p,
  live_pages mv (Some L) p (map (fun x => (fst x, PRead (snd x))) ns) = pages mv L p (map PRead (map snd ns)).
Proof. induction ns as [|[all n] ns IH]; intros p; [reflexivity|]. cbn [map fst snd live_pages pages taken]. cbv zeta. rewrite IH. reflexivity. Qed.

Lemma sftp_live {A} (L : list A) mv : forall (ns : list (list A * Z)) p h, 0 <= p <= zlen L -> p_snap h = Some (skipn (Z.to_nat p) L) ->
  fst (prun_live sftp_read sftp_seek h (map (fun x => (fst x, PRead (snd x))) ns)) = pages mv L p (map PRead (map snd ns)).
Proof.
  intros ns p h Hp Hs. rewrite <- (sftp_pages L mv (map snd ns) p h Hp) by (rewrite Hs; reflexivity). clear Hp. revert h p Hs.
  induction ns as [|[all n] ns IH]; intros h p Hs; [reflexivity|]. cbn [map fst snd prun_live prun].
  assert (sftp_read all n h = sftp_read L n h) as -> by (unfold sftp_read; rewrite Hs; reflexivity).
  destruct (sftp_read L n h) as [r h'] eqn:E.
  assert (exists p', p_snap h' = Some (skipn (Z.to_nat p') L)) as [p' Hp'].
  { unfold sftp_read in E. rewrite Hs in E. destruct (n <=? 0).
    - exists (zlen L). apply (f_equal snd) in E. cbn in E. subst h'. cbn. f_equal. unfold zlen. rewrite Nat2Z.id, skipn_all. reflexivity.
    - destruct (skipn (Z.to_nat p) L) as [|x l] eqn:Es; apply (f_equal snd) in E; cbn [snd] in E; subst h'; cbn [p_snap].
      + exists p. rewrite Es. reflexivity.
      + rewrite <- Es. rewrite skipn_skipn'. eexists (Z.of_nat _). rewrite Nat2Z.id. reflexivity. }
  specialize (IH h' p' Hp'). destruct (prun_live sftp_read sftp_seek h' _) as [rs h2]. destruct (prun (sftp_read L) (sftp_seek L) h' _) as [rs' h2']. cbn [fst] in *. congruence.
Qed.
Lemma sftp_live_first {A} mv (all : list A) n (ns : list (list A * Z)) :
  fst (prun_live sftp_read sftp_seek fresh (map (fun x => (fst x, PRead (snd x))) ((all, n) :: ns))) = pages mv all 0 (map PRead (map snd ((all, n) :: ns))).
Proof.
  rewrite <- (sftp_live all mv ((all, n) :: ns) 0 (PH 0 false (Some all))); [reflexivity|split; [lia|apply zlen_nonneg]|reflexivity].
Qed.

From Verif Require Import PathLex_Model TarFs_Model TarFs_Spec TarFs_Proofs.
Open Scope Z_scope.
Lemma tar_directory_pages o arch : no_dotted arch -> complete o arch -> forall c h files ordered ops, tfind (tar_new o arch) c = Some (NDir h files ordered) ->
  fst (prun (tar_read (zlen files) ordered) (tar_seek ordered) fresh ops) = pages tar_move ordered 0 ops.
Proof.
  intros Hn Hco c h files ordered ops Hf. pose proof (mcomplete_of o arch Hn Hco) as Hc. pose proof (tidy_find _ (tar_new_tidy o arch Hc) _ _ Hf) as Ht.
  assert (zlen files = zlen ordered) as -> by (inversion Ht; subst; unfold zlen; rewrite !map_length; reflexivity).
  apply (tar_pages ordered ops fresh eq_refl (conj (Z.le_refl 0) (zlen_nonneg ordered))).
Qed.

(* Closed handles. *)
Lemma closed_runs {A} (rd : Z -> ph A -> pres A * ph A) (sk : Z -> Z -> ph A -> bool * ph A) :
  (forall n h, p_closed h = true -> fst (rd n h) = PErr /\ p_closed (snd (rd n h)) = true) ->
  (forall off w h, p_closed h = true -> p_closed (snd (sk off w h)) = true) ->
  forall ops h, p_closed h = true -> Forall (eq PErr) (fst (prun rd sk h ops)).
Proof.
  intros Hr Hs. induction ops as [|[n|off w] ops IH]; intros h H; cbn [prun]; [constructor| |].
  - destruct (Hr n h H) as [E1 E2]. destruct (rd n h) as [r h1]. cbn [fst snd] in *. specialize (IH h1 E2). destruct (prun rd sk h1 ops) as [rs h2]. cbn [fst] in *. constructor; [now symmetry|exact IH].
  - pose proof (Hs off w h H) as E. destruct (sk off w h) as [b h1]. cbn [snd] in E. exact (IH h1 E).
Qed.
Lemma closed_lists_nothing {A} (L : list A) ops h : p_closed h = true ->
  Forall (eq PErr) (fst (prun (tar_read (zlen L) L) (tar_seek L) h ops)) /\
  Forall (eq PErr) (fst (prun (synth_read L) (synth_seek L) h ops)) /\
  Forall (eq PErr) (fst (prun (over_read L) (over_seek L) h ops)).
Proof.
  intros H. split; [|split]; apply closed_runs; auto.
  - intros n k E. unfold tar_read. rewrite E. auto.
  - intros off w k E. unfold tar_seek. rewrite E. exact E.
  - intros n k E. unfold synth_read. rewrite E. auto.
  - intros off w k E. unfold synth_seek. repeat match goal with |- context [if ?b then _ else _] => destruct b end; exact E.
  - intros n k E. unfold over_read. rewrite E. auto.
  - intros off w k E. unfold over_seek. repeat match goal with |- context [if ?b then _ else _] => destruct b end; exact E.
Qed.

Lemma seeks_taken {A} (L : list A) off w h :
  (fst (tar_seek L off w h) = true <-> p_closed h = false /\ ((w = 0 /\ 0 <= off) \/ (w = 1 /\ off = 0) \/ (w = 2 /\ off <= 0))) /\
  (fst (synth_seek L off w h) = true <-> (w = 0 /\ 0 <= off) \/ (w = 1 /\ off = 0) \/ (w = 2 /\ off <= 0)) /\
  (fst (over_seek L off w h) = true <-> off = 0 /\ (w = 0 \/ w = 1 \/ w = 2)).
Proof.
  unfold tar_seek, synth_seek, over_seek. split; [|split].
  - destruct (p_closed h); [cbn; intuition discriminate|].
    destruct (Z.eqb_spec w 0); [cbn; destruct (Z.ltb_spec off 0); cbn; intuition (try discriminate; lia)|].
    destruct (Z.eqb_spec w 1); [cbn; rewrite Z.eqb_eq; intuition lia|].
    destruct (Z.eqb_spec w 2); [|cbn; intuition (try discriminate; lia)]. rewrite Z.gtb_ltb. destruct (Z.ltb_spec 0 off); cbn; intuition (try discriminate; lia).
  - destruct (Z.eqb_spec w 0); [destruct (Z.ltb_spec off 0); cbn; intuition (try discriminate; lia)|].
    destruct (Z.eqb_spec w 1); [cbn; rewrite Z.eqb_eq; intuition lia|].
    destruct (Z.eqb_spec w 2); [|cbn; intuition (try discriminate; lia)]. rewrite Z.gtb_ltb. destruct (Z.ltb_spec 0 off); cbn; intuition (try discriminate; lia).
  - destruct (Z.eqb_spec w 0); [destruct (Z.eqb_spec off 0); cbn; intuition (try discriminate; lia)|].
    destruct (Z.eqb_spec w 1); [cbn; rewrite Z.eqb_eq; intuition lia|].
    destruct (Z.eqb_spec w 2); [|cbn; intuition (try discriminate; lia)]. destruct (Z.eqb_spec off 0); cbn; intuition (try discriminate; lia).
Qed.
