From Verif Require Import Common CommonLemmas MultiRead_Model SeqRead_Model SeqRead_Spec.
Open Scope Z_scope.

(* The live stream is where r.off says. *)
Definition sinv (w : source) (r : seqr) : Prop :=
  q_size r = zlen (src_data w) /\
  match q_cur r with None => True | Some pos => pos = q_off r /\ 0 <= pos <= zlen (src_data w) end.

Lemma seq_loop_spec w : stream_ok w ->
  forall fuel r len mx acc pos, 0 <= len ->
  sinv w r -> q_cur r = Some pos -> pos + len <= zlen (src_data w) ->
  (Z.to_nat len < fuel)%nat -> (mx = true -> pos + len = zlen (src_data w)) ->
  exists data e r', seq_loop fuel w r len mx acc = (SOk (acc ++ data) e, r') /\ sinv w r' /\
    data = zslice (src_data w) pos (zlen data) /\ zlen data <= len /\
    q_opens r' = q_opens r /\
    match e with
    | SNil => zlen data = len /\ mx = false /\ q_cur r' = Some (pos + len)
    | SEof => pos + zlen data = zlen (src_data w)
    | SErr _ => exists t l p, exists c, snd (src_read w t l p) = ROther c
    | SNegOff => False
    end.
Proof.
  intros Hok; induction fuel as [|fuel IH]; intros r len mx acc pos Hlen Hinv Hcur Hb Hf Hmx; [lia|].
  cbn [seq_loop]. destruct (Z.leb_spec len 0) as [Hz|Hp].
  - exists [], (if mx then SEof else SNil), r. rewrite app_nil_r.
    split; [reflexivity|]. split; [exact Hinv|].
    change (zlen (@nil byte)) with 0. rewrite zslice_zero by lia.
    split; [reflexivity|]. split; [lia|]. split; [reflexivity|].
    destruct mx; [specialize (Hmx eq_refl); lia|]. repeat split; try lia.
    rewrite Hcur; f_equal; lia.
  - rewrite Hcur. destruct Hinv as [Hsz Hc]. rewrite Hcur in Hc. destruct Hc as [Hpos Hrange].
    pose proof (Hok (q_t r) len pos Hp ltac:(lia)) as Hread.
    destruct (src_read w (q_t r) len pos) as [n e] eqn:Er. destruct Hread as (Hn & Hn2 & He).
    assert (zlen (zslice (src_data w) pos n) = n) as Hzn by (rewrite zslice_length; lia).
    destruct e as [| |c].
    + destruct (IH (Seqr (q_size r) (Some (pos + n)) (q_off r + n) (q_opens r) (S (q_t r)))
                  (len - n) mx (acc ++ zslice (src_data w) pos n) (pos + n))
        as (data & e' & r' & Hrun & Hinv' & Hdata & Hle & Hop & Hpost); try lia.
      * split; [exact Hsz|]. cbn [q_cur q_off]. lia.
      * reflexivity.
      * exists (zslice (src_data w) pos n ++ data), e', r'.
        split; [rewrite Hrun, <- app_assoc; reflexivity|]. split; [exact Hinv'|].
        rewrite zlen_app, Hzn. pose proof (zlen_nonneg data).
        split; [rewrite zslice_split by lia; congruence|].
        split; [lia|]. split; [exact Hop|].
        destruct e'; try assumption.
        -- destruct Hpost as (H1 & H2 & H3). repeat split; try lia; auto.
           rewrite H3; f_equal; lia.
        -- lia.
    + exists (zslice (src_data w) pos n), SEof. eexists. split; [reflexivity|].
      split; [split; [exact Hsz|exact I]|]. rewrite Hzn. repeat split; try lia.
    + exists (zslice (src_data w) pos n), (SErr c). eexists. split; [reflexivity|].
      split; [split; [exact Hsz|exact I]|]. rewrite Hzn. repeat split; try lia.
      exists (q_t r), len, pos, c. rewrite Er; reflexivity.
Qed.

Definition faults (w : source) : Prop :=
  (exists t off c, 0 <= off < zlen (src_data w) /\ src_open w t off = Some c) \/ (exists t c, src_close w t = Some c) \/
  (exists t l p c, snd (src_read w t l p) = ROther c).

Lemma fault_free_no w : fault_free w -> ~ faults w.
Proof.
  intros (H1 & H2 & H3) [(t & off & c & Ho & H)|[(t & c & H)|(t & l & p & c & H)]].
  - rewrite (H1 _ _ Ho) in H; discriminate. - rewrite H2 in H; discriminate. - exact (H3 _ _ _ _ H).
Qed.

Lemma seq_read_at_spec w r len off :
  stream_ok w -> sinv w r -> 0 <= len ->
  exists data e r', seq_read_at w r len off = (SOk data e, r') /\ sinv w r' /\
    seq_read_spec (src_data w) len off data e /\
    (forall c, e = SErr c -> faults w) /\
    (e = SNil -> 0 <= off -> off < zlen (src_data w) ->
       q_cur r' = Some (off + len) /\
       (q_cur r = Some off -> q_opens r' = q_opens r) /\
       (q_cur r <> Some off -> q_opens r' = off :: q_opens r)).
Proof.
  intros Hok Hinv Hlen. unfold seq_read_at, seq_read_spec.
  destruct (Z.ltb_spec off 0) as [Hneg|Hpos].
  { exists [], SNegOff, r. repeat split; auto; try apply Hinv; intros; try discriminate; try lia. }
  destruct Hinv as [Hsz Hc]. rewrite Hsz.
  destruct (Z.leb_spec (zlen (src_data w)) off) as [Hend|Hin].
  { exists [], SEof, r. repeat split; auto; intros; try discriminate; try lia. }
  set (mx := zlen (src_data w) - off <? len).
  set (l := if mx then zlen (src_data w) - off else len).
  assert (0 <= l <= len /\ off + l <= zlen (src_data w) /\ (mx = true -> off + l = zlen (src_data w)) /\
          (mx = false -> l = len)) as (Hl & Hb & Hm & Hmf).
  { unfold l, mx in *. destruct (Z.ltb_spec (zlen (src_data w) - off) len);
      (repeat split; try lia; intros; try discriminate; lia). }
  (* running the loop from a stream positioned at off *)
  assert (forall r0, sinv w r0 -> q_cur r0 = Some off ->
    exists data e r', seq_loop (S (Z.to_nat l)) w r0 l mx [] = (SOk data e, r') /\ sinv w r' /\
      (data = zslice (src_data w) off (zlen data) /\ zlen data <= len /\
       off + zlen data <= zlen (src_data w) /\
       match e with SNil => zlen data = len | SEof => off + zlen data = zlen (src_data w)
                  | SErr _ => True | SNegOff => False end) /\
      (forall c, e = SErr c -> faults w) /\ q_opens r' = q_opens r0 /\
      (e = SNil -> q_cur r' = Some (off + len))) as Hloop.
  { intros r0 Hi0 Hc0.
    destruct (seq_loop_spec w Hok (S (Z.to_nat l)) r0 l mx [] off) as
      (data & e & r' & Hrun & Hinv' & Hdata & Hle & Hop & Hpost); try assumption; try lia.
    exists data, e, r'. split; [exact Hrun|]. split; [exact Hinv'|]. split.
    - split; [exact Hdata|]. split; [lia|]. split; [lia|].
      destruct e; auto. destruct Hpost as (H1 & H2 & H3). specialize (Hmf H2); lia.
    - split; [|split; [exact Hop|]].
      + intros c ->. destruct Hpost as (t & a & b & c' & H). right; right. exists t, a, b, c'. exact H.
      + intros ->. destruct Hpost as (H1 & H2 & H3). specialize (Hmf H2). rewrite <- Hmf. exact H3. }
  assert (forall r0, q_size r0 = zlen (src_data w) -> q_cur r0 = None ->
    exists data e r',
      match src_open w (q_t r0) off with
      | Some c => (SOk [] (SErr c), Seqr (q_size r0) (q_cur r0) (q_off r0) (off :: q_opens r0) (S (q_t r0)))
      | None => seq_loop (S (Z.to_nat l)) w
            (Seqr (q_size r0) (Some off) off (off :: q_opens r0) (S (q_t r0))) l mx []
      end = (SOk data e, r') /\ sinv w r' /\
      (data = zslice (src_data w) off (zlen data) /\ zlen data <= len /\
       off + zlen data <= zlen (src_data w) /\
       match e with SNil => zlen data = len | SEof => off + zlen data = zlen (src_data w)
                  | SErr _ => True | SNegOff => False end) /\
      (forall c, e = SErr c -> faults w) /\ q_opens r' = off :: q_opens r0 /\
      (e = SNil -> q_cur r' = Some (off + len))) as Hreopen.
  { intros r0 Hs0 Hc0. destruct (src_open w (q_t r0) off) as [c|] eqn:Eo.
    - eexists; eexists; eexists. split; [reflexivity|].
      split; [split; [exact Hs0|cbn [q_cur]; rewrite Hc0; exact I]|].
      change (zlen (@nil byte)) with 0. rewrite zslice_zero by lia.
      repeat split; try lia; try discriminate.
      intros c' _. left. exists (q_t r0), off, c. split; [lia|exact Eo].
    - destruct (Hloop (Seqr (q_size r0) (Some off) off (off :: q_opens r0) (S (q_t r0))))
        as (data & e & r' & Hrun & Hinv' & Hp & Hfl & Hop & Hcr).
      + split; [exact Hs0|]. cbn [q_cur q_off]. lia.
      + reflexivity.
      + exists data, e, r'. rewrite Hrun. auto 10. }
  destruct (q_cur r) as [pos|] eqn:Ecur.
  - destruct Hc as [-> Hr].
    destruct (Z.eqb_spec off (q_off r)) as [Heq|Hne].
    + destruct (Hloop r) as (data & e & r' & Hrun & Hinv' & Hp & Hfl & Hop & Hcr).
      * split; [exact Hsz|]. rewrite Ecur. lia.
      * rewrite Ecur, Heq; reflexivity.
      * exists data, e, r'. split; [exact Hrun|]. split; [exact Hinv'|].
        split; [exact Hp|]. split; [exact Hfl|]. intros He _ _. split; [auto|].
        split; [auto|]. intros Hx; congruence.
    + destruct (src_close w (q_t r)) as [c|] eqn:Ecl.
      * eexists; eexists; eexists. split; [reflexivity|]. split; [split; [reflexivity|exact I]|].
        change (zlen (@nil byte)) with 0. rewrite zslice_zero by lia.
        repeat split; try lia; try discriminate. intros c' _. right; left; eauto.
      * destruct (Hreopen (Seqr (q_size r) None (q_off r) (q_opens r) (S (q_t r))))
          as (data & e & r' & Hrun & Hinv' & Hp & Hfl & Hop & Hcr); [exact Hsz|reflexivity|].
        cbn [q_size q_cur q_off q_opens q_t] in Hrun. rewrite Hsz in Hrun.
        exists data, e, r'. split; [exact Hrun|]. split; [exact Hinv'|].
        split; [exact Hp|]. split; [exact Hfl|]. intros He _ _. split; [auto|].
        split; [intros Hx; congruence|auto].
  - destruct (Hreopen r Hsz Ecur) as (data & e & r' & Hrun & Hinv' & Hp & Hfl & Hop & Hcr).
    rewrite ?Hsz, ?Ecur in Hrun.
    exists data, e, r'. split; [exact Hrun|]. split; [exact Hinv'|].
    split; [exact Hp|]. split; [exact Hfl|]. intros He _ _. split; [auto|].
    split; [intros Hx; congruence|auto].
Qed.

Lemma sstep_spec w r o :
  stream_ok w -> sinv w r -> (match o with SReadAt l _ => 0 <= l | SClose => True end) ->
  sinv w (snd (sstep w r o)) /\ out_ok (src_data w) o (fst (sstep w r o)) /\
  (forall d c, fst (sstep w r o) = SOutRead (SOk d (SErr c)) -> faults w).
Proof.
  intros Hok Hinv Hop. destruct o as [l off|]; cbn [sstep].
  - destruct (seq_read_at_spec w r l off Hok Hinv Hop) as (data & e & r' & Hrun & Hi & Hs & Hf & _).
    rewrite Hrun. cbn [fst snd out_ok]. repeat split; try assumption; try apply Hi.
    intros d c Heq; injection Heq as -> ->. eapply Hf; reflexivity.
  - unfold seq_close. destruct Hinv as [Hsz Hc].
    destruct (q_cur r) as [pos|] eqn:E; cbn [fst snd out_ok];
      (split; [split; [exact Hsz|]|split; [exact I|discriminate]]).
    + exact I. + rewrite E; exact I.
Qed.

Lemma srun_spec w ops : stream_ok w ->
  Forall (fun o => match o with SReadAt l _ => 0 <= l | SClose => True end) ops ->
  forall r, sinv w r -> Forall2 (out_ok (src_data w)) ops (fst (srun w r ops)).
Proof.
  intros Hok; induction 1 as [|o ops Ho Hops IH]; intros r Hinv; cbn [srun]; [constructor|].
  pose proof (sstep_spec w r o Hok Hinv Ho) as (H1 & H2 & _).
  destruct (sstep w r o) as [x r']; cbn [fst snd] in *.
  specialize (IH r' H1). destruct (srun w r' ops) as [xs r'']; cbn [fst] in *.
  constructor; assumption.
Qed.

Lemma seq_new_inv w : sinv w (new_seq (zlen (src_data w))).
Proof. split; [reflexivity|exact I]. Qed.

Lemma seq_history w ops : stream_ok w ->
  Forall (fun o => match o with SReadAt l _ => 0 <= l | SClose => True end) ops ->
  Forall2 (out_ok (src_data w)) ops (fst (srun w (new_seq (zlen (src_data w))) ops)).
Proof. intros Hok Hops. apply srun_spec; auto using seq_new_inv. Qed.

(* Fault free: fully determined. *)
Lemma spec_to_exact d len off data e :
  0 <= off < zlen d -> 0 <= len -> seq_read_spec d len off data e -> (forall c, e <> SErr c) ->
  seq_read_exact d len off (SOutRead (SOk data e)).
Proof.
  intros Hoff Hlen Hs Hne. unfold seq_read_spec in Hs.
  destruct (Z.ltb_spec off 0); [lia|]. destruct (Z.leb_spec (zlen d) off); [lia|].
  destruct Hs as (Hd & Hle & Hb & He).
  pose proof (zslice_length d off len ltac:(lia) Hlen) as Hzl.
  assert (zlen data = zlen (zslice d off len)) as Heq.
  { destruct e; try lia; try contradiction. exfalso; eapply Hne; reflexivity. }
  assert (data = zslice d off len) as Hdata.
  { rewrite Hd. destruct (Z.eq_dec (zlen data) len) as [->|]; [reflexivity|].
    rewrite (zslice_clip d off len) by lia. f_equal; lia. }
  exists e. rewrite <- Hdata. split; [reflexivity|].
  destruct e; try contradiction.
  - split; [intros; lia|auto].
  - split; [auto|intros; right; split; [reflexivity|lia]].
  - exfalso; eapply Hne; reflexivity.
Qed.

Lemma srun_exact w ops : stream_ok w -> fault_free w ->
  Forall (fun o => match o with SReadAt l off => 0 <= l /\ 0 <= off < zlen (src_data w) | SClose => True end) ops ->
  forall r, sinv w r ->
  Forall2 (fun o x => match o with SReadAt l off => seq_read_exact (src_data w) l off x
                                 | SClose => x = SOutClose None end) ops (fst (srun w r ops)).
Proof.
  intros Hok Hff; induction 1 as [|o ops Ho Hops IH]; intros r Hinv; cbn [srun]; [constructor|].
  assert (match o with SReadAt l _ => 0 <= l | SClose => True end) as Ho'
    by (destruct o; [apply Ho|exact I]).
  pose proof (sstep_spec w r o Hok Hinv Ho') as (H1 & H2 & H3).
  destruct (sstep w r o) as [x r'] eqn:Es; cbn [fst snd] in *.
  specialize (IH r' H1). destruct (srun w r' ops) as [xs r'']; cbn [fst] in *.
  constructor; [|exact IH].
  destruct o as [l off|].
  - destruct x as [[data e|]|]; try contradiction. cbn [out_ok] in H2.
    apply spec_to_exact; try tauto. intros c ->.
    apply (fault_free_no _ Hff). eapply H3; reflexivity.
  - cbn [sstep] in Es. unfold seq_close in Es. destruct (q_cur r); injection Es as <- <-.
    + f_equal. apply (proj1 (proj2 Hff)).
    + reflexivity.
Qed.

Lemma seq_history_exact w ops : stream_ok w -> fault_free w ->
  Forall (fun o => match o with SReadAt l off => 0 <= l /\ 0 <= off < zlen (src_data w) | SClose => True end) ops ->
  Forall2 (fun o x => match o with SReadAt l off => seq_read_exact (src_data w) l off x
                                 | SClose => x = SOutClose None end) ops
    (fst (srun w (new_seq (zlen (src_data w))) ops)).
Proof. intros; apply srun_exact; auto using seq_new_inv. Qed.

(* One open for a contiguous run that stays strictly inside the content. *)
Lemma contiguous_opens w lens : stream_ok w -> fault_free w -> Forall (fun l => 0 < l) lens ->
  forall r off, sinv w r -> 0 <= off -> off + zsum lens < zlen (src_data w) ->
  q_cur r = Some off ->
  q_opens (snd (srun w r (contiguous off lens))) = q_opens r.
Proof.
  intros Hok Hff Hl; induction Hl as [|l lens Hl0 Hl IH]; intros r off Hinv Hoff Hb Hcur;
    cbn [contiguous srun]; [reflexivity|].
  assert (0 <= zsum lens) as Hs0.
  { clear -Hl. induction Hl; cbn [zsum]; lia. }
  cbn [zsum] in Hb. cbn [sstep].
  destruct (seq_read_at_spec w r l off Hok Hinv ltac:(lia)) as
    (data & e & r' & Hrun & Hi & Hsp & Hf & Hnil).
  rewrite Hrun.
  assert (e = SNil) as ->.
  { unfold seq_read_spec in Hsp.
    destruct (Z.ltb_spec off 0); [lia|]. destruct (Z.leb_spec (zlen (src_data w)) off); [lia|].
    destruct Hsp as (_ & H1 & H2 & H3). destruct e; auto; try lia; try contradiction.
    exfalso; eapply fault_free_no; [exact Hff|eapply Hf; reflexivity]. }
  destruct (Hnil eq_refl ltac:(lia) ltac:(lia)) as (Hc' & Hsame & _).
  specialize (IH r' (off + l) Hi ltac:(lia) ltac:(lia) Hc').
  destruct (srun w r' (contiguous (off + l) lens)) as [xs r'']; cbn [snd] in *.
  rewrite IH. auto.
Qed.

Lemma seq_one_open w lens off : stream_ok w -> fault_free w -> Forall (fun l => 0 < l) lens ->
  lens <> [] -> 0 <= off -> off + zsum lens < zlen (src_data w) ->
  q_opens (snd (srun w (new_seq (zlen (src_data w))) (contiguous off lens))) = [off].
Proof.
  intros Hok Hff Hl Hne Hoff Hb. destruct lens as [|l lens]; [congruence|].
  cbn [contiguous srun sstep].
  pose proof (Forall_inv Hl) as Hl0; cbn beta in Hl0. pose proof (Forall_inv_tail Hl) as Hlt.
  assert (0 <= zsum lens) as Hs0.
  { clear -Hlt. induction Hlt; cbn [zsum]; lia. }
  cbn [zsum] in Hb.
  destruct (seq_read_at_spec w (new_seq (zlen (src_data w))) l off Hok (seq_new_inv w) ltac:(lia)) as
    (data & e & r' & Hrun & Hi & Hsp & Hf & Hnil).
  rewrite Hrun.
  assert (e = SNil) as ->.
  { unfold seq_read_spec in Hsp.
    destruct (Z.ltb_spec off 0); [lia|]. destruct (Z.leb_spec (zlen (src_data w)) off); [lia|].
    destruct Hsp as (_ & H1 & H2 & H3). destruct e; auto; try lia; try contradiction.
    exfalso; eapply fault_free_no; [exact Hff|eapply Hf; reflexivity]. }
  destruct (Hnil eq_refl ltac:(lia) ltac:(lia)) as (Hc' & _ & Hnew).
  pose proof (contiguous_opens w lens Hok Hff Hlt r' (off + l) Hi ltac:(lia) ltac:(lia) Hc') as H.
  destruct (srun w r' (contiguous (off + l) lens)) as [xs r'']; cbn [snd] in *.
  rewrite H, Hnew; [reflexivity|discriminate].
Qed.

(* ---------- example source: two bytes per Read, io.EOF reported late ---------- *)
Definition drip (d : list byte) : source :=
  Source d (fun _ _ => None) (fun _ => None)
    (fun _ len pos => let n := Z.min 2 (Z.min len (zlen d - pos)) in
                      (n, if n <=? 0 then REof else RNil)).

Lemma drip_ok d : stream_ok (drip d) /\ fault_free (drip d).
Proof.
  split.
  - intros t len pos Hlen Hpos. cbn [drip src_read src_data] in *.
    destruct (Z.leb_spec (Z.min 2 (Z.min len (zlen d - pos))) 0); repeat split; try lia.
  - split; [reflexivity|]. split; [reflexivity|]. intros t len pos c; cbn [drip src_read snd].
    destruct (_ <=? _); discriminate.
Qed.
