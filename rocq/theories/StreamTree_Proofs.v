From Verif Require Import Common CommonLemmas MultiRead_Model MultiRead_Spec MultiRead_Proofs
  SeqRead_Model SeqRead_Spec SeqRead_Proofs StreamTree_Model StreamTree_Spec.
Open Scope Z_scope.

(* [built] with live streams. *)
Inductive inv (f : bool) : rd -> list byte -> Prop :=
| ILeaf s t d : honest f s d -> inv f (RLeaf s t) d
| IRepeat b base n : 0 <= base -> 0 <= n ->
    inv f (RSection base (base + n) (RRepeat b)) (repeat b (Z.to_nat n))
| ISection r d base n : inv f r d -> 0 <= base -> 0 <= n ->
    inv f (RSection base (base + n) r) (zslice d base n)
| ISeq w q : stream_ok w -> (f = false -> fault_free w) -> sinv w q -> inv f (RSeq w q) (src_data w)
| IMulti rs ds : inv_all f rs ds -> zlen (concat ds) <= max_int64 -> inv f (RMulti rs) (concat ds)
with inv_all (f : bool) : list (Z * rd) -> list (list byte) -> Prop :=
| INil : inv_all f [] []
| ICons z r d rs ds : inv f r d -> z = zlen d -> inv_all f rs ds -> inv_all f ((z, r) :: rs) (d :: ds).

Scheme built_mind := Minimality for built Sort Prop
  with built_all_mind := Minimality for built_all Sort Prop.

Lemma section_limit off n : off + n <= max_int64 -> (if off <=? max_int64 - n then n + off else max_int64) = off + n.
Proof. intros H. destruct (Z.leb_spec off (max_int64 - n)); lia. Qed.

Lemma built_inv f r d : built f r d -> inv f r d.
Proof.
  revert r d. apply (built_mind f (inv f) (inv_all f)); intros; unfold new_section;
    rewrite ?section_limit by assumption.
  - constructor; assumption. - constructor; assumption. - constructor; assumption.
  - constructor; try assumption. apply seq_new_inv.
  - constructor; assumption. - constructor. - constructor; assumption.
Qed.

Lemma built_all_inv f rs ds : built_all f rs ds -> inv_all f rs ds.
Proof. induction 1; constructor; auto using built_inv. Qed.

(* ---- the segments of one multi reader ---- *)

Definition okp (f : bool) (k : nat) (p : Z * rd) (d : list byte) : Prop :=
  inv f (snd p) d /\ (depth (snd p) <= k)%nat /\ fst p = zlen d.
Definition ok_all f k rs ds := Forall2 (okp f k) rs ds.

Lemma list_max_bound l k : (list_max l <= k)%nat -> Forall (fun x => (x <= k)%nat) l.
Proof. intros H. apply list_max_le. exact H. Qed.

Lemma inv_all_ok f k rs ds : inv_all f rs ds -> (list_max (map (fun p => depth (snd p)) rs) <= k)%nat ->
  ok_all f k rs ds.
Proof.
  intros H Hk. apply list_max_bound in Hk. revert Hk.
  induction H as [|z r d rs ds Hi Hz H IH]; intros Hk; constructor.
  - inversion Hk; subst. split; [exact Hi|]. split; [assumption|reflexivity].
  - inversion Hk; subst. apply IH; assumption.
Qed.

Lemma ok_all_inv f k rs ds : ok_all f k rs ds ->
  inv_all f rs ds /\ (list_max (map (fun p => depth (snd p)) rs) <= k)%nat.
Proof.
  intros H. split.
  - induction H as [|[z r] d rs ds (H1 & H2 & H3) H IH]; constructor; assumption.
  - apply list_max_le. apply Forall_forall. intros x Hx. apply in_map_iff in Hx. destruct Hx as (p & <- & Hp).
    induction H as [|q d rs ds (H1 & H2 & H3) H IH]; [destruct Hp|]. destruct Hp as [->|Hp]; auto.
Qed.

Definition shadow (rs : list (Z * rd)) : list segment :=
  map (fun p => Seg (fun _ _ _ => ([], RNil)) (fst p)) rs.

Lemma wrap_id z : 0 <= z <= max_int64 -> wrap64 z = z.
Proof. unfold wrap64, max_int64. intros H. rewrite Z.mod_small; lia. Qed.

Lemma ok_sizes f k rs ds : ok_all f k rs ds -> sizes_ok (shadow rs).
Proof.
  induction 1 as [|p d rs ds (H1 & H2 & H3) H IH]; constructor; auto.
  cbn [sg_size]. rewrite H3. apply zlen_nonneg.
Qed.

Lemma ok_total f k rs ds : ok_all f k rs ds -> declared_total (shadow rs) = zlen (concat ds).
Proof.
  induction 1 as [|p d rs ds (H1 & H2 & H3) H IH]; [reflexivity|].
  cbn [shadow map concat]. rewrite zlen_app.
  change (sg_size (Seg (fun _ _ _ => ([], RNil)) (fst p)) + declared_total (shadow rs) = zlen d + zlen (concat ds)).
  cbn [sg_size]. lia.
Qed.

Lemma heads_translate f k rs ds : ok_all f k rs ds -> forall a, 0 <= a -> a + zlen (concat ds) <= max_int64 ->
  heads a rs = translate a (shadow rs) /\ upper a rs = a + zlen (concat ds).
Proof.
  induction 1 as [|[z r] d rs ds (H1 & H2 & H3) H IH]; intros a Ha Hb.
  - cbn. split; [reflexivity|lia].
  - cbn [concat] in *. rewrite zlen_app in *. cbn [fst] in H3. subst z.
    pose proof (zlen_nonneg d). pose proof (zlen_nonneg (concat ds)).
    cbn [heads upper shadow map translate fst]. rewrite wrap_id by lia. cbn [sg_size].
    destruct (IH (a + zlen d)) as [E1 E2]; [lia|lia|]. rewrite E1, E2. split; [reflexivity|lia].
Qed.

Lemma shadow_set i z r r' rs : nth_error rs i = Some (z, r) -> shadow (set_nth i (z, r') rs) = shadow rs.
Proof.
  revert i; induction rs as [|p rs IH]; intros [|i] H; cbn in *; try discriminate.
  - injection H as ->. reflexivity.
  - f_equal. apply IH, H.
Qed.
Lemma length_set {A} i (x : A) l : length (set_nth i x l) = length l.
Proof. revert i; induction l as [|y l IH]; intros [|i]; cbn; auto. Qed.
Lemma nth_set_same {A} i (x y : A) l : nth_error l i = Some y -> nth_error (set_nth i x l) i = Some x.
Proof. revert i; induction l as [|z l IH]; intros [|i] H; cbn in *; try discriminate; auto. Qed.
Lemma nth_set_other {A} i j (x : A) l : i <> j -> nth_error (set_nth i x l) j = nth_error l j.
Proof. revert i j; induction l as [|z l IH]; intros [|i] [|j] H; cbn; auto; try congruence. Qed.

Lemma ok_set f k rs ds i z r r' d : ok_all f k rs ds -> nth_error rs i = Some (z, r) -> nth_error ds i = Some d ->
  inv f r' d -> (depth r' <= k)%nat -> ok_all f k (set_nth i (z, r') rs) ds.
Proof.
  intros H; revert i; induction H as [|p d0 rs ds (H1 & H2 & H3) H IH]; intros [|i] Hr Hd Hi Hk;
    cbn in *; try discriminate.
  - injection Hr as ->. injection Hd as ->. constructor; [|exact H]. split; [exact Hi|]. split; [exact Hk|exact H3].
  - constructor; [split; [exact H1|split; assumption]|]. apply IH; assumption.
Qed.

(* What lies in segment i. *)
Lemma at_seg f k rs ds i z r : ok_all f k rs ds -> nth_error rs i = Some (z, r) ->
  exists d, nth_error ds i = Some d /\ inv f r d /\ (depth r <= k)%nat /\ z = zlen d /\
    0 <= head_of (shadow rs) i /\ head_of (shadow rs) i + zlen d <= zlen (concat ds) /\
    (S i = length rs -> head_of (shadow rs) i + zlen d = zlen (concat ds)) /\
    (forall off n, head_of (shadow rs) i <= off -> 0 <= n -> off - head_of (shadow rs) i + n <= zlen d ->
       zslice (concat ds) off n = zslice d (off - head_of (shadow rs) i) n).
Proof.
  intros H; revert i; induction H as [|p d rs ds (H1 & H2 & H3) H IH]; intros [|i] Hr; cbn [nth_error] in *; try discriminate.
  - injection Hr as ->. cbn [fst snd] in *. exists d. split; [reflexivity|]. split; [exact H1|].
    split; [exact H2|]. split; [exact H3|]. rewrite head_of_0. cbn [concat]. rewrite zlen_app.
    pose proof (zlen_nonneg (concat ds)). split; [lia|]. split; [lia|]. split.
    + intros E. assert (rs = []) as -> by (destruct rs; [reflexivity|cbn in E; lia]).
      inversion H; subst. cbn. lia.
    + intros off n Ho Hn Hb. rewrite zslice_app_l by lia. f_equal; lia.
  - destruct (IH i Hr) as (d' & G1 & G2 & G3 & G4 & G5 & G6 & G7 & G8).
    exists d'. split; [exact G1|]. split; [exact G2|]. split; [exact G3|]. split; [exact G4|].
    cbn [shadow map]. rewrite head_of_cons. cbn [sg_size]. fold (shadow rs). rewrite H3.
    pose proof (zlen_nonneg d). cbn [concat]. rewrite zlen_app. split; [lia|]. split; [lia|]. split.
    + intros E. cbn [length] in E. specialize (G7 ltac:(lia)). lia.
    + intros off n Ho Hn Hb. rewrite zslice_app_r by lia. rewrite G8 by lia. f_equal; lia.
Qed.

Lemma shadow_nth rs i s : nth_error (shadow rs) i = Some s ->
  exists r, nth_error rs i = Some (sg_size s, r).
Proof.
  unfold shadow. rewrite nth_error_map. destruct (nth_error rs i) as [[z r]|]; [|discriminate].
  intros E. injection E as <-. exists r. reflexivity.
Qed.

(* What one ReadAt of a reader guarantees. *)
Definition sound (f : bool) (k : nat) (ask : rd -> Z -> Z -> answer) : Prop :=
  forall r d len off, inv f r d -> (depth r <= k)%nat -> 0 <= len ->
    exists data e r', ask r len off = Some (data, e, r') /\ inv f r' d /\ (depth r' <= k)%nat /\
      reads d len off data (x_ending e) /\ (f = false -> 0 <= off -> x_ending e <> Failed).

Lemma seg_err_spec d len ro data e more :
  0 <= ro < zlen d -> reads d len ro data (x_ending e) ->
  zlen data <= zlen d - ro /\
  match seg_err (zlen d - ro) (zlen data) more e with
  | XNil => (e = XNil /\ zlen data = len) \/ (e = XEof /\ more = true /\ ro + zlen data = zlen d /\ 0 < zlen data)
  | XEof => e = XEof /\ more = false /\ ro + zlen data = zlen d /\ 0 < zlen data
  | XErr c => e = XErr c
  end.
Proof.
  intros Hro H. unfold reads in H. destruct (Z.ltb_spec ro 0); [lia|]. destruct H as (Hd & Hl & He).
  pose proof (zlen_nonneg data).
  assert (zlen data <= zlen d - ro) as Hle.
  { rewrite Hd. rewrite zslice_length by lia. lia. }
  split; [exact Hle|]. unfold seg_err. destruct e as [| |c]; cbn [x_ending] in He; [| |reflexivity].
  - destruct (Z.ltb_spec (zlen d - ro) (zlen data)); [lia|]. cbn [andb]. left. auto.
  - destruct (Z.ltb_spec (zlen d - ro) (zlen data)); [lia|]. cbn [andb].
    destruct (Z.eqb_spec (zlen data) 0); cbn [andb].
    + lia.
    + destruct more; [right|]; repeat split; try lia; auto.
Qed.

Lemma read1_spec f k ask rs ds i s len off : sound f k ask -> ok_all f k rs ds -> zlen (concat ds) <= max_int64 ->
  0 <= len -> 0 <= off -> located (shadow rs) i s off ->
  exists data e rs', multi_read1 ask rs len off = Some (data, e, rs') /\ ok_all f k rs' ds /\
    shadow rs' = shadow rs /\ length rs' = length rs /\
    data = zslice (concat ds) off (zlen data) /\ zlen data <= len /\
    match e with
    | XNil => zlen data = len \/ (off + zlen data = head_of (shadow rs) i + sg_size s /\ 0 < zlen data)
    | XEof => off + zlen data = zlen (concat ds)
    | XErr _ => f = true
    end.
Proof.
  intros Hask Hok Hmax Hlen Hoff Hl.
  destruct (heads_translate f k rs ds Hok 0 ltac:(lia) ltac:(lia)) as [Eh Eu].
  pose proof Hl as [Hn Hr].
  destruct (shadow_nth _ _ _ Hn) as (r & Er).
  destruct (at_seg _ _ _ _ _ _ _ Hok Er) as (d & Ed & Hi & Hk & Hz & Hh & Hb & Hlast & Hc).
  unfold multi_read1. rewrite Eh, Eu.
  destruct (Z.ltb_spec off 0); [lia|]. destruct (Z.leb_spec (0 + zlen (concat ds)) off); [lia|]. cbn [orb].
  rewrite (search_spec (shadow rs) 0 off i s (ok_sizes _ _ _ _ Hok)) by (rewrite Z.sub_0_r; exact Hl).
  rewrite nth_translate, Hn, Er. cbn [option_map sz_head]. rewrite Z.add_0_l.
  set (hd := head_of (shadow rs) i) in *.
  destruct (Hask r d len (off - hd) Hi Hk Hlen) as (data & e & r' & Ea & Hi' & Hk' & Hrd & Hf).
  rewrite Ea. rewrite Hz in *.
  destruct (seg_err_spec d len (off - hd) data e (Z.of_nat i <? zlen rs - 1) ltac:(lia) Hrd) as [Hle He].
  exists data, (seg_err (zlen d - (off - hd)) (zlen data) (Z.of_nat i <? zlen rs - 1) e), (set_nth i (zlen d, r') rs).
  split; [reflexivity|]. split; [eapply ok_set; eassumption|].
  split; [eapply shadow_set; exact Er|]. split; [apply length_set|].
  unfold reads in Hrd. destruct (Z.ltb_spec (off - hd) 0); [lia|]. destruct Hrd as (Hd & Hll & _).
  pose proof (zlen_nonneg data).
  split; [rewrite Hc by lia; exact Hd|]. split; [exact Hll|].
  destruct (seg_err _ _ _ _) as [| |c].
  - destruct He as [[-> E]|(-> & _ & E & P)]; [left; exact E|right; lia].
  - destruct He as (-> & Hm & E & P). destruct (Z.ltb_spec (Z.of_nat i) (zlen rs - 1)) as [|Hge]; [discriminate|].
    assert (i < length rs)%nat by (apply nth_error_Some; rewrite Er; discriminate).
    unfold zlen in Hge. rewrite Hlast in * by lia. lia.
  - subst e. destruct f; [reflexivity|]. exfalso. apply Hf; [reflexivity|lia|reflexivity].
Qed.

Lemma loop_spec f k ask ds : sound f k ask -> zlen (concat ds) <= max_int64 ->
  forall fuel rs i s len off mx acc, ok_all f k rs ds -> 0 <= len -> 0 <= off ->
  located (shadow rs) i s off -> off + len <= zlen (concat ds) -> (length rs - i < fuel)%nat ->
  exists data e rs', multi_loop fuel ask rs len off mx acc = Some (acc ++ data, e, rs') /\ ok_all f k rs' ds /\
    data = zslice (concat ds) off (zlen data) /\ zlen data <= len /\
    match e with
    | XNil => zlen data = len /\ mx = false
    | XEof => off + zlen data = zlen (concat ds) \/ (zlen data = len /\ mx = true)
    | XErr _ => f = true
    end.
Proof.
  intros Hask Hmax. induction fuel as [|fuel IH]; intros rs i s len off mx acc Hok Hlen Hoff Hl Hb Hfu; [lia|].
  cbn [multi_loop].
  destruct (read1_spec f k ask rs ds i s len off Hask Hok Hmax Hlen Hoff Hl)
    as (data & e & rs' & Er & Hok' & Hsh & Hlg & Hd & Hle & He).
  rewrite Er. pose proof (zlen_nonneg data).
  destruct (Z.eqb_spec (zlen data) len) as [Heq|Hne]; cbn [orb].
  - exists data. eexists. exists rs'. split; [reflexivity|]. split; [exact Hok'|]. split; [exact Hd|]. split; [exact Hle|].
    destruct e as [| |c]; [|rewrite andb_false_r; left; exact He|rewrite andb_false_r; exact He].
    destruct mx; cbn [andb]; [right; auto|auto].
  - destruct e as [| |c]; cbn [negb].
    + destruct He as [He|[He Hp]]; [contradiction|].
      assert (sizes_ok (shadow rs')) as Hs by (eapply ok_sizes; exact Hok').
      destruct (located_exists (shadow rs') (off + zlen data) Hs) as (j & s' & Hl').
      { rewrite (ok_total _ _ _ _ Hok'). lia. }
      assert (i < j)%nat as Hij.
      { rewrite Hsh in Hl'. pose proof (ok_sizes _ _ _ _ Hok) as Hs0.
        assert (i <= j)%nat by (eapply located_mono; [exact Hs0|exact Hl|exact Hl'|lia]).
        destruct (Nat.eq_dec i j) as [<-|]; [|lia]. destruct Hl as [L1 L2], Hl' as [L3 L4].
        rewrite L1 in L3. injection L3 as <-. lia. }
      assert (j < length rs')%nat as Hjl.
      { destruct Hl' as [L _]. assert (j < length (shadow rs'))%nat by (apply nth_error_Some; rewrite L; discriminate).
        unfold shadow in H0. rewrite map_length in H0. exact H0. }
      destruct (IH rs' j s' (len - zlen data) (off + zlen data) mx (acc ++ data) Hok' ltac:(lia) ltac:(lia) Hl' ltac:(lia) ltac:(lia))
        as (data2 & e2 & rs2 & E2 & Hok2 & Hd2 & Hle2 & He2).
      exists (data ++ data2), e2, rs2. rewrite E2, <- app_assoc. split; [reflexivity|]. split; [exact Hok2|].
      rewrite zlen_app. pose proof (zlen_nonneg data2).
      split; [rewrite zslice_split by lia; rewrite <- Hd, <- Hd2; reflexivity|]. split; [lia|].
      destruct e2; [|destruct He2; [left|right]|]; try lia; try assumption.
    + exists data. eexists. exists rs'. split; [reflexivity|]. split; [exact Hok'|]. split; [exact Hd|]. split; [exact Hle|].
      rewrite andb_false_r. left. exact He.
    + exists data. eexists. exists rs'. split; [reflexivity|]. split; [exact Hok'|]. split; [exact Hd|]. split; [exact Hle|].
      rewrite andb_false_r. exact He.
Qed.

Lemma multi_spec f k ask rs ds len off : sound f k ask -> ok_all f k rs ds -> zlen (concat ds) <= max_int64 -> 0 <= len ->
  exists data e rs', multi_read_at ask rs len off = Some (data, e, rs') /\ ok_all f k rs' ds /\
    reads (concat ds) len off data (x_ending e) /\ (f = false -> 0 <= off -> x_ending e <> Failed).
Proof.
  intros Hask Hok Hmax Hlen.
  destruct (heads_translate f k rs ds Hok 0 ltac:(lia) ltac:(lia)) as [_ Eu].
  unfold multi_read_at. rewrite Eu. rewrite Z.add_0_l.
  destruct (Z.ltb_spec off 0) as [Hneg|Hpos]; cbn [orb].
  { exists [], XEof, rs. split; [reflexivity|]. split; [exact Hok|].
    unfold reads. destruct (Z.ltb_spec off 0); [|lia]. split; [split; [reflexivity|discriminate]|discriminate]. }
  destruct (Z.leb_spec (zlen (concat ds)) off) as [Hpast|Hin].
  { exists [], XEof, rs. split; [reflexivity|]. split; [exact Hok|].
    unfold reads. destruct (Z.ltb_spec off 0); [lia|]. split; [|discriminate].
    change (zlen (@nil byte)) with 0. rewrite zslice_zero by lia. cbn [x_ending]. repeat split; lia. }
  destruct (located_exists (shadow rs) off (ok_sizes _ _ _ _ Hok)) as (i & s & Hl).
  { rewrite (ok_total _ _ _ _ Hok). lia. }
  destruct (Z.ltb_spec (zlen (concat ds) - off) len) as [Hx|Hx].
  - destruct (loop_spec f k ask ds Hask Hmax (S (length rs)) rs i s (zlen (concat ds) - off) off true [] Hok
        ltac:(lia) Hpos Hl ltac:(lia) ltac:(lia)) as (data & e & rs' & E & Hok' & Hd & Hle & He).
    exists data, e, rs'. rewrite E. split; [reflexivity|]. split; [exact Hok'|].
    unfold reads. destruct (Z.ltb_spec off 0); [lia|]. split; [|destruct e; cbn; intros; congruence].
    split; [exact Hd|]. split; [lia|]. destruct e; cbn [x_ending]; try exact I; [destruct He; discriminate|].
    destruct He; lia.
  - destruct (loop_spec f k ask ds Hask Hmax (S (length rs)) rs i s len off false [] Hok
        ltac:(lia) Hpos Hl ltac:(lia) ltac:(lia)) as (data & e & rs' & E & Hok' & Hd & Hle & He).
    exists data, e, rs'. rewrite E. split; [reflexivity|]. split; [exact Hok'|].
    unfold reads. destruct (Z.ltb_spec off 0); [lia|]. split; [|destruct e; cbn; intros; congruence].
    split; [exact Hd|]. split; [lia|]. destruct e; cbn [x_ending]; try exact I; [apply He|].
    destruct He as [He|[_ He]]; [lia|discriminate].
Qed.

(* ---- sections ---- *)

Lemma repeat_slice (b : byte) n off m : 0 <= off -> 0 <= m -> off + m <= n ->
  zslice (repeat b (Z.to_nat n)) off m = repeat b (Z.to_nat m).
Proof.
  intros Ho Hm Hb. unfold zslice.
  replace (Z.to_nat n) with (Z.to_nat off + (Z.to_nat m + Z.to_nat (n - off - m)))%nat by lia.
  rewrite !repeat_app. rewrite skipn_app, skipn_all2 by (rewrite repeat_length; lia).
  rewrite repeat_length, Nat.sub_diag. cbn [app skipn].
  rewrite firstn_app, firstn_all2 by (rewrite repeat_length; lia).
  rewrite repeat_length, Nat.sub_diag. cbn [firstn]. apply app_nil_r.
Qed.

Lemma zlen_repeat (b : byte) n : 0 <= n -> zlen (repeat b (Z.to_nat n)) = n.
Proof. intros H. unfold zlen. rewrite repeat_length. lia. Qed.

Lemma zslice_in_slice (d : list byte) base n off m : 0 <= base -> 0 <= off -> 0 <= m -> off + m <= n ->
  zslice (zslice d base n) off m = zslice d (base + off) m.
Proof.
  intros Hb Ho Hm Hn. unfold zslice.
  rewrite skipn_firstn_comm, firstn_firstn, skipn_skipn'.
  replace (Nat.min (Z.to_nat m) (Z.to_nat n - Z.to_nat off)) with (Z.to_nat m) by lia.
  f_equal. f_equal. lia.
Qed.

Lemma reads_section d base n len m off data e : 0 <= base -> 0 <= off < n -> 0 <= len ->
  m = Z.min len (n - off) -> reads d m (base + off) data (x_ending e) ->
  reads (zslice d base n) len off data
    (x_ending (if m <? len then match e with XNil => XEof | _ => e end else e)).
Proof.
  intros Hb Ho Hl Hm H. unfold reads in *.
  destruct (Z.ltb_spec off 0); [lia|]. destruct (Z.ltb_spec (base + off) 0); [lia|].
  destruct H as (Hd & Hle & He). pose proof (zlen_nonneg data).
  split; [rewrite zslice_in_slice by lia; exact Hd|]. split; [lia|].
  pose proof (zslice_length d base n ltac:(lia) ltac:(lia)).
  destruct (Z.ltb_spec m len), e; cbn [x_ending] in *; try exact I; lia.
Qed.

Lemma sound_rd f k : sound f k (rd_read k).
Proof.
  induction k as [|k IH]; intros r d len off Hi Hk Hlen.
  all: destruct Hi as [s t d Hh|b base n Hb Hn|r0 d base n Hi Hb Hn|w q Hok Hff Hq|rs ds Ha Hmax];
    cbn [depth] in Hk; try lia.
  1, 3: cbn [rd_read]; destruct (Hh t len off Hlen) as [Hr Hf]; destruct (sg_read s t len off) as [data e];
    cbn [fst snd] in *; exists data, (of_rerr e), (RLeaf s (S t)); split; [reflexivity|];
    split; [constructor; exact Hh|]; split; [cbn [depth]; lia|];
    destruct e; cbn [of_rerr x_ending r_ending] in *; auto.
  1, 4: cbn [rd_read]; destruct (seq_read_at_spec w q len off Hok Hq Hlen) as (data & e & q' & E & Hq' & Hs & Hfl & _);
    rewrite E; exists data, (of_serr e), (RSeq w q'); split; [reflexivity|];
    split; [constructor; assumption|]; split; [cbn [depth]; lia|];
    unfold seq_read_spec in Hs; unfold reads;
    destruct (Z.ltb_spec off 0);
    [destruct Hs as [-> ->]; split; [split; [reflexivity|discriminate]|intros; lia]|];
    (split; [destruct (Z.leb_spec (zlen (src_data w)) off) as [Hp|Hp];
      [destruct Hs as [-> ->]; change (zlen (@nil byte)) with 0; rewrite zslice_zero by lia; cbn; repeat split; lia
      |destruct Hs as (Hd & Hle & Hbd & He); split; [exact Hd|]; split; [exact Hle|];
       destruct e; cbn [of_serr x_ending]; try exact I; try lia; contradiction]
     |intros Hf _ Hbad; destruct e; cbn [of_serr x_ending] in Hbad; try discriminate;
      [eapply fault_free_no; [apply Hff, Hf|eapply Hfl; reflexivity]
      |destruct (Z.leb_spec (zlen (src_data w)) off); [destruct Hs; discriminate|destruct Hs as (_ & _ & _ & []) ]]]).
  - (* section of a repeater *)
    cbn [rd_read]. replace (base + n - base) with n by lia.
    destruct (Z.ltb_spec off 0) as [Hneg|Hpos]; cbn [orb].
    { exists [], XEof. eexists. split; [reflexivity|]. split; [constructor; lia|]. split; [cbn [depth]; lia|].
      unfold reads. destruct (Z.ltb_spec off 0); [|lia]. split; [split; [reflexivity|discriminate]|discriminate]. }
    destruct (Z.leb_spec n off) as [Hp|Hin].
    { exists [], XEof. eexists. split; [reflexivity|]. split; [constructor; lia|]. split; [cbn [depth]; lia|].
      unfold reads. destruct (Z.ltb_spec off 0); [lia|]. split; [|discriminate].
      change (zlen (@nil byte)) with 0. rewrite zslice_zero, zlen_repeat by lia. cbn [x_ending]. repeat split; lia. }
    replace (base + n - (off + base)) with (n - off) by lia.
    destruct (Z.ltb_spec (n - off) len).
    + exists (repeat b (Z.to_nat (n - off))), XEof. eexists. split; [destruct k; reflexivity|].
      split; [constructor; lia|]. split; [cbn [depth]; lia|]. split; [|discriminate].
      unfold reads. destruct (Z.ltb_spec off 0); [lia|]. rewrite !zlen_repeat by lia. rewrite repeat_slice by lia.
      cbn [x_ending]. repeat split; lia.
    + exists (repeat b (Z.to_nat len)), XNil. eexists. split; [destruct k; reflexivity|].
      split; [constructor; lia|]. split; [cbn [depth]; lia|]. split; [|discriminate].
      unfold reads. destruct (Z.ltb_spec off 0); [lia|]. rewrite !zlen_repeat by lia. rewrite repeat_slice by lia.
      cbn [x_ending]. repeat split; lia.
  - (* section *)
    cbn [rd_read]. replace (base + n - base) with n by lia.
    destruct (Z.ltb_spec off 0) as [Hneg|Hpos]; cbn [orb].
    { exists [], XEof. eexists. split; [reflexivity|]. split; [constructor; assumption|]. split; [cbn [depth]; lia|].
      unfold reads. destruct (Z.ltb_spec off 0); [|lia]. split; [split; [reflexivity|discriminate]|discriminate]. }
    destruct (Z.leb_spec n off) as [Hp|Hin].
    { exists [], XEof. eexists. split; [reflexivity|]. split; [constructor; assumption|]. split; [cbn [depth]; lia|].
      unfold reads. destruct (Z.ltb_spec off 0); [lia|]. split; [|discriminate].
      change (zlen (@nil byte)) with 0. rewrite zslice_zero by lia. rewrite zslice_length by lia.
      cbn [x_ending]. repeat split; lia. }
    replace (base + n - (off + base)) with (n - off) by lia. rewrite (Z.add_comm off base).
    destruct (Z.ltb_spec (n - off) len) as [Hx|Hx].
    + destruct (IH r0 d (n - off) (base + off) Hi ltac:(lia) ltac:(lia)) as (data & e & r1 & E & Hi1 & Hk1 & Hr & Hf).
      rewrite E. eexists data, _, _. split; [reflexivity|]. split; [constructor; assumption|]. split; [cbn [depth]; lia|].
      pose proof (reads_section d base n len (n - off) off data e Hb ltac:(lia) Hlen ltac:(lia) Hr) as Hs.
      destruct (Z.ltb_spec (n - off) len); [|lia]. split; [exact Hs|].
      intros Hff _. specialize (Hf Hff ltac:(lia)). destruct e; cbn in *; congruence.
    + destruct (IH r0 d len (base + off) Hi ltac:(lia) ltac:(lia)) as (data & e & r1 & E & Hi1 & Hk1 & Hr & Hf).
      rewrite E. eexists data, _, _. split; [reflexivity|]. split; [constructor; assumption|]. split; [cbn [depth]; lia|].
      pose proof (reads_section d base n len len off data e Hb ltac:(lia) Hlen ltac:(lia) Hr) as Hs.
      destruct (Z.ltb_spec len len); [lia|]. split; [exact Hs|].
      intros Hff _. apply (Hf Hff). lia.
  - (* multi *)
    cbn [rd_read].
    destruct (multi_spec f k (rd_read k) rs ds len off IH (inv_all_ok f k rs ds Ha (le_S_n _ _ Hk)) Hmax Hlen)
      as (data & e & rs' & E & Hok & Hr & Hf).
    rewrite E. exists data, e, (RMulti rs'). destruct (ok_all_inv _ _ _ _ Hok) as [Ha' Hk'].
    split; [reflexivity|]. split; [constructor; assumption|]. split; [cbn [depth]; lia|]. auto.
Qed.

(* ---- histories of ReadAt ---- *)

Lemma rd_run_spec f k calls : Forall (fun c => 0 <= fst c) calls -> forall r d, inv f r d -> (depth r <= k)%nat ->
  exists outs r', rd_run k r calls = Some (outs, r') /\
    Forall2 (fun c o => reads d (fst c) (snd c) (fst o) (x_ending (snd o)) /\
                        (f = false -> 0 <= snd c -> x_ending (snd o) <> Failed)) calls outs.
Proof.
  induction 1 as [|[len off] calls Hc Hcs IH]; intros r d Hi Hk; cbn [rd_run].
  - exists [], r. split; [reflexivity|constructor].
  - destruct (sound_rd f k r d len off Hi Hk Hc) as (data & e & r1 & E & Hi1 & Hk1 & Hr & Hf).
    destruct (IH r1 d Hi1 Hk1) as (outs & r2 & E2 & H2). rewrite E, E2.
    exists ((data, e) :: outs), r2. split; [reflexivity|]. constructor; [split; assumption|exact H2].
Qed.

Lemma rd_history f r d calls : built f r d -> Forall (fun c => 0 <= fst c) calls ->
  exists outs r', rd_run (depth r) r calls = Some (outs, r') /\
    Forall2 (fun c o => reads d (fst c) (snd c) (fst o) (x_ending (snd o))) calls outs.
Proof.
  intros Hb Hc. destruct (rd_run_spec f (depth r) calls Hc r d (built_inv _ _ _ Hb) (le_n _)) as (outs & r' & E & H).
  exists outs, r'. split; [exact E|]. clear E. induction H as [|c o cs os [H1 _] H IH]; constructor; auto.
  apply IH. inversion Hc; assumption.
Qed.

Lemma reads_exact d len off data e : 0 <= len -> 0 <= off -> reads d len off data (x_ending e) -> x_ending e <> Failed ->
  reads_exactly d len off (data, e).
Proof.
  intros Hl Ho H Hne. unfold reads in H. destruct (Z.ltb_spec off 0); [lia|]. destruct H as (Hd & Hle & He).
  pose proof (zslice_length d off len Ho Hl) as Hz. pose proof (zlen_nonneg data) as Hn.
  assert (zlen data = Z.min (zlen data) (Z.max 0 (zlen d - off))) as Hz2.
  { rewrite Hd at 1. apply zslice_length; lia. }
  assert (zlen data = zlen (zslice d off len)) as Heq.
  { destruct e; cbn [x_ending] in *; try congruence; lia. }
  assert (data = zslice d off len) as Hdata.
  { rewrite Hd. destruct (Z.le_gt_cases len (Z.max 0 (zlen d - off))); [f_equal; lia|].
    destruct (Z.le_gt_cases (zlen d) off); [rewrite !zslice_past by lia; reflexivity|].
    rewrite (zslice_clip d off len) by lia. f_equal; lia. }
  unfold reads_exactly. cbn [fst snd]. rewrite <- Hdata. split; [reflexivity|].
  destruct e; cbn [x_ending] in *; try congruence.
  - split; [intros; lia|auto].
  - split; [auto|intros; right; split; [reflexivity|lia]].
Qed.

Lemma rd_history_exact r d calls : built false r d -> Forall (fun c => 0 <= fst c /\ 0 <= snd c) calls ->
  exists outs r', rd_run (depth r) r calls = Some (outs, r') /\
    Forall2 (fun c o => reads_exactly d (fst c) (snd c) o) calls outs.
Proof.
  intros Hb Hc.
  assert (Forall (fun c : Z * Z => 0 <= fst c) calls) as Hc1 by (eapply Forall_impl; [|exact Hc]; cbn; tauto).
  destruct (rd_run_spec false (depth r) calls Hc1 r d (built_inv _ _ _ Hb) (le_n _)) as (outs & r' & E & H).
  exists outs, r'. split; [exact E|]. clear E Hc1.
  induction H as [|[len off] [data e] cs os [H1 H2] H IH]; constructor.
  - inversion Hc as [|? ? [G1 G2]]; subst. cbn [fst snd] in *. apply reads_exact; auto.
  - apply IH. inversion Hc; assumption.
Qed.

(* ---- SizedReadersFrom... ---- *)

Lemma sized_of_files_spec f fs rs : sized_of_files fs = inl rs ->
  forall ds, Forall2 (fun p d => built f (fst p) d /\ snd p = inl (zlen d)) fs ds -> built_all f rs ds.
Proof.
  revert rs; induction fs as [|[r [z|c]] fs IH]; intros rs E ds H; cbn in E.
  - injection E as <-. inversion H; subst. constructor.
  - destruct (sized_of_files fs) as [l|c]; [|discriminate]. injection E as <-.
    inversion H as [|? d ? ds' [H1 H2] H3]; subst. cbn [fst snd] in *. injection H2 as ->.
    constructor; auto.
  - discriminate.
Qed.

Lemma sized_of_files_total f fs ds : Forall2 (fun p d => built f (fst p) d /\ snd p = inl (zlen d)) fs ds ->
  exists rs, sized_of_files fs = inl rs /\ map snd rs = map fst fs /\ built_all f rs ds.
Proof.
  induction 1 as [|[r s] d fs ds [H1 H2] H (rs & E & Em & Hb)]; cbn.
  - exists []. repeat split. constructor.
  - cbn [fst snd] in *. subst s. rewrite E. exists ((zlen d, r) :: rs). split; [reflexivity|].
    split; [cbn; rewrite Em; reflexivity|]. constructor; auto.
Qed.

Lemma sized_of_files_err fs pre r c post : fs = pre ++ (r, inr c) :: post ->
  Forall (fun p => exists z, snd p = inl z) pre -> sized_of_files fs = inr c.
Proof.
  intros -> H. induction H as [|[r0 s] pre [z Hz] H IH]; cbn; [reflexivity|].
  cbn [snd] in Hz. subst s. rewrite IH. reflexivity.
Qed.

(* The readers with a Size method whose answer is right. *)
Lemma sized_of_sizers_spec f rs ds : Forall2 (fun r d => built f r d /\ size_method r = Some (zlen d)) rs ds ->
  exists l, sized_of_sizers rs = Some l /\ map snd l = rs /\ built_all f l ds.
Proof.
  induction 1 as [|r d rs ds [H1 H2] H (l & E & Em & Hb)]; cbn.
  - exists []. repeat split. constructor.
  - rewrite H2, E. exists ((zlen d, r) :: l). split; [reflexivity|]. split; [cbn; rewrite Em; reflexivity|].
    constructor; auto.
Qed.

Lemma size_method_right :
  (forall w, size_method (RSeq w (new_seq (zlen (src_data w)))) = Some (zlen (src_data w))) /\
  (forall b off n, 0 <= off -> 0 <= n -> off + n <= max_int64 ->
     size_method (new_section (RRepeat b) off n) = Some (zlen (repeat b (Z.to_nat n)))) /\
  (forall r (d : list byte) off n, 0 <= off -> 0 <= n -> off + n <= zlen d -> zlen d <= max_int64 ->
     size_method (new_section r off n) = Some (zlen (zslice d off n))).
Proof.
  split; [reflexivity|]. split.
  - intros b off n Ho Hn Hm. unfold new_section. rewrite section_limit by assumption. cbn [size_method].
    rewrite zlen_repeat by assumption. f_equal; lia.
  - intros r d off n Ho Hn Hm Hx. unfold new_section. rewrite section_limit by lia. cbn [size_method].
    rewrite zslice_length by lia. f_equal; lia.
Qed.

(* ---- Read ---- *)

Definition cinv (f : bool) (k : nat) (ds : list (list byte)) (c : tcur) : Prop :=
  ok_all f k (c_rs c) ds /\ 0 <= c_off c <= zlen (concat ds) /\
  (forall i s, located (shadow (c_rs c)) i s (c_off c) -> (c_idx c <= i)%nat).

Lemma t_read_spec f k ds c len : cinv f k ds c -> zlen (concat ds) <= max_int64 -> 0 < len -> c_off c < zlen (concat ds) ->
  exists data e c' i z r e0 r', t_read k c len = Some (data, e, c') /\ cinv f k ds c' /\
    c_off c' = c_off c + zlen data /\ data = zslice (concat ds) (c_off c) (zlen data) /\
    nth_error (c_rs c) i = Some (z, r) /\ c_rs c' = set_nth i (z, r') (c_rs c) /\
    head_of (shadow (c_rs c)) i <= c_off c < head_of (shadow (c_rs c)) i + z /\
    c_off c + zlen data <= head_of (shadow (c_rs c)) i + z /\
    rd_read k r len (c_off c - head_of (shadow (c_rs c)) i) = Some (data, e0, r') /\
    match e with
    | XNil => 0 < zlen data
    | XEof => c_off c + zlen data = zlen (concat ds)
    | XErr _ => f = true
    end.
Proof.
  intros (Hok & Hoff & Hidx) Hmax Hlen Hlt.
  destruct (heads_translate f k _ ds Hok 0 ltac:(lia) ltac:(lia)) as [Eh Eu].
  pose proof (ok_sizes _ _ _ _ Hok) as Hs.
  destruct (located_exists (shadow (c_rs c)) (c_off c) Hs) as (i & s & Hl).
  { rewrite (ok_total _ _ _ _ Hok). lia. }
  pose proof (Hidx _ _ Hl) as Hle. pose proof Hl as [Hn Hr].
  destruct (shadow_nth _ _ _ Hn) as (r & Er).
  destruct (at_seg _ _ _ _ _ _ _ Hok Er) as (d & Ed & Hi & Hk & Hz & Hh & Hb & Hlast & Hc).
  unfold t_read. rewrite Eh, Eu. destruct (Z.leb_spec (0 + zlen (concat ds)) (c_off c)); [lia|].
  rewrite (search_skipn _ _ _ _ _ Hs Hl Hle).
  replace (c_idx c + (i - c_idx c))%nat with i by lia.
  rewrite nth_translate, Hn, Er. cbn [option_map sz_head]. rewrite Z.add_0_l.
  set (hd := head_of (shadow (c_rs c)) i) in *.
  destruct (sound_rd f k r d len (c_off c - hd) Hi Hk ltac:(lia)) as (data & e & r' & Ea & Hi' & Hk' & Hrd & Hf).
  rewrite Ea. pose proof (zlen_nonneg data) as Hdn.
  set (c' := if (0 <? zlen data) || match e with XEof => true | _ => false end
             then TCur i (c_off c + zlen data) (set_nth i (sg_size s, r') (c_rs c))
             else TCur (c_idx c) (c_off c) (set_nth i (sg_size s, r') (c_rs c))).
  assert (c_rs c' = set_nth i (sg_size s, r') (c_rs c)) as Crs by (unfold c'; destruct (_ || _); reflexivity).
  assert (c_off c' = c_off c + zlen data) as Coff.
  { unfold c'. destruct (Z.ltb_spec 0 (zlen data)); cbn [orb]; [reflexivity|]. destruct e; cbn [c_off]; lia. }
  assert (shadow (c_rs c') = shadow (c_rs c)) as Csh by (rewrite Crs; eapply shadow_set; exact Er).
  rewrite Hz in *.
  destruct (seg_err_spec d len (c_off c - hd) data e (Z.of_nat (c_idx c') <? zlen (set_nth i (zlen d, r') (c_rs c)) - 1)
              ltac:(lia) Hrd) as [Hle2 He].
  unfold reads in Hrd. destruct (Z.ltb_spec (c_off c - hd) 0); [lia|]. destruct Hrd as (Hd & Hll & Hend).
  eexists data, _, c', i, (zlen d), r, e, r'. split; [reflexivity|].
  split.
  { split; [rewrite Crs; eapply ok_set; eassumption|]. split; [rewrite Coff; lia|].
    rewrite Csh, Coff. intros j s' Hj.
    assert (i <= j)%nat by (eapply located_mono; [exact Hs|exact Hl|exact Hj|lia]).
    unfold c'. destruct (_ || _); cbn [c_idx]; lia. }
  split; [exact Coff|]. split; [rewrite Hc by lia; exact Hd|]. split; [exact Er|]. split; [exact Crs|].
  split; [lia|]. split; [lia|]. split; [exact Ea|].
  fold c' in He. destruct (seg_err _ _ _ _) as [| |cc].
  - destruct He as [[-> E]|(-> & _ & E & P)]; lia.
  - destruct He as (-> & Hm & E & P).
    assert (c_idx c' = i) as Ci by (unfold c'; rewrite orb_true_r; reflexivity).
    rewrite Ci in Hm. destruct (Z.ltb_spec (Z.of_nat i) (zlen (set_nth i (zlen d, r') (c_rs c)) - 1)) as [|Hge]; [discriminate|].
    unfold zlen at 1 in Hge. rewrite length_set in Hge.
    assert (i < length (c_rs c))%nat by (apply nth_error_Some; rewrite Er; discriminate).
    specialize (Hlast ltac:(lia)). lia.
  - subst e. destruct f; [reflexivity|]. exfalso. apply Hf; [reflexivity|lia|reflexivity].
Qed.

Lemma t_read_end f k ds c len : cinv f k ds c -> zlen (concat ds) <= max_int64 -> zlen (concat ds) <= c_off c ->
  t_read k c len = Some ([], XEof, c).
Proof.
  intros (Hok & Hoff & _) Hmax Hge.
  destruct (heads_translate f k _ ds Hok 0 ltac:(lia) ltac:(lia)) as [_ Eu].
  unfold t_read. rewrite Eu. destruct (Z.leb_spec (0 + zlen (concat ds)) (c_off c)); [reflexivity|lia].
Qed.

(* [P] is any property of cursors that each successful or last read keeps. *)
Lemma t_drain_spec f k ds (P : tcur -> Prop) : zlen (concat ds) <= max_int64 ->
  (forall c len data e c', 0 < len -> cinv f k ds c -> P c -> t_read k c len = Some (data, e, c') -> P c') ->
  forall lens c, Forall (fun l => 0 < l) lens -> cinv f k ds c -> P c ->
  exists data e c', t_drain k c lens = Some (data, e, c') /\ cinv f k ds c' /\ P c' /\
    c_off c' = c_off c + zlen data /\ data = zslice (concat ds) (c_off c) (zlen data) /\
    match e with
    | None => Z.of_nat (length lens) <= zlen data
    | Some XNil => False
    | Some XEof => c_off c' = zlen (concat ds)
    | Some (XErr _) => f = true
    end.
Proof.
  intros Hmax HP. induction lens as [|len lens IH]; intros c Hl Hc Hp; cbn [t_drain].
  - exists [], None, c. split; [reflexivity|]. split; [exact Hc|]. split; [exact Hp|].
    change (zlen (@nil byte)) with 0. rewrite zslice_zero by lia. cbn. repeat split; lia.
  - pose proof (Forall_inv Hl) as Hl0. pose proof (Forall_inv_tail Hl) as Hl1. cbn beta in Hl0.
    destruct (Z.le_gt_cases (zlen (concat ds)) (c_off c)) as [Hge|Hlt].
    + rewrite (t_read_end f k ds c len Hc Hmax Hge). exists [], (Some XEof), c.
      split; [reflexivity|]. split; [exact Hc|]. split; [exact Hp|].
      change (zlen (@nil byte)) with 0. rewrite zslice_zero by lia. destruct Hc as (_ & ? & _). repeat split; lia.
    + destruct (t_read_spec f k ds c len Hc Hmax Hl0 Hlt) as
        (data & e & c1 & i & z & r & e0 & r' & E & Hc1 & Ho1 & Hd1 & _ & _ & _ & _ & _ & He).
      pose proof (HP c len data e c1 Hl0 Hc Hp E) as Hp1.
      rewrite E. destruct e as [| |cc].
      * destruct (IH c1 Hl1 Hc1 Hp1) as (rest & e2 & c2 & E2 & Hc2 & Hp2 & Ho2 & Hd2 & He2).
        rewrite E2. exists (data ++ rest), e2, c2. split; [reflexivity|]. split; [exact Hc2|]. split; [exact Hp2|].
        rewrite zlen_app. pose proof (zlen_nonneg rest). destruct Hc as (_ & ? & _).
        split; [lia|]. split; [rewrite zslice_split by lia; rewrite <- Ho1, <- Hd1, <- Hd2; reflexivity|].
        destruct e2 as [[| |c3]|]; cbn [length]; try assumption; lia.
      * exists data, (Some XEof), c1. split; [reflexivity|]. split; [exact Hc1|]. split; [exact Hp1|].
        split; [exact Ho1|]. split; [exact Hd1|]. lia.
      * exists data, (Some (XErr cc)), c1. split; [reflexivity|]. split; [exact Hc1|]. split; [exact Hp1|].
        split; [exact Ho1|]. split; [exact Hd1|exact He].
Qed.

Lemma new_cinv f rs ds : built_all f rs ds -> cinv f (depth_all rs) ds (new_tcur rs).
Proof.
  intros H. split; [apply inv_all_ok; [apply built_all_inv, H|apply le_n]|].
  pose proof (zlen_nonneg (concat ds)). cbn [new_tcur c_off c_idx]. split; [lia|]. intros; lia.
Qed.

Lemma read_all f rs ds lens : built_all f rs ds -> zlen (concat ds) <= max_int64 -> Forall (fun l => 0 < l) lens ->
  exists data e c, t_drain (depth_all rs) (new_tcur rs) lens = Some (data, e, c) /\
    prefix_of data (concat ds) /\
    match e with
    | None => Z.of_nat (length lens) <= zlen data
    | Some XNil => False
    | Some XEof => data = concat ds
    | Some (XErr _) => f = true
    end.
Proof.
  intros Hb Hmax Hl.
  destruct (t_drain_spec f (depth_all rs) ds (fun _ => True) Hmax ltac:(auto) lens (new_tcur rs) Hl (new_cinv _ _ _ Hb) I)
    as (data & e & c & E & _ & _ & Ho & Hd & He).
  exists data, e, c. split; [exact E|]. cbn [new_tcur c_off] in *.
  assert (prefix_of data (concat ds)) as Hp.
  { exists (skipn (Z.to_nat (zlen data)) (concat ds)). rewrite Hd at 1. unfold zslice. cbn [skipn Z.to_nat].
    rewrite firstn_skipn. reflexivity. }
  split; [exact Hp|]. destruct e as [[| |cc]|]; try assumption.
  rewrite Hd. rewrite zslice_all; [reflexivity|lia].
Qed.

Lemma read_everything rs ds lens : built_all false rs ds -> zlen (concat ds) <= max_int64 -> Forall (fun l => 0 < l) lens ->
  zlen (concat ds) < Z.of_nat (length lens) ->
  exists c, t_drain (depth_all rs) (new_tcur rs) lens = Some (concat ds, Some XEof, c).
Proof.
  intros Hb Hmax Hl Hlong. destruct (read_all false rs ds lens Hb Hmax Hl) as (data & e & c & E & [rest Hp] & He).
  exists c. rewrite E. destruct e as [[| |cc]|]; try contradiction; try discriminate.
  - subst data. reflexivity.
  - exfalso. rewrite Hp, zlen_app in Hlong. pose proof (zlen_nonneg rest). lia.
Qed.

(* ---- how often streams are opened ---- *)

Lemma seq_opens w q len off data e q' : stream_ok w -> fault_free w -> sinv w q -> 0 < len -> 0 <= off < zlen (src_data w) ->
  seq_read_at w q len off = (SOk data e, q') ->
  (q_cur q = Some off -> q_opens q' = q_opens q) /\ (q_cur q = None -> q_opens q' = off :: q_opens q) /\
  (off + zlen data < zlen (src_data w) -> q_cur q' = Some (off + zlen data)).
Proof.
  intros Hok Hff Hq Hlen Hoff E.
  assert (off + zlen data < zlen (src_data w) -> q_cur q' = Some (off + zlen data)) as Hcur.
  { intros Hlt. destruct (seq_read_at_spec w q len off Hok Hq ltac:(lia)) as (data' & e' & q1 & E1 & _ & Hs & Hfl & Hnil).
    rewrite E in E1. injection E1 as <- <- <-. unfold seq_read_spec in Hs.
    destruct (Z.ltb_spec off 0); [lia|]. destruct (Z.leb_spec (zlen (src_data w)) off); [lia|].
    destruct Hs as (_ & _ & _ & He). destruct e.
    - destruct (Hnil eq_refl ltac:(lia) ltac:(lia)) as [Hc _]. rewrite He. exact Hc.
    - lia. - exfalso. eapply fault_free_no; [exact Hff|eapply Hfl; reflexivity]. - contradiction. }
  destruct Hq as [Hsz Hc]. unfold seq_read_at in E.
  destruct (Z.ltb_spec off 0); [lia|]. rewrite Hsz in E. destruct (Z.leb_spec (zlen (src_data w)) off); [lia|].
  set (n := if zlen (src_data w) - off <? len then zlen (src_data w) - off else len) in *.
  assert (0 <= n /\ off + n <= zlen (src_data w)) as Hn by (unfold n; destruct (Z.ltb_spec (zlen (src_data w) - off) len); lia).
  assert ((zlen (src_data w) - off <? len) = true -> off + n = zlen (src_data w)) as Hmx
    by (intros Hm; unfold n; rewrite Hm; lia).
  destruct (q_cur q) as [pos|] eqn:Ec.
  - destruct Hc as [Hp Hr]. split; [|split; [discriminate|exact Hcur]].
    intros Ep. injection Ep as ->. rewrite <- Hp, Z.eqb_refl in E.
    assert (sinv w q) as Hq by (split; [exact Hsz|rewrite Ec; auto]).
    destruct (seq_loop_spec w Hok (S (Z.to_nat n)) q n (zlen (src_data w) - off <? len) [] off
                ltac:(lia) Hq Ec ltac:(lia) ltac:(lia) Hmx)
      as (d1 & e1 & r1 & E1 & _ & _ & _ & Hop & _).
    rewrite E in E1. injection E1 as _ _ <-. exact Hop.
  - split; [discriminate|]. split; [|exact Hcur]. intros _.
    rewrite (proj1 Hff (q_t q) off ltac:(lia)) in E.
    destruct (seq_loop_spec w Hok (S (Z.to_nat n)) (Seqr (q_size q) (Some off) off (off :: q_opens q) (S (q_t q))) n
                (zlen (src_data w) - off <? len) [] off ltac:(lia)) as (d1 & e1 & r1 & E1 & _ & _ & _ & Hop & _).
    + split; [exact Hsz|]. cbn [q_cur q_off]. lia.
    + reflexivity. + lia. + lia. + exact Hmx.
    + rewrite Hsz in E1. rewrite E in E1. injection E1 as _ _ <-. exact Hop.
Qed.

(* How far into a stream of [z] bytes position [x] has come. *)
Definition status (z x : Z) (q : seqr) : Prop :=
  (x <= 0 -> q_opens q = [] /\ q_cur q = None) /\ (0 < x < z -> q_cur q = Some x /\ q_opens q = [0]) /\
  (z <= x -> 0 < z -> q_opens q = [0]) /\ (z = 0 -> q_opens q = []).
Definition stat_all (ws : list source) (c : tcur) : Prop :=
  forall i w, nth_error ws i = Some w -> exists q,
    nth_error (c_rs c) i = Some (zlen (src_data w), RSeq w q) /\ sinv w q /\
    status (zlen (src_data w)) (c_off c - head_of (shadow (c_rs c)) i) q.

Lemma stat_step ws ds k c len data e c' :
  Forall (fun w => stream_ok w /\ fault_free w) ws -> zlen (concat ds) <= max_int64 -> length ws = length ds ->
  0 < len -> cinv false k ds c -> stat_all ws c -> t_read k c len = Some (data, e, c') -> stat_all ws c'.
Proof.
  intros Hws Hmax Hlg Hlen Hc Hst E.
  destruct (Z.le_gt_cases (zlen (concat ds)) (c_off c)) as [Hge|Hlt].
  { rewrite (t_read_end false k ds c len Hc Hmax Hge) in E. injection E as _ _ <-. exact Hst. }
  destruct (t_read_spec false k ds c len Hc Hmax Hlen Hlt) as
    (data1 & e1 & c1 & i & z & r & e0 & r' & E1 & Hc1 & Ho1 & Hd1 & Er & Ers & Hin & Hto & Ea & He).
  rewrite E in E1. injection E1 as <- <- <-.
  assert (shadow (c_rs c') = shadow (c_rs c)) as Csh by (rewrite Ers; eapply shadow_set; exact Er).
  pose proof (ok_sizes _ _ _ _ (proj1 Hc)) as Hs. pose proof (zlen_nonneg data) as Hdn.
  assert (nth_error (shadow (c_rs c)) i = Some (Seg (fun _ _ _ => ([], RNil)) z)) as Hsi
    by (unfold shadow; rewrite nth_error_map, Er; reflexivity).
  pose proof (head_of_S _ _ _ Hsi) as HSi. cbn [sg_size] in HSi.
  intros j w Hw. destruct (Hst j w Hw) as (q & Eq & Hq & S1 & S2 & S3 & S4).
  assert (nth_error (shadow (c_rs c)) j = Some (Seg (fun _ _ _ => ([], RNil)) (zlen (src_data w)))) as Hsj
    by (unfold shadow; rewrite nth_error_map, Eq; reflexivity).
  pose proof (head_of_S _ _ _ Hsj) as HSj. cbn [sg_size] in HSj.
  rewrite Csh, Ers, Ho1.
  destruct (Nat.eq_dec i j) as [<-|Hne].
  - rewrite Eq in Er. injection Er as <- <-. rewrite (nth_set_same _ _ _ _ Eq).
    destruct (proj1 (Forall_forall _ _) Hws w (nth_error_In _ _ Hw)) as [Hok Hff].
    set (x := c_off c - head_of (shadow (c_rs c)) i) in *.
    destruct (seq_read_at_spec w q len x Hok Hq ltac:(lia)) as (dd & ee & q' & Es & Hq' & _).
    assert (rd_read k (RSeq w q) len x = Some (dd, of_serr ee, RSeq w q')) as Ea2 by (destruct k; cbn [rd_read]; rewrite Es; reflexivity).
    rewrite Ea2 in Ea. injection Ea as -> _ <-.
    destruct (seq_opens w q len x data ee q' Hok Hff Hq Hlen ltac:(lia) Es) as (O1 & O2 & O3).
    exists q'. split; [reflexivity|]. split; [exact Hq'|].
    assert (q_opens q' = [0]) as Hop.
    { destruct (Z.eq_dec x 0) as [Hx|Hx].
      - destruct (S1 ltac:(lia)) as [G1 G2]. rewrite (O2 G2), G1, Hx. reflexivity.
      - destruct (S2 ltac:(lia)) as [G1 G2]. rewrite (O1 G1). exact G2. }
    replace (c_off c + zlen data - head_of (shadow (c_rs c)) i) with (x + zlen data) by lia.
    assert (0 < zlen data).
    { destruct (seq_read_at_spec w q len x Hok Hq ltac:(lia)) as (dd2 & ee2 & q2 & Es2 & _ & Hsp & Hfl & _).
      rewrite Es in Es2. injection Es2 as <- <- <-. unfold seq_read_spec in Hsp.
      destruct (Z.ltb_spec x 0); [lia|]. destruct (Z.leb_spec (zlen (src_data w)) x); [lia|].
      destruct Hsp as (_ & _ & _ & Hz). destruct ee; try lia; try contradiction.
      exfalso. eapply fault_free_no; [exact Hff|eapply Hfl; reflexivity]. }
    split; [intros; lia|]. split; [intros; split; [apply O3; lia|exact Hop]|].
    split; [intros; exact Hop|intros; lia].
  - rewrite (nth_set_other _ _ _ _ Hne), Eq. exists q. split; [reflexivity|]. split; [exact Hq|].
    destruct (Nat.lt_ge_cases j i) as [Hji|Hij].
    + pose proof (head_of_le (shadow (c_rs c)) (S j) i Hs ltac:(lia)).
      pose proof (zlen_nonneg (src_data w)).
      split; [intros; apply S1; lia|]. split; [intros; lia|]. split; [intros; apply S3; lia|exact S4].
    + pose proof (head_of_le (shadow (c_rs c)) (S i) j Hs ltac:(lia)).
      pose proof (zlen_nonneg (src_data w)).
      split; [intros; apply S1; lia|]. split; [intros; lia|]. split; [intros; lia|exact S4].
Qed.

Lemma fresh_built f ws : Forall (fun w => stream_ok w /\ (f = false -> fault_free w)) ws ->
  built_all f (fresh_seqs ws) (map src_data ws).
Proof.
  induction 1 as [|w ws [H1 H2] H IH]; cbn; constructor; auto. constructor; assumption.
Qed.

Lemma fresh_nth ws i w : nth_error ws i = Some w ->
  nth_error (fresh_seqs ws) i = Some (zlen (src_data w), RSeq w (new_seq (zlen (src_data w)))).
Proof. intros H. unfold fresh_seqs. rewrite nth_error_map, H. reflexivity. Qed.

Lemma fresh_status ws : stat_all ws (new_tcur (fresh_seqs ws)).
Proof.
  intros i w Hw. exists (new_seq (zlen (src_data w))). split; [apply fresh_nth, Hw|]. split; [apply seq_new_inv|].
  cbn [new_tcur c_off c_rs]. assert (0 <= head_of (shadow (fresh_seqs ws)) i).
  { apply total_nonneg. apply sizes_ok_firstn. unfold sizes_ok, shadow, fresh_seqs. rewrite map_map.
    apply Forall_forall. intros s Hs. apply in_map_iff in Hs. destruct Hs as (w0 & <- & _). cbn. apply zlen_nonneg. }
  pose proof (zlen_nonneg (src_data w)). repeat split; try lia.
Qed.

Lemma nth_ext_map {A B C} (g : B -> C) (h : A -> C) (l : list A) (m : list B) : length m = length l ->
  (forall i x, nth_error l i = Some x -> exists y, nth_error m i = Some y /\ g y = h x) -> map g m = map h l.
Proof.
  revert m; induction l as [|x l IH]; intros [|y m] Hl H; cbn in Hl; try discriminate; [reflexivity|].
  cbn [map]. f_equal.
  - destruct (H 0%nat x eq_refl) as (y0 & E & G). injection E as <-. exact G.
  - apply IH; [lia|]. intros i a Ha. exact (H (S i) a Ha).
Qed.

Lemma open_once ws lens data c : Forall (fun w => stream_ok w /\ fault_free w) ws ->
  zlen (concat (map src_data ws)) <= max_int64 -> Forall (fun l => 0 < l) lens ->
  t_drain 0 (new_tcur (fresh_seqs ws)) lens = Some (data, Some XEof, c) ->
  data = concat (map src_data ws) /\ map opens (c_rs c) = map opened_once ws.
Proof.
  intros Hws Hmax Hl E.
  assert (built_all false (fresh_seqs ws) (map src_data ws)) as Hb.
  { apply fresh_built. eapply Forall_impl; [|exact Hws]. cbn. intros w [? ?]; auto. }
  assert (cinv false 0 (map src_data ws) (new_tcur (fresh_seqs ws))) as Hc.
  { pose proof (new_cinv _ _ _ Hb) as H. replace (depth_all (fresh_seqs ws)) with 0%nat in H; [exact H|].
    unfold depth_all, fresh_seqs. rewrite map_map. cbn [snd depth]. clear. induction ws; cbn; auto. }
  destruct (t_drain_spec false 0 (map src_data ws) (stat_all ws) Hmax) with (lens := lens) (c := new_tcur (fresh_seqs ws))
    as (d1 & e1 & c1 & E1 & Hc1 & Hs1 & Ho1 & Hd1 & He1); try assumption.
  { intros; eapply stat_step; try eassumption. rewrite map_length; reflexivity. }
  { apply fresh_status. }
  rewrite E in E1. injection E1 as <- <- <-. cbn [new_tcur c_off] in *.
  split.
  - rewrite Hd1. apply zslice_all. lia.
  - destruct Hc1 as (Hok & _ & _).
    assert (length (c_rs c) = length ws) as Hlg by (apply Forall2_length in Hok; rewrite map_length in Hok; exact Hok).
    apply nth_ext_map; [exact Hlg|]. intros i w Hw.
    destruct (Hs1 i w Hw) as (q & Eq & Hq & _ & _ & S3 & S4).
    exists (zlen (src_data w), RSeq w q). split; [exact Eq|]. unfold opens, opened_once. cbn [snd].
    destruct (Z.eqb_spec (zlen (src_data w)) 0) as [Hz|Hz]; [apply S4, Hz|].
    pose proof (zlen_nonneg (src_data w)).
    destruct (at_seg _ _ _ _ _ _ _ Hok Eq) as (d & Ed & _ & _ & Hzd & _ & Hb2 & _ & _).
    apply S3; lia.
Qed.

(* ---- where it does not hold ---- *)

Lemma overflow_refuted : exists b rs,
  rs = [(max_int64, new_section (RRepeat b) 0 max_int64); (1, new_section (RRepeat b) 0 1)] /\
  (forall p, In p rs -> size_method (snd p) = Some (fst p)) /\
  rd_read 2 (RMulti rs) 1 0 = Some ([], XEof, RMulti rs) /\
  t_read 2 (new_tcur rs) 1 = Some ([], XEof, new_tcur rs).
Proof.
  exists 7%N. eexists. split; [reflexivity|]. split; [|split; vm_compute; reflexivity].
  intros p [<-|[<-|[]]]; vm_compute; reflexivity.
Qed.

Lemma repeater_negative_refuted : forall b k len off, 0 < len -> off < 0 ->
  exists data r', rd_read k (RRepeat b) len off = Some (data, XNil, r') /\ zlen data = len /\
    forall d, ~ reads d len off data (x_ending XNil).
Proof.
  intros b k len off Hl Ho. exists (repeat b (Z.to_nat len)), (RRepeat b).
  split; [destruct k; reflexivity|]. split; [apply zlen_repeat; lia|].
  intros d H. unfold reads in H. destruct (Z.ltb_spec off 0); [|lia]. destruct H as [_ H]. apply H. reflexivity.
Qed.

(* ---- concrete readers ---- *)

(* A file; every third call on a flaky one fails after the first byte. *)
Definition file_of (d : list byte) : segment :=
  Seg (fun _ len off => if off <? 0 then ([], ROther 22)
                        else let s := zslice d off len in (s, if zlen s <? len then REof else RNil)) (zlen d).
Definition flaky (d : list byte) : segment :=
  Seg (fun t len off => if off <? 0 then ([], ROther 22)
                        else if Nat.eqb (t mod 3) 2 then (zslice d off (Z.min 1 len), ROther 5)
                        else let s := zslice d off len in (s, if zlen s <? len then REof else RNil)) (zlen d).

Lemma slice_again (d : list byte) off len : 0 <= off -> 0 <= len ->
  zslice d off len = zslice d off (zlen (zslice d off len)).
Proof.
  intros Ho Hl. rewrite zslice_length by lia. destruct (Z.le_gt_cases len (Z.max 0 (zlen d - off))).
  - f_equal; lia.
  - destruct (Z.le_gt_cases (zlen d) off); [rewrite !zslice_past by lia; reflexivity|].
    rewrite (zslice_clip d off len) by lia. f_equal; lia.
Qed.

Lemma file_honest f d : honest f (file_of d) d.
Proof.
  intros t len off Hl. unfold reads. cbn [file_of sg_read]. destruct (Z.ltb_spec off 0) as [Hn|Hp]; cbn [fst snd].
  - split; [split; [reflexivity|discriminate]|intros; lia].
  - pose proof (zslice_length d off len Hp Hl). split.
    + split; [apply slice_again; lia|]. split; [lia|].
      destruct (Z.ltb_spec (zlen (zslice d off len)) len); cbn [r_ending]; lia.
    + intros _ _. destruct (_ <? _); discriminate.
Qed.

Lemma flaky_honest d : honest true (flaky d) d.
Proof.
  intros t len off Hl. unfold reads. cbn [flaky sg_read]. destruct (Z.ltb_spec off 0) as [Hn|Hp]; cbn [fst snd].
  - split; [split; [reflexivity|discriminate]|discriminate].
  - split; [|discriminate]. destruct (Nat.eqb _ _); cbn [fst snd r_ending].
    + pose proof (zslice_length d off (Z.min 1 len) Hp ltac:(lia)).
      split; [apply slice_again; lia|]. split; [lia|exact I].
    + pose proof (zslice_length d off len Hp Hl).
      split; [apply slice_again; lia|]. split; [lia|].
      destruct (Z.ltb_spec (zlen (zslice d off len)) len); cbn [r_ending]; lia.
Qed.

(* A stream, three nines, and a window onto two files put together. *)
Definition mixed (leaf : segment) : rd :=
  RMulti [(5, RSeq (drip [1;2;3;4;5]%N) (new_seq 5));
          (3, new_section (RRepeat 9%N) 100 3);
          (4, new_section (RMulti [(3, RLeaf leaf 0); (0, RLeaf (file_of []) 0); (3, RLeaf (file_of [14;15;16]%N) 0)]) 1 4)].

Lemma mixed_built f leaf : honest f leaf [11;12;13]%N ->
  built f (mixed leaf) [1;2;3;4;5;9;9;9;12;13;14;15]%N.
Proof.
  intros Hh. unfold mixed.
  change [1;2;3;4;5;9;9;9;12;13;14;15]%N
    with (concat [src_data (drip [1;2;3;4;5]%N); repeat 9%N (Z.to_nat 3);
                  zslice (concat [[11;12;13]; []; [14;15;16]]%N) 1 4]).
  apply BMulti; [|vm_compute; discriminate].
  apply BCons; [|reflexivity|apply BCons; [|reflexivity|apply BCons; [|reflexivity|constructor]]].
  - apply (BSeq f (drip [1;2;3;4;5]%N)); [apply drip_ok|intros _; apply drip_ok].
  - apply BRepeat; vm_compute; discriminate.
  - apply BSection; [|vm_compute; discriminate..].
    apply BMulti; [|vm_compute; discriminate].
    repeat (apply BCons; [constructor; auto using file_honest|reflexivity|]). constructor.
Qed.
