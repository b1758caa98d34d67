(* Sections finds every entry of an archive. *)
From Verif Require Import Common CommonLemmas ContentRange_Model ContentRange_Spec ContentRange_Proofs TarNum_Model TarNum_Spec TarNum_Proofs
  MultiRead_Model MultiRead_Spec TarSparse_Model TarSparse_Spec TarSparse_Proofs TarSections_Model TarSections_Spec.
Open Scope Z_scope.

Lemma land_511 x : Z.land x 511 = x mod 512.
Proof. change 511 with (Z.ones 9). rewrite Z.land_ones by lia. reflexivity. Qed.
Lemma align_pad x : align x = x + pad_of x.
Proof.
  unfold align, pad_of. rewrite land_511. f_equal. pose proof (Z.mod_pos_bound x 512 ltac:(lia)).
  pose proof (Z.div_mod x 512 ltac:(lia)). symmetry.
  replace (512 - x mod 512) with (- x + (1 + x / 512) * 512) by lia. apply Z.mod_add. lia.
Qed.
Lemma pad_bound x : 0 <= pad_of x < 512.
Proof. unfold pad_of. apply Z.mod_pos_bound. lia. Qed.
Lemma align_div x : Z.divide 512 (align x).
Proof.
  rewrite align_pad. unfold pad_of. exists ((x + (512 - x mod 512) mod 512) / 512).
  assert ((x + (512 - x mod 512) mod 512) mod 512 = 0) as E.
  { rewrite Zplus_mod_idemp_r. pose proof (Z.div_mod x 512 ltac:(lia)). replace (x + (512 - x mod 512)) with ((1 + x / 512) * 512) by lia. apply Z.mod_mul. lia. }
  pose proof (Z.div_mod (x + (512 - x mod 512) mod 512) 512 ltac:(lia)). lia.
Qed.
Lemma align_shift s x : Z.divide 512 s -> align (s + x) = s + align x.
Proof.
  intros [k ->]. unfold align. rewrite !land_511. rewrite <- Z.add_assoc. f_equal. f_equal.
  replace (- (k * 512 + x)) with (- x + (- k) * 512) by lia. apply Z.mod_add. lia.
Qed.
Lemma padded_len s : zlen (padded s) = align (zlen s).
Proof. unfold padded. rewrite zlen_app, zeros_len by (pose proof (pad_bound (zlen s)); lia). rewrite align_pad. reflexivity. Qed.
Lemma align_ge x : x <= align x.
Proof. rewrite align_pad. pose proof (pad_bound x). lia. Qed.

Lemma raw_block_len blk size flag : raw_block blk size flag -> 0 <= size <= max_int64 -> zlen blk = 512.
Proof. intros (a & b & c & -> & Ha & Hb & Hc) Hs. rewrite !zlen_app, Ha, Hb, Hc, (proj1 (enc_num_spec size Hs)). reflexivity. Qed.
Lemma raw_block_size blk size flag : raw_block blk size flag -> 0 <= size <= max_int64 -> raw_size blk = size.
Proof.
  intros (a & b & c & -> & Ha & Hb & Hc) Hs. destruct (enc_num_spec size Hs) as (Hl & Hp & _). unfold raw_size.
  rewrite (zslice_mid a (enc_num size)) by assumption. rewrite Hp. reflexivity.
Qed.
Lemma zget_at {A} (a c : list A) x i : zlen a = i -> zget (a ++ [x] ++ c) i = Some x.
Proof.
  intros <-. unfold zget. destruct (Z.ltb_spec (zlen a) 0); [unfold zlen in *; lia|]. unfold zlen. rewrite Nat2Z.id.
  rewrite nth_error_app2 by lia. rewrite Nat.sub_diag. reflexivity.
Qed.
Lemma raw_block_flag blk size flag : raw_block blk size flag -> 0 <= size <= max_int64 -> zget blk 156 = Some flag.
Proof.
  intros (a & b & c & -> & Ha & Hb & Hc) Hs. rewrite !app_assoc. rewrite <- app_assoc. apply zget_at.
  rewrite !zlen_app, Ha, Hb, (proj1 (enc_num_spec size Hs)). reflexivity.
Qed.

Lemma is_extension_in f : is_extension f = true <-> In f [120; 103; 76; 75]%N.
Proof.
  unfold is_extension. rewrite !orb_true_iff, !N.eqb_eq. cbn [In]. intuition.
Qed.

Lemma ext_len x : ext_ok x -> zlen (ext_bytes x) = 512 + align (zlen (snd x)) /\ zlen (fst x) = 512.
Proof.
  intros (Hb & flag & _ & Hr). pose proof (zlen_nonneg (snd x)). assert (zlen (fst x) = 512) as E by (apply (raw_block_len _ _ _ Hr); lia).
  split; [|exact E]. unfold ext_bytes. rewrite zlen_app, E, padded_len. reflexivity.
Qed.

Lemma find_map_exts h blk raw size more xs : Forall ext_ok xs -> 0 <= size <= max_int64 -> raw_block blk size raw -> ~ In raw [120; 103; 76; 75]%N ->
  forall fuel pre, (length xs < fuel)%nat -> find_map fuel h (pre ++ concat (map ext_bytes xs) ++ blk ++ more) (zlen pre) = handle_sparse h blk more.
Proof.
  intros Hx Hs Hr Hn. pose proof (raw_block_len _ _ _ Hr Hs) as Hbl.
  induction Hx as [|x xs Hx _ IH]; intros fuel pre Hf; (destruct fuel as [|fuel]; [cbn in Hf; lia|]); cbn [map concat].
  - cbn [app]. cbn [find_map]. cbv zeta. rewrite (zslice_mid pre blk more) by (try reflexivity; exact Hbl). rewrite Hbl. change (512 <? 512) with false. cbn iota.
    rewrite (raw_block_flag _ _ _ Hr Hs). destruct (is_extension raw) eqn:E; [apply is_extension_in in E; contradiction|].
    f_equal. rewrite app_assoc. pose proof (zlen_nonneg pre). apply skipn_zlen. rewrite zlen_app, Hbl. rewrite Z2Nat.id by lia. reflexivity.
  - destruct (ext_len x Hx) as [Hxl Hfl]. destruct Hx as (Hb & flag & Hin & Hxr). pose proof (zlen_nonneg (snd x)).
    set (s := pre ++ (ext_bytes x ++ concat (map ext_bytes xs)) ++ blk ++ more).
    assert (zslice s (zlen pre) 512 = fst x) as Ez.
    { unfold s, ext_bytes at 1. rewrite <- !app_assoc. apply zslice_mid; [reflexivity|exact Hfl]. }
    cbn [find_map]. cbv zeta. rewrite Ez.
    rewrite Hfl. change (512 <? 512) with false. cbn iota. rewrite (raw_block_flag _ _ _ Hxr) by lia.
    assert (is_extension flag = true) as -> by (apply is_extension_in; cbn [In] in Hin |- *; intuition).
    rewrite (raw_block_size _ _ _ Hxr) by lia. pose proof (align_ge (zlen (snd x))). pose proof (zlen_nonneg pre).
    assert (zlen pre + 512 + align (zlen (snd x)) <? 0 = false) as -> by lia.
    replace (zlen pre + 512 + align (zlen (snd x))) with (zlen (pre ++ ext_bytes x)) by (rewrite zlen_app, Hxl; lia).
    replace s with ((pre ++ ext_bytes x) ++ concat (map ext_bytes xs) ++ blk ++ more)
      by (unfold s; rewrite <- !app_assoc; reflexivity).
    apply IH. cbn [length] in Hf. lia.
Qed.

Lemma exts_len xs : Forall ext_ok xs -> Z.divide 512 (zlen (concat (map ext_bytes xs))) /\ (length xs <= length (concat (map ext_bytes xs)))%nat.
Proof.
  induction 1 as [|x xs Hx _ [IH1 IH2]]; [split; [exists 0; reflexivity|cbn; lia]|]. cbn [map concat]. destruct (ext_len x Hx) as [Hxl _]. split.
  - rewrite zlen_app, Hxl. apply Z.divide_add_r; [apply Z.divide_add_r; [exists 1; lia|apply align_div]|exact IH1].
  - rewrite app_length. cbn [length]. pose proof (align_ge (zlen (snd x))). pose proof (zlen_nonneg (snd x)). unfold zlen in *. lia.
Qed.

Lemma reconstruct_entry pre e post size raw : Forall ext_ok (e_exts e) -> 0 <= size <= max_int64 -> raw_block (e_block e) size raw -> ~ In raw [120; 103; 76; 75]%N ->
  th_flag (e_head e) <> 103%N ->
  reconstruct (pre ++ head_bytes e ++ post) (e_head e) (zlen pre) (zlen pre + zlen (head_bytes e)) = handle_sparse (e_head e) (e_block e) (e_more e).
Proof.
  intros Hx Hs Hr Hn Hg. unfold reconstruct. apply N.eqb_neq in Hg. rewrite Hg. cbv zeta.
  rewrite (zslice_mid pre (head_bytes e) post) by lia. unfold head_bytes at 2.
  exact (find_map_exts _ _ _ _ _ _ Hx Hs Hr Hn (S (length (head_bytes e))) [] ltac:(pose proof (proj2 (exts_len _ Hx)); unfold head_bytes; rewrite app_length; lia)).
Qed.

Lemma read_pax_plain h s : plain_pax h -> read_pax h s = None.
Proof.
  intros (E1 & E2 & E3). unfold read_pax.
  destruct (bytes_eqb (th_major h) [48%N]) eqn:A; destruct (bytes_eqb (th_minor h) [48%N]) eqn:B; destruct (bytes_eqb (th_minor h) [49%N]) eqn:C;
    destruct (bytes_eqb (th_major h) [49%N]) eqn:D; cbn [andb orb]; rewrite ?bytes_eqb_eq in *; try tauto;
    (destruct (bytes_eqb (th_major h) []) eqn:F; destruct (bytes_eqb (th_minor h) []) eqn:G; cbn [negb orb]; try reflexivity;
     destruct (bytes_eqb (th_map h) []) eqn:H; cbn [negb]; try reflexivity; exfalso; apply E3;
     apply bytes_eqb_eq in F, G; split; [exact F|]; split; [exact G|]; intros K; rewrite K in H; discriminate).
Qed.

Lemma holes_entry e : entry_ok e -> th_flag (e_head e) <> 103%N ->
  handle_sparse (e_head e) (e_block e) (e_more e) = match e_map e with NoMap => None | m => Some (invert (the_map m) (th_size (e_head e))) end.
Proof.
  intros (_ & _ & _ & Hm & _) Hg. unfold handle_sparse. destruct (e_map e) as [|first groups|m|m]; cbn [the_map].
  - destruct Hm as (Hp & Hf & _). apply N.eqb_neq in Hf. rewrite Hf, (read_pax_plain _ _ Hp). reflexivity.
  - destruct Hm as (Hf & H1 & H2 & H3 & (pre & post & -> & Hpre & Hpost) & ->). rewrite Hf, N.eqb_refl.
    rewrite <- (app_nil_r (enc_extensions groups)). rewrite (map_old_roundtrip pre first groups post [] Hpre Hpost H1 H2 H3). reflexivity.
  - destruct Hm as (Hf & H1 & H2 & Hb & Ht & Hv & _). assert (th_flag (e_head e) =? 83 = false)%N as -> by (apply N.eqb_neq; destruct Hf as [-> | ->]; discriminate).
    unfold read_pax. rewrite Hb, Ht. destruct Hv as [(-> & [-> | ->])|(-> & -> & Hne)].
    + change (bytes_eqb [48%N] [48%N]) with true. cbn [orb andb]. rewrite map_0x1_roundtrip by assumption. reflexivity.
    + change (bytes_eqb [48%N] [48%N]) with true. change (bytes_eqb [49%N] [49%N]) with true. rewrite orb_true_r. cbn [orb andb]. rewrite map_0x1_roundtrip by assumption. reflexivity.
    + change (bytes_eqb [] [48%N]) with false. change (bytes_eqb [] [49%N]) with false. cbn [orb andb negb bytes_eqb].
      destruct (bytes_eqb (map_text_0x1 m) []) eqn:E; [|cbn [negb]; rewrite map_0x1_roundtrip by assumption; reflexivity].
      apply bytes_eqb_eq in E. exfalso. pose proof (map_0x1_roundtrip m H1 H2) as R. rewrite E in R. unfold read_map_0x1 in R.
      pose proof (zlen_nonneg m). rewrite parse_count_print in R by lia. change (zlen (@nil (list N))) with 0 in R.
      destruct (0 =? 2 * zlen m) eqn:E0; [|discriminate R]. destruct m; [contradiction|]. unfold zlen in E0. cbn [length] in E0. lia.
  - destruct Hm as (Hf & H1 & H2 & Hma & Hmi & fill & Hmore & Hdiv). assert (th_flag (e_head e) =? 83 = false)%N as -> by (apply N.eqb_neq; destruct Hf as [-> | ->]; discriminate).
    unfold read_pax. rewrite Hma, Hmi. change (bytes_eqb [49%N] [48%N]) with false. change (bytes_eqb [48%N] [48%N]) with true. change (bytes_eqb [49%N] [49%N]) with true. cbn [orb andb].
    rewrite Hmore in Hdiv |- *. rewrite <- (app_nil_r fill) at 1. rewrite map_1x0_roundtrip by assumption. reflexivity.
Qed.

Lemma no_body_in f : no_body f = true <-> In f [49; 50; 51; 52; 53; 54; 55; 120; 103; 76; 75]%N.
Proof.
  unfold no_body. rewrite existsb_exists. split.
  - intros (x & Hx & E). apply N.eqb_eq in E. subst. exact Hx.
  - intros H. exists f. split; [exact H|apply N.eqb_refl].
Qed.

Lemma zlen_0_nil {A} (l : list A) : zlen l = 0 -> l = [].
Proof. destruct l; [reflexivity|]. unfold zlen. cbn [length]. lia. Qed.

Lemma end_of_body_entry e fin : entry_ok e -> no_cont e ->
  end_of_body (e_head e) fin (match e_map e with NoMap => None | m => Some (invert (the_map m) (th_size (e_head e))) end) = fin + zlen (e_stored e).
Proof.
  intros (_ & _ & _ & Hm & Hl) Hc. unfold end_of_body. destruct (no_body (th_flag (e_head e))) eqn:E.
  - assert (e_stored e = []) as ->; [|change (zlen (@nil byte)) with 0; lia]. apply no_body_in in E.
    destruct (e_map e) as [|first groups|m|m].
    + destruct Hm as (_ & _ & Hx & Hg & _ & [[_ Hs]|[Hh Hs]]); [exact Hs|]. unfold header_only in Hh.
      destruct (N.eq_dec (th_flag (e_head e)) 55) as [E5|N5]; [exact (Hc E5)|].
      destruct (N.eq_dec (th_flag (e_head e)) 103) as [Eg|Ng]; [apply zlen_0_nil; rewrite Hs; exact (proj1 (Hg Eg))|].
      exfalso. cbn [In] in E, Hx, Hh. intuition congruence.
    + exfalso. destruct Hm as (Hf & _). rewrite Hf in E. cbn [In] in E. intuition discriminate.
    + exfalso. destruct Hm as ([Hf|Hf] & _); rewrite Hf in E; cbn [In] in E; intuition discriminate.
    + exfalso. destruct Hm as ([Hf|Hf] & _); rewrite Hf in E; cbn [In] in E; intuition discriminate.
  - assert (~ header_only (th_flag (e_head e))) as Nh.
    { intros Hh. assert (no_body (th_flag (e_head e)) = true) as X; [|congruence]. apply no_body_in. unfold header_only in Hh. cbn [In] in *. intuition. }
    destruct (e_map e) as [|first groups|m|m]; cbn [the_map] in *.
    + destruct Hm as (_ & _ & _ & _ & _ & [[Hh _]|[_ Hs]]); [contradiction|rewrite Hs; reflexivity].
    + destruct Hl as [Hl ->]. apply body_end_spec. exact Hl.
    + destruct Hl as [Hl ->]. apply body_end_spec. exact Hl.
    + destruct Hl as [Hl ->]. apply body_end_spec. exact Hl.
Qed.

Lemma reconstruct_ok pre e post : entry_ok e ->
  reconstruct (pre ++ head_bytes e ++ post) (e_head e) (zlen pre) (zlen pre + zlen (head_bytes e))
  = match e_map e with NoMap => None | m => Some (invert (the_map m) (th_size (e_head e))) end.
Proof.
  intros He. destruct (N.eq_dec (th_flag (e_head e)) 103) as [Eg|Ng].
  - unfold reconstruct. rewrite Eg. cbn [N.eqb Pos.eqb]. destruct He as (_ & _ & _ & Hm & _).
    destruct (e_map e) as [|first groups|m|m]; [reflexivity|..]; exfalso.
    + destruct Hm as (Hf & _). congruence.
    + destruct Hm as ([Hf|Hf] & _); congruence.
    + destruct Hm as ([Hf|Hf] & _); congruence.
  - pose proof He as (Hx & (size & raw & Hs & Hr & [Hg|Hn]) & _); [contradiction|].
    rewrite (reconstruct_entry pre e post size raw Hx Hs Hr Hn Ng). apply holes_entry; assumption.
Qed.

Lemma sections_from_places trailer es : forall pre, Forall entry_ok es -> Forall no_cont es -> Z.divide 512 (zlen pre) ->
  places (zlen pre) es (sections_from (pre ++ archive es trailer) (zlen pre) (nexts (zlen pre) es)).
Proof.
  induction es as [|e es IH]; intros pre He Hc Hd; [exact I|].
  apply Forall_cons_iff in He. destruct He as [He Hes]. apply Forall_cons_iff in Hc. destruct Hc as [Hc Hcs].
  cbn [nexts sections_from places]. cbv zeta.
  assert (exists fill, pre ++ archive (e :: es) trailer = pre ++ head_bytes e ++ fill) as [fill Ef].
  { eexists. unfold archive, entry_bytes, padded. cbn [map concat]. rewrite <- !app_assoc. reflexivity. }
  assert (reconstruct (pre ++ archive (e :: es) trailer) (e_head e) (zlen pre) (zlen pre + zlen (head_bytes e))
          = match e_map e with NoMap => None | m => Some (invert (the_map m) (th_size (e_head e))) end) as Er by (rewrite Ef; apply reconstruct_ok; exact He).
  rewrite Er. rewrite (end_of_body_entry e _ He Hc). split; [repeat split|].
  rewrite <- Z.add_assoc, (align_shift _ _ Hd). rewrite <- (zlen_app (head_bytes e) (e_stored e)).
  assert (align (zlen (head_bytes e ++ e_stored e)) = zlen (entry_bytes e)) as -> by (symmetry; apply padded_len).
  replace (pre ++ archive (e :: es) trailer) with ((pre ++ entry_bytes e) ++ archive es trailer)
    by (unfold archive; cbn [map concat]; rewrite <- !app_assoc; reflexivity).
  rewrite <- zlen_app. apply IH; [exact Hes|exact Hcs|]. rewrite zlen_app. apply Z.divide_add_r; [exact Hd|].
  unfold entry_bytes. rewrite padded_len. apply align_div.
Qed.

Lemma sections_places trailer es : Forall entry_ok es -> Forall no_cont es -> places 0 es (sections (archive es trailer) (nexts 0 es)).
Proof. intros He Hc. exact (sections_from_places trailer es [] He Hc (Z.divide_0_r 512)). Qed.

(* The content of each entry. *)
Lemma places_nth start es ss i e : places start es ss -> nth_error es i = Some e ->
  exists s, nth_error ss i = Some s /\ place (start + zlen (concat (map entry_bytes (firstn i es)))) e s.
Proof.
  revert start es ss. induction i as [|i IH]; intros start [|e0 es] [|s ss] H Hn; try discriminate; try contradiction; cbn [nth_error] in *.
  - injection Hn as ->. exists s. cbn [firstn map concat]. change (zlen (@nil byte)) with 0. rewrite Z.add_0_r. split; [reflexivity|apply H].
  - destruct H as [_ H]. destruct (IH _ _ _ H Hn) as (s' & E & P). exists s'. split; [exact E|]. cbn [firstn map concat]. rewrite zlen_app. rewrite Z.add_assoc. exact P.
Qed.

Lemma archive_split trailer es i e : nth_error es i = Some e ->
  exists post, archive es trailer = (concat (map entry_bytes (firstn i es)) ++ head_bytes e) ++ e_stored e ++ post.
Proof.
  revert es. induction i as [|i IH]; intros [|e0 es] Hn; try discriminate; cbn [nth_error] in Hn.
  - injection Hn as ->. eexists. unfold archive. cbn [firstn map concat app]. unfold entry_bytes, padded. rewrite <- !app_assoc. reflexivity.
  - destruct (IH _ Hn) as (post & E). exists post. unfold archive in *. cbn [firstn map concat]. rewrite <- !app_assoc. rewrite <- !app_assoc in E. rewrite E. reflexivity.
Qed.

Lemma plain_content trailer es i e : Forall entry_ok es -> Forall no_cont es -> nth_error es i = Some e -> e_map e = NoMap ->
  exists s, nth_error (sections (archive es trailer) (nexts 0 es)) i = Some s /\ s_head s = e_head e /\ s_holes s = None /\ plain_bytes (archive es trailer) s = e_stored e.
Proof.
  intros He Hc Hn Hm. destruct (places_nth _ _ _ _ _ (sections_places trailer es He Hc) Hn) as (s & E & (P1 & P2 & P3 & P4 & P5)).
  exists s. split; [exact E|]. split; [exact P1|]. rewrite Hm in P5. split; [exact P5|].
  unfold plain_bytes. rewrite P3, P4. destruct (archive_split trailer es i e Hn) as (post & ->).
  apply zslice_mid; [rewrite zlen_app; lia|lia].
Qed.

Lemma sparse_content trailer es i e ops : Forall entry_ok es -> Forall no_cont es -> nth_error es i = Some e -> e_map e <> NoMap -> Forall op_ok ops ->
  exists s holes, nth_error (sections (archive es trailer) (nexts 0 es)) i = Some s /\ s_head s = e_head e /\ s_holes s = Some holes /\
  exists content, is_sparse_file (the_map (e_map e)) (e_stored e) (th_size (e_head e)) content /\
  let m := new_multi (make_reader (archive es trailer) (s_end s) holes (th_size (s_head s))) in
  cur_run content 0 ops (fst (mrun m ops)) (m_off (snd (mrun m ops))).
Proof.
  intros He Hc Hn Hm Hops. destruct (places_nth _ _ _ _ _ (sections_places trailer es He Hc) Hn) as (s & E & (P1 & P2 & P3 & P4 & P5)).
  exists s, (invert (the_map (e_map e)) (th_size (e_head e))). split; [exact E|]. split; [exact P1|]. split; [rewrite P5; destruct (e_map e); [contradiction|reflexivity..]|].
  rewrite P1, P3. destruct (archive_split trailer es i e Hn) as (post & ->).
  assert (In e es) as Hin by (apply nth_error_In with i; exact Hn). rewrite Forall_forall in He. specialize (He e Hin).
  destruct He as (_ & _ & Hsz & _ & Hl).
  assert (legal (the_map (e_map e)) (th_size (e_head e)) /\ zlen (e_stored e) = stored_len (the_map (e_map e))) as [Hl1 Hl2] by (destruct (e_map e); [contradiction|exact Hl..]).
  destruct (sparse_history (concat (map entry_bytes (firstn i es)) ++ head_bytes e) (e_stored e) post _ _ ops Hl1 Hl2 ltac:(lia) Hops) as (content & Hi & outs & E1 & E2).
  exists content. split; [exact Hi|]. cbv zeta. rewrite zlen_app in E1, E2. rewrite Z.add_0_l. rewrite E1. exact E2.
Qed.

(* Concrete archives. *)
Definition blk_of (size : Z) (flag : byte) : list byte := zeros 124 ++ enc_num size ++ zeros 20 ++ [flag] ++ zeros 355.
Lemma blk_of_raw size flag : raw_block (blk_of size flag) size flag.
Proof. exists (zeros 124), (zeros 20), (zeros 355). repeat split. Qed.
Definition old_pre (size : Z) : list byte := zeros 124 ++ enc_num size ++ zeros 20 ++ [83%N] ++ zeros 229.
Definition old_blk (size : Z) (first : list (Z * Z)) (groups : list (list (Z * Z))) : list byte := enc_header (old_pre size) first groups (zeros 29).
Definition text (n : nat) : list byte := map (fun k => N.of_nat (k mod 251 + 1)%nat) (seq 0 n).

Definition ex_cont : entry := Entry [] (blk_of 512 55) [] (zeros 512) (TH 55 512 [] [] [] []) NoMap.
Definition ex_old : entry := Entry [] (old_blk 3 [(2, 3)] []) [] [7; 8; 9]%N (TH 83 6 [] [] [] []) (OldMap [(2, 3)] []).
Lemma small_map_ok m : forallb (fun e => (0 <=? fst e) && (fst e <=? max_int64) && (0 <=? snd e) && (snd e <=? max_int64)) m = true -> map_ok m.
Proof. intros H. apply Forall_forall. intros e Hin. rewrite forallb_forall in H. specialize (H e Hin). lia. Qed.

Lemma ex_cont_ok : entry_ok ex_cont.
Proof.
  split; [constructor|]. split; [exists 512, 55%N; split; [split; discriminate|]; split; [apply blk_of_raw|right; cbn; intuition discriminate]|].
  split; [split; discriminate|]. split; [|exact I]. cbn [e_map ex_cont e_head th_flag th_size e_stored e_more e_exts].
  split; [unfold plain_pax; cbn; intuition discriminate|]. split; [discriminate|]. split; [cbn; intuition discriminate|]. split; [discriminate|]. split; [reflexivity|].
  right. split; [unfold header_only; cbn; intuition discriminate|reflexivity].
Qed.
Lemma ex_old_ok : entry_ok ex_old.
Proof.
  split; [constructor|]. split.
  { exists 3, 83%N. split; [split; discriminate|]. split; [|right; cbn; intuition discriminate].
    exists (zeros 124), (zeros 20), (zeros 229 ++ skipn 386 (e_block ex_old)). repeat split; vm_compute; reflexivity. }
  split; [split; discriminate|]. split.
  - cbn [e_map ex_old e_head th_flag th_size e_stored e_more e_exts e_block]. split; [reflexivity|]. split; [apply small_map_ok; reflexivity|]. split; [discriminate|].
    split; [constructor|]. split; [|reflexivity]. exists (old_pre 3), (zeros 29). repeat split.
  - cbn. repeat split; lia.
Qed.
Lemma contiguous_breaks : exists es s t,
  Forall entry_ok es /\ map (fun e => zlen (e_stored e)) es = [512; 3] /\ sections (archive es (zeros 1024)) (nexts 0 es) = [s; t] /\ plain_bytes (archive es (zeros 1024)) s = [] /\ ~ place (zlen (entry_bytes (hd ex_old es))) (nth 1 es ex_cont) t /\ map e_map es = [NoMap; OldMap [(2, 3)] []] /\ s_holes t = Some [(0, 6)].
Proof.
  exists [ex_cont; ex_old]. eexists. eexists. split; [apply Forall_cons; [exact ex_cont_ok|apply Forall_cons; [exact ex_old_ok|apply Forall_nil]]|]. split; [reflexivity|].
  split; [vm_compute; reflexivity|]. split; [vm_compute; reflexivity|]. split; [|split; [reflexivity|vm_compute; reflexivity]].
  intros (_ & H & _). vm_compute in H. discriminate H.
Qed.

(* One of each kind: a global header, a directory, a file with a PAX header before it, the
   three ways to write a map, a contiguous file without content. *)
Definition pax_ext : list byte * list byte := (blk_of 300 120, text 300).
Definition ex_global : entry := Entry [] (blk_of 20 103) (text 20) [] (TH 103 0 [] [] [] []) NoMap.
Definition ex_dir : entry := Entry [] (blk_of 0 53) [] [] (TH 53 0 [] [] [] []) NoMap.
Definition ex_file : entry := Entry [pax_ext; (blk_of 600 76, text 600)] (blk_of 700 48) [] (text 700) (TH 48 700 [50%N] [48%N] [] []) NoMap.
Definition ex_old2 : entry :=
  Entry [] (old_blk 3 [(2, 3); (7, 1); (9, 1); (11, 1)] [[(13, 1); (20, 0)]]) (enc_extensions [[(13, 1); (20, 0)]]) (text 7) (TH 83 20 [] [] [] [])
    (OldMap [(2, 3); (7, 1); (9, 1); (11, 1)] [[(13, 1); (20, 0)]]).
Definition ex_01 : entry :=
  Entry [pax_ext] (blk_of 4 48) [] (text 4) (TH 48 9 [48%N] [49%N] (print_dec 2) (map_text_0x1 [(0, 1); (5, 3)])) (Map01 [(0, 1); (5, 3)]).
Definition ex_10 : entry :=
  Entry [pax_ext] (blk_of 4 48) (map_text_1x0 [(0, 1); (5, 3)] ++ zeros 502) (text 4) (TH 48 9 [49%N] [48%N] [] []) (Map10 [(0, 1); (5, 3)]).
Definition ex_empty_cont : entry := Entry [] (blk_of 0 55) [] [] (TH 55 0 [] [] [] []) NoMap.
Definition ex_all : list entry := [ex_global; ex_dir; ex_file; ex_old2; ex_01; ex_10; ex_empty_cont; ex_old].

Ltac raw_of size flag := exists size, flag; split; [split; discriminate|]; split; [apply blk_of_raw|right; cbn; intuition discriminate].
Lemma pax_ext_ok : ext_ok pax_ext.
Proof. split; [discriminate|]. exists 120%N. split; [cbn; auto|]. exact (blk_of_raw 300 120). Qed.
Lemma ex_global_ok : entry_ok ex_global.
Proof.
  split; [constructor|]. split; [exists 20, 103%N; split; [split; discriminate|]; split; [apply blk_of_raw|left; reflexivity]|].
  split; [split; discriminate|]. split; [|exact I]. cbn [e_map ex_global e_head th_flag th_size e_stored e_more e_exts].
  split; [unfold plain_pax; cbn; intuition discriminate|]. split; [discriminate|]. split; [cbn; intuition discriminate|]. split; [split; reflexivity|]. split; [contradiction|].
  right. split; [unfold header_only; cbn; intuition discriminate|reflexivity].
Qed.
Lemma ex_dir_ok : entry_ok ex_dir.
Proof.
  split; [constructor|]. split; [raw_of 0 53%N|]. split; [split; discriminate|]. split; [|exact I]. cbn [e_map ex_dir e_head th_flag th_size e_stored e_more e_exts].
  split; [unfold plain_pax; cbn; intuition discriminate|]. split; [discriminate|]. split; [cbn; intuition discriminate|]. split; [discriminate|]. split; [reflexivity|].
  left. split; [unfold header_only; cbn; auto 8|reflexivity].
Qed.
Lemma ex_file_ok : entry_ok ex_file.
Proof.
  split.
  { apply Forall_cons; [exact pax_ext_ok|]. apply Forall_cons; [|apply Forall_nil]. split; [discriminate|]. exists 76%N. split; [cbn; auto|exact (blk_of_raw 600 76)]. }
  split; [raw_of 700 48%N|]. split; [split; discriminate|]. split; [|exact I]. cbn [e_map ex_file e_head th_flag th_size e_stored e_more e_exts].
  split; [unfold plain_pax; cbn; intuition discriminate|]. split; [discriminate|]. split; [cbn; intuition discriminate|]. split; [discriminate|]. split; [reflexivity|].
  right. split; [unfold header_only; cbn; intuition discriminate|vm_compute; reflexivity].
Qed.
Lemma ex_old2_ok : entry_ok ex_old2.
Proof.
  split; [constructor|]. split.
  { exists 3, 83%N. split; [split; discriminate|]. split; [|right; cbn; intuition discriminate].
    exists (zeros 124), (zeros 20), (zeros 229 ++ skipn 386 (e_block ex_old2)). repeat split; vm_compute; reflexivity. }
  split; [split; discriminate|]. split.
  - cbn [e_map ex_old2 e_head th_flag th_size e_stored e_more e_exts e_block]. split; [reflexivity|]. split; [apply small_map_ok; reflexivity|]. split; [discriminate|].
    split; [apply Forall_cons; [split; [apply small_map_ok; reflexivity|discriminate]|apply Forall_nil]|]. split; [|reflexivity]. exists (old_pre 3), (zeros 29). repeat split.
  - cbn. repeat split; lia.
Qed.
Lemma ex_01_ok : entry_ok ex_01.
Proof.
  split; [apply Forall_cons; [exact pax_ext_ok|apply Forall_nil]|]. split; [raw_of 4 48%N|]. split; [split; discriminate|]. split.
  - cbn [e_map ex_01 e_head th_flag th_size e_stored e_more e_exts e_block th_blocks th_map th_major th_minor]. split; [left; reflexivity|]. split; [apply small_map_ok; reflexivity|]. split; [discriminate|].
    split; [reflexivity|]. split; [reflexivity|]. split; [left; split; [reflexivity|right; reflexivity]|reflexivity].
  - cbn. repeat split; lia.
Qed.
Lemma ex_10_ok : entry_ok ex_10.
Proof.
  split; [apply Forall_cons; [exact pax_ext_ok|apply Forall_nil]|]. split; [raw_of 4 48%N|]. split; [split; discriminate|]. split.
  - cbn [e_map ex_10 e_head th_flag th_size e_stored e_more e_exts e_block th_blocks th_map th_major th_minor]. split; [left; reflexivity|]. split; [apply small_map_ok; reflexivity|]. split; [discriminate|].
    split; [reflexivity|]. split; [reflexivity|]. exists (zeros 502). split; [reflexivity|]. exists 1. vm_compute. reflexivity.
  - cbn. repeat split; lia.
Qed.
Lemma ex_empty_cont_ok : entry_ok ex_empty_cont.
Proof.
  split; [constructor|]. split; [raw_of 0 55%N|]. split; [split; discriminate|]. split; [|exact I]. cbn [e_map ex_empty_cont e_head th_flag th_size e_stored e_more e_exts].
  split; [unfold plain_pax; cbn; intuition discriminate|]. split; [discriminate|]. split; [cbn; intuition discriminate|]. split; [discriminate|]. split; [reflexivity|].
  right. split; [unfold header_only; cbn; intuition discriminate|reflexivity].
Qed.
Lemma ex_all_ok : Forall entry_ok ex_all /\ Forall no_cont ex_all.
Proof.
  split.
  - repeat (apply Forall_cons; [first [exact ex_global_ok|exact ex_dir_ok|exact ex_file_ok|exact ex_old2_ok|exact ex_01_ok|exact ex_10_ok|exact ex_empty_cont_ok|exact ex_old_ok]|]). apply Forall_nil.
  - repeat (apply Forall_cons; [intros H; first [reflexivity|discriminate H]|]). apply Forall_nil.
Qed.
