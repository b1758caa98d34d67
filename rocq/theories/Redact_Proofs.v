From Verif Require Import Common Redact_Model Redact_Spec.

Lemma redact_raw_indistinct parse render raw1 raw2 :
  indistinct parse raw1 raw2 -> redact_raw parse render raw1 = redact_raw parse render raw2.
Proof.
  unfold indistinct, redact_raw, redact_url. destruct (parse raw1) as [a|], (parse raw2) as [b|]; try tauto.
  intros (-> & -> & -> & -> & -> & ->). reflexivity.
Qed.

Lemma under_url_as e : under_url e = option_map snd (as_url_error e).
Proof. induction e; cbn; auto. Qed.

Lemma as_none e : under_url e = None <-> as_url_error e = None.
Proof. rewrite under_url_as. destruct (as_url_error e); cbn; split; congruence. Qed.

Lemma same_failure_as raw1 raw2 e1 e2 : same_failure raw1 raw2 e1 e2 ->
  (exists op inner, as_url_error e1 = Some (op, raw1, inner) /\ as_url_error e2 = Some (op, raw2, inner)) \/
  (as_url_error e1 = None /\ as_url_error e2 = None).
Proof.
  induction 1 as [op inner|m1 m2 e1 e2 H IH|e He]; cbn [as_url_error]; eauto.
  apply as_none in He. auto.
Qed.

Lemma redact_error_url parse render raw1 raw2 e1 e2 op inner :
  indistinct parse raw1 raw2 ->
  as_url_error e1 = Some (op, raw1, inner) -> as_url_error e2 = Some (op, raw2, inner) ->
  redact_error parse render e1 = redact_error parse render e2.
Proof.
  intros Hi H1 H2. unfold redact_error. rewrite H1, H2. now rewrite (redact_raw_indistinct _ _ _ _ Hi).
Qed.

Lemma redact_noninterference parse render quote raw1 raw2 e1 e2 :
  indistinct parse raw1 raw2 -> same_failure raw1 raw2 e1 e2 -> under_url e1 <> None ->
  text quote (redact_error parse render e1) = text quote (redact_error parse render e2).
Proof.
  intros Hi Hs Hne. rewrite as_none in Hne. destruct (same_failure_as _ _ _ _ Hs) as [(op & inner & H1 & H2)|[H1 H2]]; [|contradiction].
  now rewrite (redact_error_url _ render _ _ _ _ _ _ Hi H1 H2).
Qed.

Lemma own_noninterference parse render quote pre post raw1 raw2 e1 e2 :
  indistinct parse raw1 raw2 -> same_failure raw1 raw2 e1 e2 ->
  (under_url e1 = None -> e1 = e2) ->
  text quote (own_message parse render pre post raw1 e1) = text quote (own_message parse render pre post raw2 e2).
Proof.
  intros Hi Hs Hl. unfold own_message. cbn [text]. rewrite (redact_raw_indistinct _ render _ _ Hi). f_equal.
  destruct (under_url e1) eqn:E.
  - eapply redact_noninterference; try eassumption. congruence.
  - rewrite Hl by reflexivity. reflexivity.
Qed.

Lemma redact_keeps_cause parse render c e : cause_of c e -> cause_of c (redact_error parse render e).
Proof.
  unfold cause_of, redact_error. rewrite (under_url_as e). destruct (as_url_error e) as [[[op raw] inner]|] eqn:E; cbn [under_url option_map snd]; auto.
  rewrite under_url_as, E. auto.
Qed.

Definition ex_parse (raw : str) : option url :=
  match raw with
  | [1%N] => Some {| u_scheme := []; u_opaque := []; u_user := Some [7%N]; u_host := []; u_path := []; u_rawpath := [];
              u_omithost := false; u_forcequery := false; u_rawquery := [9%N]; u_fragment := []; u_rawfragment := [] |}
  | [2%N] => Some {| u_scheme := []; u_opaque := []; u_user := None; u_host := []; u_path := []; u_rawpath := [];
              u_omithost := false; u_forcequery := true; u_rawquery := []; u_fragment := [8%N]; u_rawfragment := [] |}
  | _ => None
  end.
(* scheme host path user query fragment, simply appended *)
Definition ex_render (u : url) : str :=
  u_scheme u ++ match u_user u with Some s => s ++ [64%N] | None => [] end ++ u_host u ++ u_path u ++ u_rawquery u ++ u_fragment u.

Lemma fs_redact_discloses :
  exists parse render quote raw1 raw2 op inner,
    indistinct parse raw1 raw2 /\
    text quote (fs_redact_error parse render (GUrl op raw1 inner)) <>
    text quote (fs_redact_error parse render (GUrl op raw2 inner)).
Proof.
  exists ex_parse, ex_render, (fun s => s), [5%N], [6%N], [], (GLeaf []).
  split; [exact I|]. vm_compute. discriminate.
Qed.

Lemma nested_discloses :
  exists parse render quote raw1 raw2 op inner1 inner2,
    indistinct parse raw1 raw2 /\ same_failure raw1 raw2 inner1 inner2 /\
    text quote (redact_error parse render (GUrl op raw1 inner1)) <>
    text quote (redact_error parse render (GUrl op raw2 inner2)).
Proof.
  exists ex_parse, ex_render, (fun s => s), [1%N], [2%N], [], (GUrl [] [1%N] (GLeaf [])), (GUrl [] [2%N] (GLeaf [])).
  split; [repeat split|]. split; [constructor|]. vm_compute. discriminate.
Qed.

Lemma redacted_shows parse render op raw inner e : within_messages (GUrl op raw inner) e ->
  match parse raw with
  | Some u => exists v, same_public u v /\ bare v /\ redact_error parse render e = GUrl op (render v) inner
  | None => redact_error parse render e = GUrl op placeholder inner
  end.
Proof.
  intros H. assert (redact_error parse render e = GUrl op (redact_raw parse render raw) inner) as E.
  { unfold redact_error. replace (as_url_error e) with (Some (op, raw, inner)); [reflexivity|]. induction H; [reflexivity|exact IHwithin_messages]. }
  rewrite E. unfold redact_raw. destruct (parse raw) as [u|]; [|reflexivity]. eexists. split; [|split; [|reflexivity]]; repeat split.
Qed.
