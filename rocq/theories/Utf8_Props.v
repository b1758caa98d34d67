(* C25: TruncateUTF8. *)
From Verif Require Import Common Utf8_Model Utf8_Spec Utf8_Proofs.
Open Scope Z_scope.

(* C25: for any bytes, valid or not, the result is the longest prefix of at most maxBytes
   bytes that ends where a decoder stands between runes (the whole string if it fits). *)
Theorem C25_longest_rune_aligned_prefix :
  forall s maxb, exists m,
    truncate_utf8 s maxb = Some (firstn m s) /\ (m <= length s)%nat /\
    (boundary s m \/ m = length s) /\ (0 <= maxb -> Z.of_nat m <= maxb) /\ (maxb <= 0 -> m = 0%nat) /\
    (forall k, boundary s k -> Z.of_nat k <= maxb -> (k <= m)%nat) /\
    (0 < maxb -> zlen s <= maxb -> m = length s).
Proof. exact truncate_spec. Qed.
Print Assumptions C25_longest_rune_aligned_prefix.

(* C25: of valid UTF-8 it keeps as many whole characters as fit, so it is valid again. *)
Theorem C25_valid_text_keeps_whole_characters :
  forall cs maxb, Forall scalar cs ->
    exists j, (j <= length cs)%nat /\ truncate_utf8 (encode_all cs) maxb = Some (encode_all (firstn j cs)) /\
      (0 <= maxb -> zlen (encode_all (firstn j cs)) <= maxb) /\
      (forall i, (i <= length cs)%nat -> zlen (encode_all (firstn i cs)) <= maxb -> (i <= j)%nat \/ maxb <= 0).
Proof. exact truncate_valid. Qed.
Print Assumptions C25_valid_text_keeps_whole_characters.

(* The doc comment promises a valid prefix of any string; invalid input comes back as is. *)
Theorem C25_doc_valid_prefix_refuted :
  exists s maxb t, truncate_utf8 s maxb = Some t /\ 0 < maxb /\ forall cs, Forall scalar cs -> t <> encode_all cs.
Proof.
  exists [255%N], 5, [255%N]. split; [reflexivity|]. split; [lia|]. intros cs Hs E.
  destruct cs as [|c cs]; [discriminate|]. inversion Hs as [|? ? Hc _]; subst.
  pose proof (decode_encode c (encode_all cs) Hc) as Hd. unfold encode_all in E. cbn [map concat] in E.
  unfold encode_all in Hd. rewrite <- E in Hd. cbn in Hd.
  assert (length (encode c) = 1%nat) as Hl by (symmetry; exact Hd).
  destruct (encode c) as [|b [|? ?]] eqn:Ee; try discriminate. injection E as <- _.
  unfold encode in Ee. destruct (N.ltb_spec c 128); [injection Ee as ->; lia|].
  destruct (c <? 2048)%N; [discriminate|]. destruct (c <? 65536)%N; discriminate.
Qed.
Print Assumptions C25_doc_valid_prefix_refuted.

(* "aé€😀" cut at every length. *)
Example C25_hypotheses_met :
  let cs := [97; 233; 8364; 128512]%N in
  Forall scalar cs /\ encode_all cs = [97; 195; 169; 226; 130; 172; 240; 159; 152; 128]%N /\
  map (fun n => option_map (@length N) (truncate_utf8 (encode_all cs) n)) [-1; 0; 1; 2; 3; 5; 6; 9; 10; 11] =
    map (@Some nat) [0; 0; 1; 1; 3; 3; 6; 6; 10; 10]%nat.
Proof. split; [|split; vm_compute; reflexivity]. repeat constructor; unfold scalar; lia. Qed.
