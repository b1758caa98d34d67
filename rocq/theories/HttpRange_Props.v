(* C08, C10, C11: reading a remote object by ranges (stream/httprange). *)
From Verif Require Import Common ContentRange_Model ContentRange_Spec MultiRead_Model
  HttpRange_Model HttpRange_Spec HttpRange_Proofs.
Open Scope Z_scope.

(* C08: whatever the server answered during any earlier history of reads, probes and
   closes, and whatever it answers now, a read hands out only bytes of a response that
   said they belong there and that describes the object pinned; n < len only with an
   error; EOF only at the end of the section or of the object; what was pinned stays. *)
Theorem C08_bytes_are_the_ranges_asked_for_or_an_error :
  forall srv m v s ops rs s1 len off data e s2,
    server_ok srv -> starts m v s -> Forall op_ok ops -> hrun srv v s ops = (rs, s1) ->
    0 <= len -> 0 <= off <= max_int64 -> read_at srv v s1 len off = (data, e, s2) ->
    read_contract v len off data e s2 /\ extends m (s_meta s1) /\ extends (s_meta s1) (s_meta s2).
Proof. exact history_contract. Qed.
Print Assumptions C08_bytes_are_the_ranges_asked_for_or_an_error.

(* C08: a server that answers the whole object instead of a range gives no bytes: the
   object is reported changed when the request named a version, the range ignored when not. *)
Theorem C08_whole_answer_is_refused : forall srv v s len abs,
  (forall data e s' rq r, bounded_read srv v s len abs = (data, e, s') -> s_log s' = s_log s ++ [(rq, Some r)] -> whole_answer r ->
     data = [] /\ e = refusal rq /\ s_meta s' = s_meta s /\ s_lane s' = s_lane s) /\
  (forall oe s' rq r, open_stream srv v s = (oe, s') -> s_log s' = s_log s ++ [(rq, Some r)] -> whole_answer r ->
     oe = Some (refusal rq) /\ s_meta s' = s_meta s /\ s_lane s' = LDead).
Proof. exact whole_answer_refused. Qed.
Print Assumptions C08_whole_answer_is_refused.

(* C10: the lane sends at most one request in the reader's life; each read sends at most
   one request of either kind. *)
Theorem C10_at_most_one_stream_request :
  forall srv m v s ops rs s1 len off data e s2,
    server_ok srv -> starts m v s -> Forall op_ok ops -> hrun srv v s ops = (rs, s1) ->
    0 <= len -> 0 <= off <= max_int64 -> read_at srv v s1 len off = (data, e, s2) ->
    (streams (s_log s2) <= 1)%nat /\
    exists new, s_log s2 = s_log s1 ++ new /\ (length new <= 1)%nat /\
      Forall (fun p => in_window v (s_meta s1) (fst p)) new.
Proof. exact history_requests. Qed.
Print Assumptions C10_at_most_one_stream_request.

(* C10: reading a section front to back, without failures, costs one request in all. *)
Theorem C10_in_order_reading_is_one_request :
  forall srv m off n v s lens s',
    server_ok srv -> in_int64 n -> off <= max_int64 -> init_range m off n = Some (v, s) ->
    0 < v_length v -> Forall (fun len => 0 <= len) lens ->
    in_order srv v s 0 lens = Some s' -> (length (s_log s') <= 1)%nat.
Proof. exact in_order_one_request. Qed.
Print Assumptions C10_in_order_reading_is_one_request.

(* C10 and C11: against a server telling the truth about one object, every read, through
   the lane or not, in any order, after any history and with any failures in between,
   returns what a local section reader over that object may return. *)
Theorem C11_section_reads_as_the_object :
  forall d srv m v s ops rs s1 len off data e s2,
    server_ok srv -> honest d srv -> starts m v s ->
    (forall z, known_size m = Some z -> z = zlen d) ->
    Forall op_ok ops -> hrun srv v s ops = (rs, s1) ->
    0 <= len -> 0 <= off <= max_int64 -> read_at srv v s1 len off = (data, e, s2) ->
    section_contract d v len off data e /\ e <> HHang.
Proof. exact history_section. Qed.
Print Assumptions C11_section_reads_as_the_object.

(* C11: the section NewRange makes, int64 wrap-around included: [off, off+n) cut at the
   largest offset, and unbounded for a negative n. *)
Theorem C11_section_bounds :
  forall off n v, in_int64 n -> off <= max_int64 -> range_view off n = Some v ->
    view_ok v /\ v_base v = off /\ v_base v + v_length v <= max_int64 /\
    (0 <= n -> section_end v = Z.min max_int64 (off + n)) /\ (n < 0 -> section_end v = max_int64).
Proof. exact range_view_spec. Qed.
Print Assumptions C11_section_bounds.

(* C11: a reader of the whole object is a section from its first byte to the largest offset, with
   nothing asked yet. *)
Theorem C11_whole_object : forall m v s, init_whole m = (v, s) -> v_base v = 0 /\ section_end v = max_int64 /\ s_meta s = m /\ s_lane s = LNone /\ s_log s = [].
Proof. exact whole_starts. Qed.
Print Assumptions C11_whole_object.

(* C08: what the caller knows beforehand is pinned as it is; a size only when positive. *)
Theorem C08_prior_knowledge : forall etag lastmod size,
  (prior_meta etag lastmod size = None <-> etag = [] /\ lastmod = [] /\ size <= 0) /\
  (forall mm, prior_meta etag lastmod size = Some mm -> m_etag mm = etag /\ m_lastmod mm = lastmod /\ m_origin mm = [] /\ m_header mm = None /\ m_verified mm = false) /\
  (forall z, known_size (prior_meta etag lastmod size) = Some z <-> z = size /\ 0 < size).
Proof. exact prior_spec. Qed.
Print Assumptions C08_prior_knowledge.
Example C08_prior_met : known_size (prior_meta [] [] 1) = Some 1 /\ prior_meta [] [] (-1) = None /\ known_size (prior_meta [34%N; 34%N] [] 0) = None /\
  option_map m_etag (prior_meta [34%N; 34%N] [] 0) = Some [34%N; 34%N].
Proof. repeat split. Qed.

(* A server over five bytes, delivering bodies two bytes at a time. *)
Definition ex_obj : list byte := [10; 11; 12; 13; 14]%N.
Definition ex_body (d : list byte) : body :=
  {| bd_data := d;
     bd_read := fun _ pos len =>
       let n := Z.min 2 (Z.min len (zlen d - pos)) in
       (n, if pos + n =? zlen d then REof else RNil) |}.
Definition ex_server : server := fun _ rq =>
  let e := match rq_end rq with Some e => Z.min e 4 | None => 4 end in
  if 5 <=? rq_start rq then
    Some {| rs_status := 416; rs_crange := [98;121;116;101;115;32;42;47;53]%N; rs_etag := [34;97;34]%N;
            rs_lastmod := []; rs_origin := []; rs_header := 0; rs_enc_ok := true; rs_clen := 0;
            rs_body := ex_body [] |}
  else
    Some {| rs_status := 206; rs_crange := print_range (rq_start rq) e 5; rs_etag := [34;97;34]%N;
            rs_lastmod := []; rs_origin := []; rs_header := 0; rs_enc_ok := true;
            rs_clen := e - rq_start rq + 1;
            rs_body := ex_body (zslice ex_obj (rq_start rq) (e - rq_start rq + 1)) |}.

Lemma ex_body_ok d : body_ok (ex_body d).
Proof.
  intros k pos len Hp Hl. cbn.
  remember (Z.min 2 (Z.min len (zlen d - pos))) as n eqn:En.
  cbn in Hp.
  destruct (Z.eqb_spec (pos + n) (zlen d)); repeat split; try lia; try congruence; intros; lia.
Qed.

Example C08_C10_example :
  server_ok ex_server /\
  (exists v s, init_range None 1 3 = Some (v, s) /\
     fst (hrun ex_server v s [OpRead 2 0; OpRead 2 2; OpRead 1 0; OpRead 5 1; OpRead 1 3; OpRead 1 9]) =
     [([11; 12]%N, HNil); ([13]%N, HEof); ([11]%N, HNil); ([12; 13]%N, HEof); ([], HEof); ([], HEof)] /\
     (exists s', in_order ex_server v s 0 [1; 1] = Some s' /\ length (s_log s') = 1%nat)).
Proof.
  split.
  - intros k rq r H. unfold ex_server in H. destruct (5 <=? rq_start rq); injection H as <-; apply ex_body_ok.
  - eexists; eexists. split; [vm_compute; reflexivity|]. split; [vm_compute; reflexivity|].
    eexists. split; vm_compute; reflexivity.
Qed.

Definition ex_whole : server := fun _ _ =>
  Some {| rs_status := 200; rs_crange := []; rs_etag := []; rs_lastmod := []; rs_origin := []; rs_header := 0;
          rs_enc_ok := true; rs_clen := 5; rs_body := ex_body ex_obj |}.
Example C08_whole_answer_met : forall m, exists v s r, init_range m 1 3 = Some (v, s) /\ whole_answer r /\
  let rq := {| rq_start := 1; rq_end := Some 2; rq_ifrange := if_range_value m; rq_stream := false |} in
  bounded_read ex_whole v s 2 1 = ([], refusal rq, {| s_meta := m; s_lane := s_lane s; s_log := [(rq, Some r)] |}).
Proof.
  intros m. do 3 eexists. split; [unfold init_range; cbn; reflexivity|]. split; [|unfold bounded_read; cbn; destruct (if_range_value m); reflexivity].
  repeat split; right; reflexivity.
Qed.
