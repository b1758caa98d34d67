(* C01, C02, C03, C54: the concatenated reader of stream/multi_read_at_closer.go. *)
From Verif Require Import Common CommonLemmas MultiRead_Model MultiRead_Spec MultiRead_Proofs.
Open Scope Z_scope.

(* C01: ReadAt is slicing of the concatenation, with the io.ReaderAt EOF rule; it
   neither panics nor loops. *)
Theorem C01_read_at_is_slice_of_concatenation :
  forall segs ds len off,
    exact_all segs ds -> 0 <= len ->
    exists data e,
      read_at (S (length segs)) (new_multi segs) len off = MOk data e /\
      spec_read_at (concat ds) len off data e.
Proof. exact multi_readat. Qed.
Print Assumptions C01_read_at_is_slice_of_concatenation.

Example C01_hypotheses_met :
  exact_all [over [1;2;3]%N 3; over [] 0; over [4;5]%N 2] [[1;2;3]%N; []; [4;5]%N] /\
  read_at 4 (new_multi [over [1;2;3]%N 3; over [] 0; over [4;5]%N 2]) 7 2 = MOk [3;4;5]%N MEof.
Proof.
  split; [|vm_compute; reflexivity].
  constructor; [apply (over_exact [1;2;3]%N)|]. constructor; [apply (over_exact [])|].
  constructor; [apply (over_exact [4;5]%N)|constructor].
Qed.

(* C02: every history of Read, ReadAt and Seek is a history of one cursor over the
   concatenation. Outputs are all regular ones: cur_run has no panic or hang. *)
Theorem C02_history_refines_cursor :
  forall segs ds ops,
    exact_all segs ds -> zlen (concat ds) <= max_int64 -> Forall op_ok ops ->
    exists outs c,
      mrun (new_multi segs) ops = (outs, snd (mrun (new_multi segs) ops)) /\
      m_off (snd (mrun (new_multi segs) ops)) = c /\
      cur_run (concat ds) 0 ops outs c.
Proof. exact multi_history. Qed.
Print Assumptions C02_history_refines_cursor.

Example C02_hypotheses_met :
  exact_all [over [1;2;3]%N 3; over [4;5]%N 2] [[1;2;3]%N; [4;5]%N] /\
  Forall op_ok [OSeek (-4) SeekEnd; ORead 4; OReadAt 9 0; ORead 4; OSeek 1 SeekCurrent; ORead 1] /\
  fst (mrun (new_multi [over [1;2;3]%N 3; over [4;5]%N 2])
    [OSeek (-4) SeekEnd; ORead 4; OReadAt 9 0; ORead 4; OSeek 1 SeekCurrent; ORead 1]) =
  [OutSeek (SeekOk 1); OutRead (MOk [2;3]%N MNil); OutRead (MOk [1;2;3;4;5]%N MEof);
   OutRead (MOk [4;5]%N MEof); OutSeek (SeekOk 6); OutRead (MOk [] MEof)].
Proof.
  split; [|split; [|vm_compute; reflexivity]].
  - constructor; [apply (over_exact [1;2;3]%N)|]. constructor; [apply (over_exact [4;5]%N)|constructor].
  - repeat constructor; unfold op_ok, in_int64, min_int64, max_int64; lia.
Qed.

(* C03, positive part: with any mixture of wrongly declared sizes, draining with Read
   ends in io.EOF only if every segment except possibly the last one delivered all it
   declared, and the bytes delivered are those of the declared layout. *)
Theorem C03_short_inner_segment_never_eof_partial :
  forall segs ds lens data k s d,
    serves_all segs ds -> Forall (fun l => 0 < l) lens ->
    nth_error segs k = Some s -> nth_error ds k = Some d -> zlen d < sg_size s ->
    (S k < length segs)%nat ->
    drain (new_multi segs) lens <> (data, Some MEof).
Proof. exact drain_short_nonlast. Qed.
Print Assumptions C03_short_inner_segment_never_eof_partial.

Theorem C03_eof_means_all_but_last_complete_partial :
  forall segs ds lens data,
    serves_all segs ds -> Forall (fun l => 0 < l) lens ->
    drain (new_multi segs) lens = (data, Some MEof) ->
    (forall j, 0 <= j < zlen data -> vbyte segs ds j = zget data j) /\
    (zlen data = declared_total segs \/ last_short segs ds (zlen data)).
Proof. exact drain_new. Qed.
Print Assumptions C03_eof_means_all_but_last_complete_partial.

Example C03_hypotheses_met :
  serves_all [over [1;2]%N 5; over [3]%N 1] [[1;2]%N; [3]%N] /\ zlen [1;2]%N < 5 /\
  drain (new_multi [over [1;2]%N 5; over [3]%N 1]) [4; 4] =
    ([1;2]%N, Some (MErr 0 2 2 4 IUnexpectedEOF)).
Proof. split; [repeat constructor; try apply over_serves; cbn; lia|split; vm_compute; reflexivity]. Qed.

(* C03 as stated is false of the code: a truncated last segment ends in a plain io.EOF. *)
Theorem C03_truncated_last_segment_refuted :
  exists segs ds lens data,
    serves_all segs ds /\ Forall (fun l => 0 < l) lens /\
    drain (new_multi segs) lens = (data, Some MEof) /\ zlen data < declared_total segs.
Proof. exact c03_refuted. Qed.
Print Assumptions C03_truncated_last_segment_refuted.

(* C54, ReadAt half: the error names the segment and in-segment offset that failed. *)
Theorem C54_read_at_error_names_segment :
  forall segs fuel len off data idx ro to bl x,
    sizes_ok segs ->
    read_at fuel (new_multi segs) len off = MOk data (MErr idx ro to bl x) ->
    exists s t dat e, nth_error segs idx = Some s /\ sg_read s t bl ro = (dat, e) /\
      to = head_of segs idx + ro /\ 0 <= ro < sg_size s.
Proof. exact read_at_index. Qed.
Print Assumptions C54_read_at_error_names_segment.

Example C54_hypotheses_met :
  sizes_ok [over [1;2;3]%N 3; failing 4 9] /\
  read_at 3 (new_multi [over [1;2;3]%N 3; failing 4 9]) 5 1 =
    MOk [2;3]%N (MErr 1 0 3 3 (IReader 9)).
Proof. split; [repeat constructor; cbn; lia|vm_compute; reflexivity]. Qed.

(* C54, Read half: after reading segment 0 to its end, a failure of segment 1 is
   reported with Index 0. *)
Theorem C54_read_error_index_refuted :
  exists segs lens r1 d1 r2 d2 ro to bl c,
    sizes_ok segs /\ lens = 3 /\
    read (new_multi segs) lens = (MOk d1 MNil, r1) /\
    read r1 lens = (MOk d2 (MErr 0 ro to bl (IReader c)), r2) /\
    (exists s, nth_error segs 0 = Some s /\ forall t l o, snd (sg_read s t l o) <> ROther c) /\
    (exists s, nth_error segs 1 = Some s /\ forall t l o, sg_read s t l o = ([], ROther c)).
Proof. exact c54_refuted. Qed.
Print Assumptions C54_read_error_index_refuted.
