(* C96: readers of package stream put inside one another. *)
From Verif Require Import Common MultiRead_Model SeqRead_Model SeqRead_Spec SeqRead_Proofs
  StreamTree_Model StreamTree_Spec StreamTree_Proofs.
Open Scope Z_scope.

(* Whatever was put together from files, streams, repeaters, windows and concatenations, and
   however often and in whatever order it is read, with parts failing at any time: each ReadAt
   returns bytes of the content at its own offset, all of them when it reports no error, and
   reports io.EOF only when nothing follows. No call panics or fails to return. *)
Theorem C96_history_partial : forall f r d calls, built f r d -> Forall (fun c => 0 <= fst c) calls ->
  exists outs r', rd_run (depth r) r calls = Some (outs, r') /\
    Forall2 (fun c o => reads d (fst c) (snd c) (fst o) (x_ending (snd o))) calls outs.
Proof. exact rd_history. Qed.
Print Assumptions C96_history_partial.

(* When nothing fails beneath, the bytes are exactly those of the content. *)
Theorem C96_exact_partial : forall r d calls, built false r d -> Forall (fun c => 0 <= fst c /\ 0 <= snd c) calls ->
  exists outs r', rd_run (depth r) r calls = Some (outs, r') /\
    Forall2 (fun c o => reads_exactly d (fst c) (snd c) o) calls outs.
Proof. exact rd_history_exact. Qed.
Print Assumptions C96_exact_partial.

Example C96_met :
  built false (mixed (file_of [11;12;13]%N)) [1;2;3;4;5;9;9;9;12;13;14;15]%N /\
  option_map fst (rd_run 3 (mixed (file_of [11;12;13]%N)) [(20, 0); (4, 3); (6, 6); (1, 12); (2, -1)]) =
    Some [([1;2;3;4;5;9;9;9;12;13;14;15]%N, XEof); ([4;5;9;9]%N, XNil); ([9;9;12;13;14;15]%N, XNil); ([], XEof); ([], XEof)] /\
  built true (mixed (flaky [11;12;13]%N)) [1;2;3;4;5;9;9;9;12;13;14;15]%N /\
  option_map fst (rd_run 3 (mixed (flaky [11;12;13]%N)) [(4, 8); (9, 0); (4, 7); (4, 7)]) =
    Some [([12;13;14;15]%N, XNil); ([1;2;3;4;5;9;9;9;12]%N, XNil); ([9;12]%N, XErr (CFault 5)); ([9;12;13;14]%N, XNil)].
Proof.
  split; [apply mixed_built, file_honest|]. split; [vm_compute; reflexivity|].
  split; [apply mixed_built, flaky_honest|vm_compute; reflexivity].
Qed.

(* Reading on with Read: what comes is the beginning of the content, io.EOF comes after all of
   it, other errors only if something failed beneath, and each call makes progress. *)
Theorem C96_read_partial : forall f rs ds lens,
  built_all f rs ds -> zlen (concat ds) <= max_int64 -> Forall (fun l => 0 < l) lens ->
  exists data e c, t_drain (depth_all rs) (new_tcur rs) lens = Some (data, e, c) /\
    prefix_of data (concat ds) /\
    match e with
    | None => Z.of_nat (length lens) <= zlen data
    | Some XNil => False
    | Some XEof => data = concat ds
    | Some (XErr _) => f = true
    end.
Proof. exact read_all. Qed.
Print Assumptions C96_read_partial.

(* io.ReadAll gets everything. *)
Theorem C96_read_all_partial : forall rs ds lens,
  built_all false rs ds -> zlen (concat ds) <= max_int64 -> Forall (fun l => 0 < l) lens ->
  zlen (concat ds) < Z.of_nat (length lens) ->
  exists c, t_drain (depth_all rs) (new_tcur rs) lens = Some (concat ds, Some XEof, c).
Proof. exact read_everything. Qed.
Print Assumptions C96_read_all_partial.

(* "Sequential access pattern - one open per segment": reading a concatenation of streams to
   its end opens each of them once, at its beginning, and empty ones not at all. *)
Theorem C96_open_once_partial : forall ws lens data c,
  Forall (fun w => stream_ok w /\ fault_free w) ws ->
  zlen (concat (map src_data ws)) <= max_int64 -> Forall (fun l => 0 < l) lens ->
  t_drain 0 (new_tcur (fresh_seqs ws)) lens = Some (data, Some XEof, c) ->
  data = concat (map src_data ws) /\ map opens (c_rs c) = map opened_once ws.
Proof. exact open_once. Qed.
Print Assumptions C96_open_once_partial.

Example C96_open_once_met :
  Forall (fun w => stream_ok w /\ fault_free w) [drip [1;2;3]%N; drip []; drip [4;5]%N] /\
  option_map (fun x => (fst x, map opens (c_rs (snd x))))
    (t_drain 0 (new_tcur (fresh_seqs [drip [1;2;3]%N; drip []; drip [4;5]%N])) [2; 2; 2; 2; 2]) =
  Some ([1;2;3;4;5]%N, Some XEof, [[0]; []; [0]]).
Proof. split; [repeat (apply Forall_cons; [apply drip_ok|]); apply Forall_nil|vm_compute; reflexivity]. Qed.

(* SizedReadersFromFileLike keeps the files, in order, with the sizes Stat gives; the first
   Stat that fails is the error. *)
Theorem C96_files : forall f fs ds,
  Forall2 (fun p d => built f (fst p) d /\ snd p = inl (zlen d)) fs ds ->
  exists rs, sized_of_files fs = inl rs /\ map snd rs = map fst fs /\ built_all f rs ds.
Proof. exact sized_of_files_total. Qed.
Print Assumptions C96_files.

Theorem C96_files_error : forall fs pre r c post, fs = pre ++ (r, inr c) :: post ->
  Forall (fun p => exists z, snd p = inl z) pre -> sized_of_files fs = inr c.
Proof. exact sized_of_files_err. Qed.
Print Assumptions C96_files_error.

(* SizedReadersFromReadAtSizer, and the sizes that streams and windows inside their content
   report. *)
Theorem C96_sizers : forall f rs ds, Forall2 (fun r d => built f r d /\ size_method r = Some (zlen d)) rs ds ->
  exists l, sized_of_sizers rs = Some l /\ map snd l = rs /\ built_all f l ds.
Proof. exact sized_of_sizers_spec. Qed.
Print Assumptions C96_sizers.

Theorem C96_sizes :
  (forall w, size_method (RSeq w (new_seq (zlen (src_data w)))) = Some (zlen (src_data w))) /\
  (forall b off n, 0 <= off -> 0 <= n -> off + n <= max_int64 ->
     size_method (new_section (RRepeat b) off n) = Some (zlen (repeat b (Z.to_nat n)))) /\
  (forall r (d : list byte) off n, 0 <= off -> 0 <= n -> off + n <= zlen d -> zlen d <= max_int64 ->
     size_method (new_section r off n) = Some (zlen (zslice d off n))).
Proof. exact size_method_right. Qed.
Print Assumptions C96_sizes.

Example C96_sizers_met :
  Forall2 (fun r d => built false r d /\ size_method r = Some (zlen d))
    [RSeq (drip [1;2]%N) (new_seq 2); new_section (RRepeat 9%N) 4 3] [[1;2]; [9;9;9]]%N /\
  sized_of_files [(RLeaf (file_of [1;2]%N) 0, inl 2); (RLeaf (file_of [3]%N) 0, inr 13%N)] = inr 13%N.
Proof.
  split; [|reflexivity]. constructor; [|constructor; [|constructor]]; (split; [|reflexivity]).
  - apply (BSeq false (drip [1;2]%N)); [apply drip_ok|intros _; apply drip_ok].
  - apply (BRepeat false 9%N 4 3); vm_compute; discriminate.
Qed.

(* Sizes that add up beyond the largest int64 make the whole read as empty: io.EOF at once. *)
Theorem C96_overflow_refuted : exists b rs,
  rs = [(max_int64, new_section (RRepeat b) 0 max_int64); (1, new_section (RRepeat b) 0 1)] /\
  (forall p, In p rs -> size_method (snd p) = Some (fst p)) /\
  rd_read 2 (RMulti rs) 1 0 = Some ([], XEof, RMulti rs) /\
  t_read 2 (new_tcur rs) 1 = Some ([], XEof, new_tcur rs).
Proof. exact overflow_refuted. Qed.
Print Assumptions C96_overflow_refuted.

(* A bare ByteRepeater answers negative offsets with bytes and no error. *)
Theorem C96_repeater_negative_refuted : forall b k len off, 0 < len -> off < 0 ->
  exists data r', rd_read k (RRepeat b) len off = Some (data, XNil, r') /\ zlen data = len /\
    forall d, ~ reads d len off data (x_ending XNil).
Proof. exact repeater_negative_refuted. Qed.
Print Assumptions C96_repeater_negative_refuted.
