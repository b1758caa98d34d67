From Verif Require Import Common MultiRead_Model SeqRead_Model SeqRead_Spec SeqRead_Proofs Chunk_Model Chunk_Spec Chunk_Proofs
  FileClient_Model FileClient_Spec Transfer_Model Transfer_Spec Transfer_Proofs.
Open Scope Z_scope.

(* C68: whatever pushes of a non-empty file went before and however the network, the
   temporary files and the local reads failed, a Push that returns nil leaves the server
   holding every chunk exactly. *)
Theorem C68_successful_push_stores_file_partial :
  forall base name d chunk n cs c s0 r s',
    plain_base base -> sizes_fit (zlen d) chunk -> is_count (zlen d) chunk n -> names_ok name n ->
    only_parts base name d chunk n s0 -> Forall (pcall_ok d) cs -> pcall_ok d c -> d <> [] ->
    run_push base name (zlen d) chunk c (run_pushes base name (zlen d) chunk cs s0) = (r, s') -> r <> PushErr ->
    holds_file base name d chunk n s'.
Proof. exact push_success. Qed.
Print Assumptions C68_successful_push_stores_file_partial.

(* C68: a Push that finds the sink complete, of any file, finds every chunk there, and sends
   nothing. *)
Theorem C68_complete_means_stored :
  forall base name d chunk n cs c s0 s',
    plain_base base -> sizes_fit (zlen d) chunk -> is_count (zlen d) chunk n -> names_ok name n ->
    only_parts base name d chunk n s0 -> Forall (pcall_ok d) cs -> pcall_ok d c ->
    run_push base name (zlen d) chunk c (run_pushes base name (zlen d) chunk cs s0) = (PushComplete, s') ->
    s' = run_pushes base name (zlen d) chunk cs s0 /\ holds_file base name d chunk n s'.
Proof. exact push_complete. Qed.
Print Assumptions C68_complete_means_stored.

(* C68: after any such history one undisturbed Push succeeds. *)
Theorem C68_undisturbed_push_completes_partial :
  forall base name d chunk n cs c s0,
    plain_base base -> sizes_fit (zlen d) chunk -> is_count (zlen d) chunk n -> names_ok name n ->
    only_parts base name d chunk n s0 -> Forall (pcall_ok d) cs -> calm d c -> d <> [] ->
    let (r, s') := run_push base name (zlen d) chunk c (run_pushes base name (zlen d) chunk cs s0) in
    r <> PushErr /\ holds_file base name d chunk n s'.
Proof. exact push_calm. Qed.
Print Assumptions C68_undisturbed_push_completes_partial.

(* C68: no history touches another object, loses a leading run of stored chunks, or leaves
   wrong bytes of the right length. *)
Theorem C68_pushes_keep_progress_and_other_objects :
  forall base name d chunk n cs s0,
    plain_base base -> sizes_fit (zlen d) chunk -> is_count (zlen d) chunk n -> names_ok name n ->
    only_parts base name d chunk n s0 -> Forall (pcall_ok d) cs ->
    let s' := run_pushes base name (zlen d) chunk cs s0 in
    only_parts base name d chunk n s' /\
    (forall key, (forall i, 0 <= i < n -> key <> object_url base (name i)) -> s' key = s0 key) /\
    (forall j, j <= n -> (forall i, 0 <= i < j -> at_chunk base name s0 i = Some (chunk_of d chunk i)) ->
       forall i, 0 <= i < j -> at_chunk base name s' i = Some (chunk_of d chunk i)).
Proof. exact pushes_frame. Qed.
Print Assumptions C68_pushes_keep_progress_and_other_objects.

(* C68: a Get of a stored chunk that succeeds hands over the chunk's bytes from the offset
   on, which is what the chunk sources below assume of an opened body. *)
Theorem C68_opened_body_is_chunk_tail :
  forall base name d chunk n f s c i off b t,
    plain_base base -> sizes_fit (zlen d) chunk -> is_count (zlen d) chunk n -> names_ok name n ->
    holds_file base name d chunk n s -> faithful f -> 0 <= i < n -> 0 <= off <= max_int64 ->
    fst (client_step (wire f) base (s, c) (FGet (name i) off)) = RGet (GOk b t) ->
    b = skipn (Z.to_nat off) (stored_chunk base name s i) /\ stored_chunk base name s i = chunk_of d chunk i /\
    t = zlen (chunk_of d chunk i).
Proof. exact got_body. Qed.
Print Assumptions C68_opened_body_is_chunk_tail.

(* C68: downloading what is stored delivers the file from any offset, whatever fails. *)
Theorem C68_download_delivers_file :
  forall base name d chunk n s f at_ close rd offset lens,
    plain_base base -> sizes_fit (zlen d) chunk -> is_count (zlen d) chunk n -> names_ok name n ->
    holds_file base name d chunk n s ->
    (forall i, 0 <= i < n -> stream_ok (download f base name s at_ close rd i)) ->
    0 <= offset < zlen d -> Forall (fun l => 0 <= l) lens ->
    exists st, chunked_open (download f base name s at_ close rd) (zlen d) chunk offset = COReader st /\
      reads_ok d offset lens (fst (cread_run st lens)).
Proof. exact arrives. Qed.
Print Assumptions C68_download_delivers_file.

(* C68: and when nothing fails, exactly the rest of the file, then io.EOF. *)
Theorem C68_undisturbed_download_is_exact :
  forall base name d chunk n s f at_ close rd offset lens,
    plain_base base -> sizes_fit (zlen d) chunk -> is_count (zlen d) chunk n -> names_ok name n ->
    holds_file base name d chunk n s ->
    (forall i, 0 <= i < n -> stream_ok (download f base name s at_ close rd i)) ->
    (forall t, f t = Serve) -> (forall i t, close i t = None) -> (forall i t len pos c, snd (rd i t len pos) <> ROther c) ->
    0 <= offset < zlen d -> Forall (fun l => 0 < l) lens -> zlen d - offset < zlen lens ->
    exists st, chunked_open (download f base name s at_ close rd) (zlen d) chunk offset = COReader st /\
      concat (map res_data (fst (cread_run st lens))) = skipn (Z.to_nat offset) d /\
      Exists is_eof (fst (cread_run st lens)).
Proof. exact arrives_calm. Qed.
Print Assumptions C68_undisturbed_download_is_exact.

(* C68: an empty file is different: however often it is pushed, with nothing failing, Push
   returns nil, its one chunk is not stored, and the sink goes on reporting incomplete. *)
Theorem C68_empty_file_refuted :
  exists base name chunk, plain_base base /\ sizes_fit 0 chunk /\ names_ok name 1 /\
  forall cs c, Forall (calm []) cs -> calm [] c ->
    run_pushes base name 0 chunk cs (fun _ => None) = (fun _ => None) /\
    run_push base name 0 chunk c (fun _ => None) = (PushCommitted, fun _ => None) /\
    ~ holds_file base name [] chunk 1 (fun _ => None) /\
    fst (sink_state_over (wire (pc_net c)) base name 0 chunk (fun _ => None, O)) = SSOk 0 false.
Proof. exact empty_never_stored. Qed.
Print Assumptions C68_empty_file_refuted.

(* C68: and a local file that ends before the size its Stat gave is taken: the last chunk is
   stored short, Push returns nil, and the sink reports incomplete. *)
Theorem C68_shrinking_file_refuted :
  exists base name c s',
    plain_base base /\ names_ok name 2 /\ (forall n, pc_net c n = Serve) /\ l_size (pc_local c) = 5 /\
    run_push base name 5 3 c (fun _ => None) = (PushCommitted, s') /\
    at_chunk base name s' 1 = Some [4%N] /\
    fst (sink_state_over (wire (fun _ => Serve)) base name 5 3 (s', O)) = SSOk 3 false.
Proof. exact shrunk_accepted. Qed.
Print Assumptions C68_shrinking_file_refuted.

(* C68: and of any local file, whatever reading it delivers, a nil Push leaves a short object
   at most under the last name. *)
Theorem C68_only_the_last_chunk_can_be_short :
  forall base name total chunk n c s0 r s',
    plain_base base -> sizes_fit total chunk -> is_count total chunk n -> names_ok name n ->
    faithful (pc_net c) -> l_size (pc_local c) = total -> 0 < total ->
    run_push base name total chunk c s0 = (r, s') -> r <> PushErr -> whole_but_last base name chunk n s'.
Proof. exact push_sized. Qed.
Print Assumptions C68_only_the_last_chunk_can_be_short.

(* C68: the sink takes no data at an offset inside a chunk, and then sends nothing. *)
Theorem C68_unaligned_append_refused : forall (S : Type) (srv : S -> hreq -> doing * S) base name total chunk tmp rewind offset r w, Z.rem offset chunk <> 0 ->
  sink_append_over srv base name total chunk tmp rewind offset r w = (false, w).
Proof. exact @unaligned_refused. Qed.
Print Assumptions C68_unaligned_append_refused.

(* Eight bytes in chunks of three. The first Push stores chunk 0 but its answer is lost; the
   second stores two bytes of chunk 1 before the connection breaks; in the third the local
   file fails; the fourth completes, and the fifth finds it complete. *)
Definition ex_d : list byte := [1;2;3;4;5;6;7;8]%N.
Definition ex_call (f : net) (l : local) : pcall := PCall f (fun _ => false) (fun _ => false) l (-1).
Definition at_req (k : nat) (x : fault) : net := fun t => if Nat.eqb t k then x else Serve.
Definition ex_broken : local := Local false false false 8 (fun off => AReader (firstn 4 (skipn (Z.to_nat off) ex_d)) (Some 7%N)).
Definition ex_history : list pcall :=
  [ex_call (at_req 1 Lost) (calm_local ex_d); ex_call (at_req 2 (Part 2)) (calm_local ex_d);
   ex_call (at_req 9 (Status 503)) ex_broken].
Definition ex_s (k : nat) : store := run_pushes ex_base ex_name 8 3 (firstn k ex_history) (fun _ => None).
Definition ex_rd : Z -> nat -> Z -> Z -> Z * rerr :=
  fun i _ len pos => let m := Z.min 2 (Z.min len (zlen (chunk_of ex_d 3 i) - pos)) in (m, if m <=? 0 then REof else RNil).

Example C68_hypotheses_met :
  plain_base ex_base /\ sizes_fit (zlen ex_d) 3 /\ is_count (zlen ex_d) 3 3 /\ names_ok ex_name 3 /\
  only_parts ex_base ex_name ex_d 3 3 (fun _ => None) /\ Forall (pcall_ok ex_d) ex_history /\
  calm ex_d (ex_call (fun _ => Serve) (calm_local ex_d)) /\
  map (fun i => at_chunk ex_base ex_name (ex_s 1) i) [0; 1; 2] = [Some [1;2;3]%N; None; None] /\
  map (fun i => at_chunk ex_base ex_name (ex_s 2) i) [0; 1; 2] = [Some [1;2;3]%N; Some [4;5]%N; None] /\
  map (fun i => at_chunk ex_base ex_name (ex_s 3) i) [0; 1; 2] = [Some [1;2;3]%N; Some [4;5;6]%N; None] /\
  (let (r, s') := run_push ex_base ex_name 8 3 (ex_call (fun _ => Serve) (calm_local ex_d)) (ex_s 3) in
   r = PushCommitted /\ map (fun i => at_chunk ex_base ex_name s' i) [0; 1; 2] = [Some [1;2;3]%N; Some [4;5;6]%N; Some [7;8]%N] /\
   fst (run_push ex_base ex_name 8 3 (ex_call (fun _ => Serve) ex_broken) s') = PushComplete /\
   match chunked_open (download (fun _ => Serve) ex_base ex_name s' (fun _ t => t) (fun _ _ => None) ex_rd) 8 3 2 with
   | COReader st => map res_data (fst (cread_run st [4; 4; 4; 4])) = [[3]; [4;5;6]; [7;8]; []]%N
   | _ => False
   end /\
   match chunked_open (download (at_req 0 Drop) ex_base ex_name s' (fun i _ => Z.to_nat (1 - i)) (fun _ _ => None) ex_rd) 8 3 2 with
   | COReader st => map res_data (fst (cread_run st [4; 4])) = [[3]; []]%N
   | _ => False
   end).
Proof.
  split; [split; vm_compute; intuition discriminate|].
  split; [unfold sizes_fit, max_int64; change (zlen ex_d) with 8; lia|].
  split; [split; [lia|split; [change (zlen ex_d) with 8; lia|change (zlen ex_d) with 8; lia]]|].
  split.
  { split.
    - intros i Hi. assert (i = 0 \/ i = 1 \/ i = 2) as [->|[->| ->]] by lia; repeat constructor.
    - intros i j Hi Hj E. unfold ex_name in E. injection E as E. lia. }
  split; [intros i v _ H; discriminate|].
  assert (forall k x, (forall c, x <> Status c \/ c = 503) -> faithful (at_req k x)) as Hf.
  { intros k x Hx t c E. unfold at_req in E. destruct (Nat.eqb t k); [|discriminate].
    destruct (Hx c) as [H| ->]; [congruence|lia]. }
  assert (forall f, faithful f -> pcall_ok ex_d (ex_call f (calm_local ex_d))) as Hcalm.
  { intros f H. split; [exact H|]. split; [reflexivity|]. intros off _. exists []. cbn. rewrite app_nil_r. auto. }
  split.
  { apply Forall_cons; [apply Hcalm; apply Hf; intros; left; discriminate|].
    apply Forall_cons; [apply Hcalm; apply Hf; intros; left; discriminate|].
    apply Forall_cons; [|apply Forall_nil]. split.
    - apply Hf. intros c. destruct (Z.eq_dec c 503); [right; assumption|left; congruence].
    - split; [reflexivity|]. intros off _. exists (skipn 4 (skipn (Z.to_nat off) ex_d)).
      cbn [ex_call pc_local ex_broken l_read ar_data ar_err]. rewrite firstn_skipn. split; [reflexivity|discriminate]. }
  split; [split; [reflexivity|split; [reflexivity|split; [reflexivity|split; [reflexivity|left; reflexivity]]]]|].
  split; [vm_compute; reflexivity|]. split; [vm_compute; reflexivity|]. split; [vm_compute; reflexivity|].
  vm_compute. repeat split.
Qed.

(* A file of five bytes by Stat that ends after four is accepted with a short last chunk; one
   that ends after two is not. *)
Example C68_short_ex :
  l_size shrinking = 5 /\ sizes_fit 5 3 /\
  (let (r, s') := run_push ex_base ex_name 5 3 (ex_call (fun _ => Serve) shrinking) (fun _ => None) in
   r = PushCommitted /\ map (at_chunk ex_base ex_name s') [0; 1] = [Some [1;2;3]%N; Some [4%N]]) /\
  (let (r, s') := run_push ex_base ex_name 5 3
     (ex_call (fun _ => Serve) (Local false false false 5 (fun off => AReader (skipn (Z.to_nat off) [1;2]%N) None))) (fun _ => None) in
   r = PushErr /\ map (at_chunk ex_base ex_name s') [0; 1] = [None; None]).
Proof. split; [reflexivity|]. split; [unfold sizes_fit, max_int64; lia|]. split; vm_compute; split; reflexivity. Qed.
