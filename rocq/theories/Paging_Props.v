(* C33: reading a directory in batches returns every entry exactly once. *)
From Verif Require Import Common CommonLemmas PathLex_Model TarFs_Model TarFs_Spec TarFs_Proofs Paging_Model Paging_Spec Paging_Proofs.
Open Scope Z_scope.

(* What [pages] promises: from the start, reads of any sizes hand out a prefix of the
   listing in order, all of it once a read meets the end or asks for the rest. *)
Theorem C33_batches_are_the_listing_once {A} (L : list A) mv ns : exists q,
  0 <= q <= zlen L /\ handed (pages mv L 0 (map PRead ns)) = zslice L 0 (q - 0) /\
  (In PEof (pages mv L 0 (map PRead ns)) -> q = zlen L) /\ ((exists n, In n ns /\ n <= 0) -> q = zlen L) /\
  Forall (fun r => r <> PErr /\ r <> PPanic) (pages mv L 0 (map PRead ns)).
Proof. exact (reads_prefix L mv ns 0 _ (conj (Z.le_refl 0) (zlen_nonneg L)) eq_refl). Qed.
Print Assumptions C33_batches_are_the_listing_once.

Example C33_batches_met : handed (pages synth_move [1; 2; 3] 0 (map PRead [2; 2; 1])) = [1; 2; 3] /\ In PEof (pages synth_move [1; 2; 3] 0 (map PRead [2; 2; 1])).
Proof. split; [reflexivity|]. cbn. tauto. Qed.

Theorem C33_tar_handle {A} (L : list A) ops : fst (prun (tar_read (zlen L) L) (tar_seek L) fresh ops) = pages tar_move L 0 ops.
Proof. exact (tar_pages L ops fresh eq_refl (conj (Z.le_refl 0) (zlen_nonneg L))). Qed.
Print Assumptions C33_tar_handle.

(* The two lengths the code uses agree in every directory of a complete archive. *)
Theorem C33_tar_directory o arch : no_dotted arch -> complete o arch -> forall c h files ordered ops, tfind (tar_new o arch) c = Some (NDir h files ordered) ->
  fst (prun (tar_read (zlen files) ordered) (tar_seek ordered) fresh ops) = pages tar_move ordered 0 ops.
Proof. exact (tar_directory_pages o arch). Qed.
Print Assumptions C33_tar_directory.

(* A file another entry uses as a directory leaves two entries for one name: the end comes early. *)
Theorem C33_tar_entry_lost_refuted : exists arch h files ordered,
  tar_new (TOpt false true true) arch = NDir h files ordered /\ zlen ordered = 2 /\
  fst (prun (tar_read (zlen files) ordered) (tar_seek ordered) fresh [PRead 1; PRead 1]) = [POut (zslice ordered 0 1); PEof].
Proof. exists [Hdr [100%N] TReg [] 1; Hdr [100%N; sep; 102%N] TReg [] 2]. do 3 eexists. split; [vm_compute; reflexivity|]. split; reflexivity. Qed.
Print Assumptions C33_tar_entry_lost_refuted.

Theorem C33_synthfs_handle_partial {A} (L : list A) ops : zlen L <= max_int64 -> Forall (batch_fits L) ops ->
  fst (prun (synth_read L) (synth_seek L) fresh ops) = pages synth_move L 0 ops.
Proof. exact (fun HL Hf => synth_pages L HL ops Hf fresh eq_refl (conj (Z.le_refl 0) (zlen_nonneg L))). Qed.
Print Assumptions C33_synthfs_handle_partial.

Theorem C33_overlayfs_handle_partial {A} (L : list A) ops : zlen L <= max_int64 -> Forall (batch_fits L) ops ->
  fst (prun (over_read L) (over_seek L) fresh ops) = pages over_move L 0 ops.
Proof. exact (fun HL Hf => over_pages L HL ops Hf fresh eq_refl (or_introl eq_refl) (conj (Z.le_refl 0) (zlen_nonneg L))). Qed.
Print Assumptions C33_overlayfs_handle_partial.

Example C33_handles_met : zlen [1; 2; 3] <= max_int64 /\ Forall (batch_fits [1; 2; 3]) [PRead 2; PSeek 0 0; PRead 2; PRead (-1); PRead 1].
Proof. split; [unfold max_int64; cbn; lia|]. repeat (apply Forall_cons; [unfold batch_fits, max_int64; cbn; lia|]). apply Forall_nil. Qed.

(* cursor+n overflows for a huge batch after a partial read: both handles panic. *)
Theorem C33_huge_batch_panics_refuted :
  fst (prun (synth_read [1; 2; 3]) (synth_seek [1; 2; 3]) fresh [PRead 1; PRead max_int64]) = [POut [1]; PPanic] /\
  fst (prun (over_read [1; 2; 3]) (over_seek [1; 2; 3]) fresh [PRead 1; PRead max_int64]) = [POut [1]; PPanic].
Proof. split; reflexivity. Qed.
Print Assumptions C33_huge_batch_panics_refuted.

Theorem C33_sftp_handle_partial {A} (L : list A) mv ns : fst (prun (sftp_read L) (sftp_seek L) fresh (map PRead ns)) = pages mv L 0 (map PRead ns).
Proof. exact (sftp_pages L mv ns 0 fresh (conj (Z.le_refl 0) (zlen_nonneg L)) eq_refl). Qed.
Print Assumptions C33_sftp_handle_partial.

(* Rewinding an sftp directory handle does not start over. *)
Theorem C33_sftp_rewind_refuted : fst (prun (sftp_read [1; 2]) (sftp_seek [1; 2]) fresh [PRead (-1); PSeek 0 0; PRead 1]) = [POut [1; 2]; PEof].
Proof. reflexivity. Qed.
Print Assumptions C33_sftp_rewind_refuted.

(* ---- while the directory changes ---- *)

(* overlayfs: every history, every change of the directory between the calls. *)
Theorem C33_overlayfs_lists_as_of_opening_or_rewinding_partial {A} (ops : list (list A * pop)) : all_fit ops ->
  fst (prun_live over_read over_seek fresh ops) = live_pages over_move None 0 ops.
Proof. exact (fun Hf => over_live ops Hf fresh eq_refl (fun L E => False_ind _ (@eq_ind _ (@None (list A)) (fun o => match o with None => True | Some _ => False end) I _ E)) (fun _ => eq_refl)). Qed.
Print Assumptions C33_overlayfs_lists_as_of_opening_or_rewinding_partial.

(* So reads alone page through the listing at the first of them. *)
Theorem C33_reads_page_through_one_listing {A} mv (all : list A) n ns :
  live_pages mv None 0 ((all, PRead n) :: map (fun x => (fst x, PRead (snd x))) ns) = pages mv all 0 (PRead n :: map PRead (map snd ns)).
Proof. exact (f_equal (cons (page all 0 n)) (live_reads mv all ns (advance 0 (page all 0 n)))). Qed.
Print Assumptions C33_reads_page_through_one_listing.

Theorem C33_sftp_lists_as_of_the_first_read_partial {A} mv (all : list A) n ns :
  fst (prun_live sftp_read sftp_seek fresh (map (fun x => (fst x, PRead (snd x))) ((all, n) :: ns))) = pages mv all 0 (map PRead (map snd ((all, n) :: ns))).
Proof. exact (sftp_live_first mv all n ns). Qed.
Print Assumptions C33_sftp_lists_as_of_the_first_read_partial.

Example C33_live_met : all_fit [([1; 2; 3], PRead 1); ([2; 3], PRead 5); ([2; 3], PSeek 0 0); ([3], PRead 5)] /\
  live_pages over_move None 0 [([1; 2; 3], PRead 1); ([2; 3], PRead 5); ([2; 3], PSeek 0 0); ([3], PRead 5)] = [POut [1]; POut [2; 3]; POut [3]].
Proof.
  split; [|reflexivity]. intros L o o' all H1 H2.
  assert (zlen L <= 3) by (repeat (destruct H1 as [H1|H1]; [apply (f_equal fst) in H1; cbn in H1; subst L; cbn; lia|]); destruct H1).
  split; [unfold max_int64; lia|].
  repeat (destruct H2 as [H2|H2]; [apply (f_equal snd) in H2; cbn in H2; subst o'; unfold batch_fits, max_int64; first [exact I|lia]|]). destruct H2.
Qed.

(* synthfs counts from the start of the present listing: removing an entry already read makes
   the next one go missing, although it is there all the time. *)
Theorem C33_synthfs_removal_hides_a_neighbour_refuted : exists (all : list Z) x y,
  In x all /\ x <> y /\
  fst (prun_live synth_read synth_seek fresh [(y :: all, PRead 1); (all, PRead 1); (all, PRead 1)]) = [POut [y]; POut [3]; PEof] /\
  ~ In x (handed (fst (prun_live synth_read synth_seek fresh [(y :: all, PRead 1); (all, PRead 1); (all, PRead 1)]))).
Proof. exists [2; 3], 2, 1. split; [left; reflexivity|]. split; [discriminate|]. split; [reflexivity|]. cbn. intros [H|[H|[]]]; discriminate. Qed.
Print Assumptions C33_synthfs_removal_hides_a_neighbour_refuted.

(* A closed handle lists nothing, whatever is tried. *)
Theorem C33_closed_handles_list_nothing {A} (L : list A) ops h : p_closed h = true ->
  Forall (eq PErr) (fst (prun (tar_read (zlen L) L) (tar_seek L) h ops)) /\
  Forall (eq PErr) (fst (prun (synth_read L) (synth_seek L) h ops)) /\
  Forall (eq PErr) (fst (prun (over_read L) (over_seek L) h ops)).
Proof. exact (closed_lists_nothing L ops h). Qed.
Print Assumptions C33_closed_handles_list_nothing.
Example C33_closed_ex : fst (prun (synth_read [1; 2]) (synth_seek [1; 2]) (PH 1 true None) [PRead 1; PSeek 0 0; PRead (-1)]) = [PErr; PErr].
Proof. reflexivity. Qed.

(* Which seeks on a directory are taken. *)
Theorem C33_seeks {A} (L : list A) off w h :
  (fst (tar_seek L off w h) = true <-> p_closed h = false /\ ((w = 0 /\ 0 <= off) \/ (w = 1 /\ off = 0) \/ (w = 2 /\ off <= 0))) /\
  (fst (synth_seek L off w h) = true <-> (w = 0 /\ 0 <= off) \/ (w = 1 /\ off = 0) \/ (w = 2 /\ off <= 0)) /\
  (fst (over_seek L off w h) = true <-> off = 0 /\ (w = 0 \/ w = 1 \/ w = 2)).
Proof. exact (seeks_taken L off w h). Qed.
Print Assumptions C33_seeks.
Example C33_seeks_ex : fst (over_seek [1; 2] (-1) 1 fresh) = false /\ fst (synth_seek [1; 2] (-1) 2 fresh) = true /\ fst (tar_seek [1; 2] 0 3 fresh) = false.
Proof. repeat split. Qed.

(* sftpfs's Close is the remote file's; the listing asks the server by path and goes on. *)
Theorem C33_sftp_lists_when_closed_refuted : exists (L : list Z) h, p_closed h = true /\ fst (sftp_read L (-1) h) = POut L /\ L <> [].
Proof. exists [1; 2], (PH 0 true None). split; [reflexivity|]. split; [reflexivity|discriminate]. Qed.
Print Assumptions C33_sftp_lists_when_closed_refuted.
