(* C71: the content of aferofs/synth files. C72: their handles and metadata. *)
From Verif Require Import Common CommonLemmas Views_Model Views_Props MemBuf_Model MemBuf_Spec AferoFile_Model AferoFile_Spec AferoFile_Proofs.
Open Scope Z_scope.

(* An in-memory file is an array of bytes with holes, through any number of handles. *)
Theorem C71_memory_file fl g cs : access_bits fl -> Forall op_fits cs -> Forall len_ok cs -> Forall (one_access fl) cs -> affordable fl g a_fresh cs ->
  snd (af_run fl g fresh_mem cs) = snd (a_run fl a_fresh cs) /\ shows (fst (af_run fl g fresh_mem cs)) (fst (a_run fl a_fresh cs)).
Proof. exact (af_refines fl g cs). Qed.
Print Assumptions C71_memory_file.

Definition c71_heap : goheap := {| spare := fun n => Z.to_nat (n + 8); max_alloc := 140737488355328 |}.
Definition c71_ops : list (nat * mop) :=
  [(0%nat, MOpen 2); (0%nat, MOpen 1025); (0%nat, MWrite [1%N; 2%N; 3%N; 4%N]); (0%nat, MTruncate 1); (1%nat, MWrite [9%N]);
   (0%nat, MWriteAt [7%N] 5); (0%nat, MSeek (-6) 2); (0%nat, MRead 9); (1%nat, MRead 1); (0%nat, MTruncate 3); (0%nat, MTruncate 4); (0%nat, MReadAt 4 0); (0%nat, MSeek (-1) 0); (1%nat, MWriteAt [1%N] 0)].
Example C71_memory_file_met : access_bits linux_flags /\ Forall op_fits c71_ops /\ Forall len_ok c71_ops /\ Forall (one_access linux_flags) c71_ops /\
  affordable linux_flags c71_heap a_fresh c71_ops /\
  skipn 7 (snd (af_run linux_flags c71_heap fresh_mem c71_ops)) =
    [Some (MOk 6 [1%N; 9%N; 0%N; 0%N; 0%N; 7%N] e_eof); Some (MOk 0 [] e_badf); Some (MOk 0 [] e_nil); Some (MOk 0 [] e_nil); Some (MOk 4 [1%N; 9%N; 0%N; 0%N] e_nil);
     Some (MOk 0 [] e_inval); Some (MOk 0 [] e_inval)].
Proof.
  split; [exists 0, 1; repeat split; lia|]. split.
  { unfold c71_ops. repeat (apply Forall_cons; [unfold op_fits, in_int64, min_int64, max_int64; cbn; lia|]). apply Forall_nil. }
  split; [unfold c71_ops; repeat (apply Forall_cons; [vm_compute; (exact I || discriminate)|]); apply Forall_nil|].
  split; [unfold c71_ops; repeat (apply Forall_cons; [vm_compute; (exact I || (left; reflexivity) || (right; reflexivity))|]); apply Forall_nil|].
  split; [|reflexivity]. unfold affordable. repeat (split; [vm_compute; discriminate|]). exact I.
Qed.

(* A ranged view reads the bytes of its range and no others: at an offset, and from front to
   back by any sequence of reads. *)
Theorem C71_ranged_read_at d off n v len p : fits d off n -> rv_new d off n = Some v -> 0 <= len -> 0 <= p <= max_int64 ->
  gave (rv_read_at d v len p) (zslice (range_of d off n) p len) len.
Proof. exact (ranged_read_at d off n v len p). Qed.
Print Assumptions C71_ranged_read_at.

Theorem C71_ranged_reads d off n v lens q : fits d off n -> rv_new d off n = Some v -> Forall (fun l => 0 <= l) lens -> 0 <= q -> off + q <= max_int64 ->
  concat (map data_of (rv_reads d v (off + q) lens)) = zslice (range_of d off n) q (fold_right Z.add 0 lens).
Proof. exact (fun Hf Hv => ranged_reads d off n v Hf Hv lens q). Qed.
Print Assumptions C71_ranged_reads.

Definition c71_bytes : list byte := [10%N; 11%N; 12%N; 13%N; 14%N; 15%N].
Example C71_ranged_met : exists v, fits c71_bytes 2 3 /\ rv_new c71_bytes 2 3 = Some v /\
  rv_reads c71_bytes v 2 [2; 5; 1] = [MOk 2 [12%N; 13%N] e_nil; MOk 1 [14%N] e_nil; MOk 0 [] e_eof] /\ rv_read_at c71_bytes v 4 1 = MOk 2 [13%N; 14%N] e_eof.
Proof. eexists. repeat split; unfold max_int64; cbn; lia. Qed.

(* The size Stat reports for a view: the range's when it starts at 0, and not otherwise; an
   open handle reports the range's as long as the file holds all of it. *)
Theorem C71_ranged_size_partial d off n v : fits d off n -> rv_new d off n = Some v -> off + n <= zlen d ->
  rv_handle_size v = zlen (range_of d off n) /\ (off = 0 -> rv_stat_size v = zlen (range_of d off n)).
Proof. exact (ranged_size d off n v). Qed.
Print Assumptions C71_ranged_size_partial.

Theorem C71_ranged_size_refuted : exists d off n v, fits d off n /\ rv_new d off n = Some v /\ off + n <= zlen d /\
  zlen (range_of d off n) = 2 /\ rv_handle_size v = 2 /\ rv_stat_size v = -1.
Proof. exists c71_bytes, 3, 2, {| rv_off := 3; rv_n := 2 |}. repeat split; unfold max_int64; cbn; lia. Qed.
Print Assumptions C71_ranged_size_refuted.

(* The view over temporary files leaves every other file alone, and what it leaves behind is
   one file per Close that found one, each of which also failed. *)
Theorem C71_temporary_files_partial pick d0 os : picks_fresh pick ->
  let '((d, v), rs) := t_run pick (d0, None) os in
  exists extra, d = d0 ++ extra /\ length extra = ((match v with Some _ => 1 | None => 0 end) + failed_closes os rs)%nat.
Proof. exact (tmp_files pick d0 os). Qed.
Print Assumptions C71_temporary_files_partial.

Definition c71_pick (l : list nat) : nat := S (list_max l).
Lemma c71_pick_fresh : picks_fresh c71_pick.
Proof.
  intros l H. pose proof (proj1 (list_max_le l (list_max l)) (le_n _)) as Hm. rewrite Forall_forall in Hm. specialize (Hm _ H). unfold c71_pick in Hm. lia.
Qed.
Example C71_temporary_files_met : picks_fresh c71_pick /\ t_run c71_pick ([(4%nat, [7%N])], None) [TOpen; TTruncate 2; TClose; TStat] = (([(4%nat, [7%N]); (5%nat, [0%N; 0%N]); (6%nat, [])], Some 6%nat), [true; true; false; true]).
Proof. split; [exact c71_pick_fresh|reflexivity]. Qed.

(* Close should remove the file it made. *)
Theorem C71_close_removes_temporary_refuted : exists pick os, picks_fresh pick /\
  let '((d, v), rs) := t_run pick ([], None) os in v = None /\ length d = 2%nat /\ rs = [true; false; true; false].
Proof. exists c71_pick, [TOpen; TClose; TOpen; TClose]. split; [exact c71_pick_fresh|]. repeat split. Qed.
Print Assumptions C71_close_removes_temporary_refuted.

(* ---- handles ---- *)

(* Listing a directory: whatever sequence of page sizes, Seeks and changes of the directory,
   each result is the next page of the listing taken at the first Readdir since the last Seek. *)
Theorem C72_readdir {A} (cs : list (dcall A)) : snd (d_run d_fresh cs) = snd (page_run None cs).
Proof. exact (readdir_refines cs). Qed.
Print Assumptions C72_readdir.

(* Until a Seek the pages add up to a front part of the first listing, all of it once io.EOF
   was returned. *)
Theorem C72_readdir_once {A} count (l : list A) cs : Forall is_readdir cs ->
  exists rest, concat (map page_of (snd (d_run d_fresh (DReaddir count (Some l) :: cs)))) ++ rest = l /\
    (In true (map (fun r => match r with DOk _ e => e | _ => false end) (snd (d_run d_fresh (DReaddir count (Some l) :: cs)))) -> rest = []).
Proof. exact (readdir_all count l cs). Qed.
Print Assumptions C72_readdir_once.

Example C72_readdir_met :
  snd (d_run d_fresh [DReaddir 2 (Some [1; 2; 3]); DReaddir 2 (Some []); DReaddir 2 None; DSeekTo 0 0; DReaddir 0 None; DReaddir 0 (Some [4])]) =
    [DOk [1; 2] false; DOk [3] false; DOk [] true; DSeek true; DErr; DOk [4] false].
Proof. reflexivity. Qed.

(* One call at a time: calls reach the file up to and including the first Close, and every
   later one is refused. *)
Theorem C72_closed_stays_closed cs :
  let '(s, rs) := cl_calls {| cl_closed := false; cl_inner := [] |} cs in
  cl_inner s = upto_close cs /\ rs = repeat true (length (upto_close cs)) ++ repeat false (length cs - length (upto_close cs)).
Proof. exact (closable_calls cs []). Qed.
Print Assumptions C72_closed_stays_closed.

Example C72_closed_met : cl_calls {| cl_closed := false; cl_inner := [] |} [CMethod 1; CClose; CMethod 2; CClose] =
  ({| cl_closed := true; cl_inner := [CMethod 1; CClose] |}, [true; true; false; false]).
Proof. reflexivity. Qed.

(* Goroutines: once a Close has been let in, a call not yet begun never reaches the file. *)
Theorem C72_late_calls_refused c is w : cw_closed w = true -> (forall t, In t (cw_threads w) -> ct_call t = c -> ct_pc t = PCheck) ->
  times c (cw_inner (cw_run w is)) = times c (cw_inner w) /\ forall t, In t (cw_threads (cw_run w is)) -> ct_call t = c -> ct_pc t = PCheck \/ ct_pc t = PDone false.
Proof. exact (fun H => late_calls_refused c is w H). Qed.
Print Assumptions C72_late_calls_refused.

Example C72_late_calls_met :
  let w := {| cw_closed := true; cw_inner := [CClose]; cw_threads := [starting (CMethod 1); starting CClose; {| ct_call := CMethod 2; ct_pc := PInner |}] |} in
  cw_inner (cw_run w [0; 1; 2; 0; 1; 0]%nat) = [CClose; CMethod 2] /\ map ct_pc (cw_threads (cw_run w [0; 1; 2; 0; 1; 0]%nat)) = [PDone false; PDone false; PDone true].
Proof. split; reflexivity. Qed.

(* In any interleaving each goroutine's call is made at most once: as many calls as goroutines
   that were let through. *)
Theorem C72_each_call_once cs is : length (cw_inner (cw_run (cw_start cs) is)) = length (filter reached (cw_threads (cw_run (cw_start cs) is))).
Proof. exact (started_once cs is). Qed.
Print Assumptions C72_each_call_once.

(* Two Closes at once both reach the file, and so does a call that passed the check before. *)
Theorem C72_closed_once_refuted : exists is, cw_inner (cw_run (cw_start [CClose; CClose]) is) = [CClose; CClose] /\
  map ct_pc (cw_threads (cw_run (cw_start [CClose; CClose]) is)) = [PDone true; PDone true].
Proof. exists [0; 1; 0; 1; 0; 1]%nat. split; reflexivity. Qed.
Print Assumptions C72_closed_once_refuted.

Theorem C72_no_use_after_close_refuted : exists is, cw_inner (cw_run (cw_start [CMethod 1; CClose]) is) = [CClose; CMethod 1].
Proof. exists [0; 1; 1; 1; 0]%nat. reflexivity. Qed.
Print Assumptions C72_no_use_after_close_refuted.

(* ---- metadata ---- *)

(* Once a file's metadata is known, Stat's mode is what the last Chmod set, its time what the
   last Chtimes set, its size the view's. *)
Theorem C72_metadata keep os s m : vm_init m = true ->
  vm_stat (fst (vm_run keep (s, m) os)) (snd (vm_run keep (s, m) os)) =
    {| vs_mode := last_set (chmods keep) os (vm_mode m); vs_mtime := last_set chtimes os (vm_mtime m); vs_size := last_set resizes os (vs_size s) |}.
Proof. exact (fun H => proj2 (meta_run keep os s m H)). Qed.
Print Assumptions C72_metadata.

Definition c72_stat : vstat := {| vs_mode := 420; vs_mtime := 100; vs_size := 3 |}.
Example C72_metadata_met : vm_init (vm_new (Some c72_stat)) = true /\
  let '(s, m) := vm_run 511 (c72_stat, vm_new (Some c72_stat)) [VWrite 200 5; VChmod 4095; VOpen; VChtimes 50; VChtimes 0] in
  vm_stat s m = {| vs_mode := 511; vs_mtime := 50; vs_size := 5 |}.
Proof. split; reflexivity. Qed.

(* A write should move the modification time; the file's own moves, Stat's does not. *)
Theorem C72_write_sets_time_refuted : exists keep s now size, s = c72_stat /\ vs_mtime s < now /\
  let '(s1, m1) := vm_run keep (s, vm_new (Some s)) [VOpen; VWrite now size] in vs_mtime s1 = now /\ vs_size (vm_stat s1 m1) = size /\ vs_mtime (vm_stat s1 m1) = vs_mtime s.
Proof. exists 511, c72_stat, 200, 4. repeat split. Qed.
Print Assumptions C72_write_sets_time_refuted.

(* A Chmod before the first Open of a file that did not exist when added is undone by it. *)
Theorem C72_chmod_kept_refuted : exists keep s mode,
  let '(s1, m1) := vm_run keep (s, vm_new None) [VChmod mode] in
  let '(s2, m2) := vm_run keep (s, vm_new None) [VChmod mode; VOpen] in
  vs_mode (vm_stat s1 m1) = mode /\ vs_mode (vm_stat s2 m2) = vs_mode s /\ mode <> vs_mode s.
Proof. exists 511, c72_stat, 384. cbn. repeat split. discriminate. Qed.
Print Assumptions C72_chmod_kept_refuted.
