(* C92: a synthfs root with what its files hold. *)
From Verif Require Import Common CommonLemmas Views_Model Views_Props MemBuf_Model MemBuf_Spec Synth_Model Synth_Spec SynthPlain_Spec SynthData_Model SynthData_Spec SynthData_Proofs PathLex_Model.
From Verif Require RoViews_Model.
Open Scope nat_scope.

(* Whatever is done with names and handles, each call answers what it answers on one plain tree,
   numbered files and handles that know a file by its number, and the root goes on showing them. *)
Theorem C92_history_partial given fl g mode os : (forall x, (zlen (given x) <= max_int64)%Z) -> all_allowed given fl g (begin mode) os ->
  exists s, drun given fl g (dnew mode) os = Some (s, says given fl (begin mode) os) /\ shows_world s (makes given fl (begin mode) os).
Proof. exact (data_history given fl g mode os). Qed.
Print Assumptions C92_history_partial.

(* What is written through a handle is read through a handle opened later under any name the file
   has then, whatever names were made, renamed or removed between. *)
Theorem C92_written_read given fl g mode os names i k v p off name q m flag perm :
  let w := makes given fl (begin mode) os in
  let w1 := fst (does given fl w (DCall i (MWriteAt p off))) in
  let later := makes given fl w1 (map DTree names) in
  let j := length (w_hands w) in
  let all := os ++ DCall i (MWriteAt p off) :: map DTree names ++ [DOpen name flag perm; DCall j (MReadAt (zlen p) off)] in
  (forall x, (zlen (given x) <= max_int64)%Z) -> all_allowed given fl g (begin mode) all ->
  p <> [] -> nth_error (w_hands w) i = Some k -> k_file k = Some v -> snd (does given fl w (DCall i (MWriteAt p off))) = RData (MOk (zlen p) [] e_nil) ->
  leads_to (w_tree later) name true = Ok q -> pat (w_tree later) q = Some (LookFile m v) -> may_change fl flag = false ->
  exists s rs, drun given fl g (dnew mode) all = Some (s, rs ++ [RName (Ok tt); RData (MOk (zlen p) p e_nil)]).
Proof. exact (reads_back given fl g mode os names i k v p off name q m flag perm). Qed.
Print Assumptions C92_written_read.

(* Calls on names change no file's bytes and no handle; files only join. *)
Theorem C92_names_leave_data given fl g s o s' r : dstep given fl g s (DTree o) = Some (s', r) ->
  d_hands s' = d_hands s /\ exists new, d_views s' = d_views s ++ new /\ Forall (fun v => exists x, v = VBytes (given x)) new.
Proof. exact (tree_leaves given fl g s o s' r). Qed.
Print Assumptions C92_names_leave_data.

(* A handle answers as if nothing had happened to any name. *)
Theorem C92_handles_outlive_names given fl g os s s1 rs i x v w o : drun given fl g s (map DTree os) = Some (s1, rs) ->
  nth_error (d_hands s) i = Some x -> d_file x = Some v -> nth_error (d_views s) v = Some w ->
  option_map snd (dstep given fl g s1 (DCall i o)) = option_map snd (dstep given fl g s (DCall i o)).
Proof. exact (handles_outlive given fl g os s s1 rs i x v w o). Qed.
Print Assumptions C92_handles_outlive_names.

(* A call on a handle changes no name, no other handle and no other file. *)
Theorem C92_calls_leave_names given fl g s i o s' r : dstep given fl g s (DCall i o) = Some (s', r) ->
  (forall p, seen_at (st_heap (d_tree s')) 0 p = seen_at (st_heap (d_tree s)) 0 p) /\
  (forall j, j <> i -> nth_error (d_hands s') j = nth_error (d_hands s) j) /\
  (forall v, (forall x, nth_error (d_hands s) i = Some x -> d_file x <> Some v) -> nth_error (d_views s') v = nth_error (d_views s) v).
Proof. exact (call_leaves given fl g s i o s' r). Qed.
Print Assumptions C92_calls_leave_names.

(* Two names of one file do not share its mode: Link copies it (link.go:44-63). *)
Theorem C92_names_share_modes_refuted given fl g : ~ (forall mode os s rs p q m1 m2 v, all_allowed given fl g (begin mode) os -> drun given fl g (dnew mode) os = Some (s, rs) ->
  seen_at (st_heap (d_tree s)) 0 p = Some (LookFile m1 v) -> seen_at (st_heap (d_tree s)) 0 q = Some (LookFile m2 v) -> m1 = m2).
Proof. exact (data_names_share given fl g). Qed.
Print Assumptions C92_names_share_modes_refuted.

(* A busy history: a file written, linked, its directory renamed and removed while a handle is open,
   appended to and truncated under its other name, a bytes view added and read. *)
Definition sd : list byte := [100%N]. Definition sf : list byte := [102%N]. Definition sg : list byte := [103%N]. Definition se : list byte := [101%N]. Definition sb : list byte := [98%N].
Definition sflags : dflags := {| f_all := linux_flags; f_excl := 128 |}.
Definition sheap : goheap := {| spare := fun n => Z.to_nat (n + 8); max_alloc := 140737488355328 |}.
Definition sgiven (x : N) : list byte := [x; x; 3%N].
Definition sops : list dop :=
  [DTree (OMkdirAll 0 (join_sep [sd; sd]) 493); DOpen (join_sep [sd; sd; sf]) 194 420; DCall 0 (MWrite [1%N; 2%N; 3%N; 4%N]); DTree (OLink 0 (join_sep [sd; sd; sf]) sg);
   DTree (ORename 0 sd se); DOpen (join_sep [sd; sd; sf]) 0 0; DOpen (join_sep [se; sd; sf]) 194 420; DOpen sg 1025 0; DCall 1 (MWrite [9%N]); DTree (ORemoveAll 0 se);
   DCall 0 (MReadAt 5 0); DSize sg; DCall 1 (MRead 1); DOpen sg 513 0; DCall 0 MStat; DCall 0 (MWriteAt [7%N] 2); DTree (OAddFile 0 sb 5 420 448 true merge_overwrite);
   DOpen sb 2 0; DOpen sb 0 0; DCall 3 (MRead 8); DCall 3 (MRead 8); DCall 3 (MWrite [1%N]); DTree (ORemove 0 sb); DCall 3 (MSeek (-2) 2); DCall 3 (MRead 1);
   DCall 0 MClose; DCall 0 (MRead 1); DSize sg; DOpen (dot :: []) 2 0; DOpen (dot :: []) 0 0; DCall 0 MClose].
Example C92_busy_history :
  (forall x, (zlen (sgiven x) <= max_int64)%Z) /\ all_allowed sgiven sflags sheap (begin 493) sops /\
  says sgiven sflags (begin 493) sops =
    [RName (Ok tt); RName (Ok tt); RData (MOk 4 [] e_nil); RName (Ok tt); RName (Ok tt); RName (Err ENotExist); RName (Err EExist); RName (Ok tt); RData (MOk 1 [] e_nil); RName (Ok tt);
     RData (MOk 5 [1%N; 2%N; 3%N; 4%N; 9%N] e_nil); RData (MOk 5 [] e_nil); RData (MOk 0 [] e_badf); RName (Ok tt); RData (MOk 0 [] e_nil); RData (MOk 1 [] e_nil); RName (Ok tt);
     RName (Err EOther); RName (Ok tt); RData (MOk 3 [5%N; 5%N; 3%N] e_nil); RData (MOk 0 [] e_eof); RData (MOk 0 [] e_badf); RName (Ok tt); RData (MOk 1 [] e_nil); RData (MOk 1 [5%N] e_nil);
     RData (MOk 0 [] e_nil); RData (MOk 0 [] RoViews_Model.e_closed); RData (MOk 3 [] e_nil); RName (Err EBadf); RName (Ok tt); RData (MOk 0 [] e_nil)] /\
  option_map snd (drun sgiven sflags sheap (dnew 493) sops) = Some (says sgiven sflags (begin 493) sops) /\
  option_map (fun x => map bytes_in (d_views (fst x))) (drun sgiven sflags sheap (dnew 493) sops) = Some [[0%N; 0%N; 7%N]; [5%N; 5%N; 3%N]].
Proof. split; [intros; cbn; unfold zlen; cbn; vm_compute; discriminate|]. split; [apply all_allowedb_allowed; vm_compute; reflexivity|]. repeat split; vm_compute; reflexivity. Qed.

(* d/f is written, linked to g, d renamed to e and removed: g reads what was written. *)
Definition sbefore : list dop := [DTree (OMkdir 0 sd 493); DOpen (join_sep [sd; sf]) 194 420; DCall 0 (MWrite [1%N; 2%N])].
Definition snames : list sop := [OLink 0 (join_sep [sd; sf]) sg; ORename 0 sd se; ORemoveAll 0 se].
Example C92_written_read_met :
  let w := makes sgiven sflags (begin 493) sbefore in
  let later := makes sgiven sflags (fst (does sgiven sflags w (DCall 0 (MWriteAt [8%N; 9%N] 1)))) (map DTree snames) in
  all_allowed sgiven sflags sheap (begin 493) (sbefore ++ DCall 0 (MWriteAt [8%N; 9%N] 1) :: map DTree snames ++ [DOpen sg 0 0; DCall 1 (MReadAt 2 1)]) /\
  nth_error (w_hands w) 0 = Some {| k_file := Some 0; k_hand := {| h_flag := 194; h_off := 2 |}; k_open := true |} /\
  snd (does sgiven sflags w (DCall 0 (MWriteAt [8%N; 9%N] 1))) = RData (MOk 2 [] e_nil) /\ length (w_hands w) = 1 /\
  leads_to (w_tree later) sg true = Ok [sg] /\ pat (w_tree later) [sg] = Some (LookFile 420 0) /\ may_change sflags 0 = false /\
  option_map (fun x => skipn 7 (snd x)) (drun sgiven sflags sheap (dnew 493) (sbefore ++ DCall 0 (MWriteAt [8%N; 9%N] 1) :: map DTree snames ++ [DOpen sg 0 0; DCall 1 (MReadAt 2 1)])) =
    Some [RName (Ok tt); RData (MOk 2 [8%N; 9%N] e_nil)].
Proof. cbv zeta. split; [apply all_allowedb_allowed; vm_compute; reflexivity|]. repeat split; vm_compute; reflexivity. Qed.
(* A handle on a removed file goes on answering; a call on it changes no name. *)
Example C92_frames_met : exists s s1 s2 rs x, drun sgiven sflags sheap (dnew 493) sbefore = Some (s, [RName (Ok tt); RName (Ok tt); RData (MOk 2 [] e_nil)]) /\
  nth_error (d_hands s) 0 = Some x /\ d_file x = Some 0 /\ nth_error (d_views s) 0 <> None /\ drun sgiven sflags sheap s (map DTree snames) = Some (s1, rs) /\ rs = [RName (Ok tt); RName (Ok tt); RName (Ok tt)] /\
  dstep sgiven sflags sheap s1 (DCall 0 (MReadAt 2 0)) = Some (s2, RData (MOk 2 [1%N; 2%N] e_nil)) /\ seen_at (st_heap (d_tree s2)) 0 [sg] = Some (LookFile 420 0) /\ seen_at (st_heap (d_tree s2)) 0 [sd] = None.
Proof. do 5 eexists. do 5 (split; [vm_compute; (reflexivity || discriminate)|]). repeat split; vm_compute; reflexivity. Qed.
