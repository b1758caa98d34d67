From Verif Require Import Common ContentRange_Model PathLex_Model Views_Model Views_Spec IoBridge_Model IoBridge_Spec IoBridge_Proofs Nest_Model Nest_Spec Nest_Proofs.
Open Scope Z_scope.

(* ---- C93: vroot's wrappers in any order ---- *)

(* A stack of all wrappers: normalizer, sub "srv/./a", read-only, widened, sub "b". *)
Definition nest_dirs (p : list byte) : bool := existsb (fun q => if list_eq_dec N.eq_dec p q then true else false)
  [[115; 114; 118; 47; 97]; [115; 114; 118; 47; 97; 47; 98]]%N.
Definition nest_os : native := {| n_wide := false; n_readfile := true; n_readdir := false |}.
Definition nest_ws : list wrap := [AddNormalize; AddSub [115; 114; 118; 47; 46; 47; 97]%N; AddFreeze; AddWiden; AddSub [98]%N].
Definition nest_v : view := Widened (Prefixed [98]%N (Frozen (Prefixed [115; 114; 118; 47; 97]%N (Normalized Base)))).
Example C93_met :
  build nest_dirs nest_os unix_flags nest_ws Base = Some nest_v /\
  down unix_flags 0 nest_v (V1 Open [120; 47; 46; 46; 47; 121]%N) = inl (V1 Open [115; 114; 118; 47; 97; 47; 98; 47; 121]%N) /\
  down unix_flags 0 nest_v (V1 Open [46; 46]%N) = inr REscapes /\
  down unix_flags 0 nest_v (VRemoveAll [46]%N) = inr RItself /\
  down unix_flags 0 (Frozen nest_v) (VRemoveAll [46]%N) = inr RReadOnly /\
  down unix_flags 1 nest_v (V1 OpenFile [121]%N) = inr RReadOnly /\
  sub nest_dirs nest_os unix_flags Base (joined [115; 114; 118]%N [97; 47; 98]%N) = Some (Prefixed [115; 114; 118; 47; 97; 47; 98]%N Base) /\
  read_file (fun p => if nest_dirs p then inr 21%nat else inl (p, None)) (fun p => if nest_dirs p then ([], Some 21%nat) else (p, None)) nest_os unix_flags nest_v [121]%N =
    ([BOpen [115; 114; 118; 47; 97; 47; 98; 47; 121]%N; BRead; BClose], ([115; 114; 118; 47; 97; 47; 98; 47; 121]%N, None)) /\
  write_file None (Some 28%nat) (Some 5%nat) unix_flags (Widened Base) [121]%N [1; 2]%N =
    ([BOpenFile [121]%N 577; BWrite [1; 2]%N; BClose], Some (EBase 28)).
Proof. repeat split; vm_compute; reflexivity. Qed.

(* A call through a stack reaches the bottom exactly when the one view the stack stands for lets
   it through, and then as the same call on the paths the names stand for. *)
Theorem C93_one_view is_dir nt fl ws v : build is_dir nt fl ws Base = Some v ->
  forall flag c c',
  down fl flag v c = inl c' <-> lets fl flag v c /\ same_call c c' /\ Forall2 (lands v) (paths_of c) (paths_of c').
Proof. intros H flag c c'. exact (down_spec fl flag v (built _ _ _ _ _ H) c c'). Qed.
Print Assumptions C93_one_view.

(* Each wrapper adds its part: a directory below, the read-only bit, the cleaning, the file type. *)
Theorem C93_added is_dir nt fl ws v w v' : build is_dir nt fl ws Base = Some v -> put is_dir nt fl w v = Some v' -> added nt w v v'.
Proof. intros H. exact (put_adds is_dir nt fl w v v' (built _ _ _ _ _ H)). Qed.
Print Assumptions C93_added.

(* Otherwise the outermost wrapper that objects says why, and the bottom is not asked. *)
Theorem C93_refusal is_dir nt fl ws v : build is_dir nt fl ws Base = Some v ->
  forall flag c r, down fl flag v c = inr r <-> objects fl flag c false v r.
Proof. intros H flag c r. exact (refusal_spec fl flag v c r (built _ _ _ _ _ H)). Qed.
Print Assumptions C93_refusal.

(* The handles of a stack with a read-only wrapper never change a file; those of any other stack
   are the bottom's. *)
Theorem C93_handles v o : (frozen v -> looks_file (file_down v o)) /\ (looks_file o \/ ~ frozen v -> file_down v o = o).
Proof. exact (file_down_spec v o). Qed.
Print Assumptions C93_handles.

(* Sub shows the directory, and stays read-only or not. *)
Theorem C93_sub is_dir nt fl ws v d v' : build is_dir nt fl ws Base = Some v -> sub is_dir nt fl v d = Some v' ->
  (forall name q, lands v' name q <->
     match base_of v with
     | Some (r, l) => q = render r (l ++ elems d ++ elems name)
     | None => q = render (rooted d) (elems d ++ elems name)
     end) /\
  (frozen v' <-> frozen v) /\ base_of v' <> None.
Proof. intros H. exact (sub_shows is_dir nt fl v d v' (built _ _ _ _ _ H)). Qed.
Print Assumptions C93_sub.

(* Sub of a Sub is the Sub of the joined path: one exists when the other does, and nobody can
   tell them apart. *)
Theorem C93_sub_of_sub is_dir nt fl ws v a b va : build is_dir nt fl ws Base = Some v ->
  sub is_dir nt fl v a = Some va -> b <> [] ->
  (forall vb, sub is_dir nt fl va b = Some vb -> inside b /\ exists vab, sub is_dir nt fl v (joined a b) = Some vab /\ alike vb vab) /\
  (forall vab, inside b -> sub is_dir nt fl v (joined a b) = Some vab -> exists vb, sub is_dir nt fl va b = Some vb /\ alike vb vab).
Proof. intros H. exact (sub_twice is_dir nt fl v a b va (built _ _ _ _ _ H)). Qed.
Print Assumptions C93_sub_of_sub.

(* A read-only wrapper over a prefix lets through what a prefix over a read-only wrapper does. *)
Theorem C93_readonly_over_prefix is_dir nt fl ws v p vp vf : build is_dir nt fl ws Base = Some v ->
  put is_dir nt fl (AddPrefix p) v = Some vp -> put is_dir nt fl (AddPrefix p) (Frozen v) = Some vf ->
  forall flag c c', down fl flag (Frozen vp) c = inl c' <-> down fl flag vf c = inl c'.
Proof. exact (readonly_over_prefix is_dir nt fl ws v p vp vf). Qed.
Print Assumptions C93_readonly_over_prefix.

(* Widen is not seen: the result has the same calls, handles, files, listings
   and subs. *)
Theorem C93_widen nt v :
  alike (widen nt v) v /\
  (forall opened own fl name, read_file opened own nt fl (widen nt v) name = read_file opened own nt fl v name) /\
  (forall A sort (opened : list byte -> (list (dirent A) * option nat) + nat) own fl name, list_dir sort opened own nt fl (widen nt v) name = list_dir sort opened own nt fl v name) /\
  (forall is_dir fl d,
     match sub is_dir nt fl (widen nt v) d, sub is_dir nt fl v d with Some a, Some b => alike a b | None, None => True | _, _ => False end).
Proof.
  exact (conj (widen_alike nt v) (conj (fun opened own fl name => widen_reads opened own nt fl v name)
    (conj (fun A sort opened own fl name => widen_lists sort opened own nt fl v name) (fun is_dir fl d => widen_subs is_dir nt fl v d)))).
Qed.
Print Assumptions C93_widen.

(* ReadFile and ReadDir answer what the bottom holds at the path the name stands for, whether or
   not the bottom has methods of its own for it, and close what they open. *)
Theorem C93_read_file is_dir nt fl ws v : build is_dir nt fl ws Base = Some v ->
  forall opened own name, own_agrees (fun l => l) opened own ->
  reads_as (fun l => l) opened fl BReadFile v name (read_file opened own nt fl v name).
Proof. intros H opened own name. exact (read_file_spec opened own nt fl v name (built _ _ _ _ _ H)). Qed.
Print Assumptions C93_read_file.

Theorem C93_read_dir {A} is_dir nt fl ws v : build is_dir nt fl ws Base = Some v ->
  forall sort (opened : list byte -> (list (dirent A) * option nat) + nat) own name,
  own_agrees (fun l => if (2 <=? length l)%nat then sort l else l) opened own ->
  reads_as (fun l => if (2 <=? length l)%nat then sort l else l) opened fl BReadDir v name (list_dir sort opened own nt fl v name).
Proof. intros H sort opened own name. exact (list_dir_spec sort opened own nt fl v name (built _ _ _ _ _ H)). Qed.
Print Assumptions C93_read_dir.

(* WriteFile reports no error exactly when opening, writing and closing all went well; it writes
   the data once, to the file the name stands for, and closes it. *)
Theorem C93_write_file is_dir nt fl ws v : build is_dir nt fl ws Base = Some v ->
  forall opened wrote closed name data,
  let '(log, err) := write_file opened wrote closed fl v name data in
  (exists r, objects fl (write_flag fl) (V1 OpenFile name) false v r /\ log = [] /\ err = Some (ERefused r)) \/
  (lets fl (write_flag fl) v (V1 OpenFile name) /\ exists p, lands v name p /\
   (err = None <-> opened = None /\ wrote = None /\ closed = None) /\
   (opened <> None -> log = [BOpenFile p (write_flag fl)]) /\
   (opened = None -> log = [BOpenFile p (write_flag fl); BWrite data; BClose])).
Proof. intros H opened wrote closed name data. exact (write_file_spec opened wrote closed fl v name data (built _ _ _ _ _ H)). Qed.
Print Assumptions C93_write_file.

(* It never gets through a read-only wrapper. *)
Theorem C93_write_readonly fl v name : frozen v -> f_wronly fl <> 0 -> ~ lets fl (write_flag fl) v (V1 OpenFile name).
Proof. exact (write_frozen fl v name). Qed.
Print Assumptions C93_write_readonly.

(* It opens for writing, creating and truncating, and asks for nothing else. *)
Theorem C93_write_flag fl n : Z.testbit (write_flag fl) n = Z.testbit (f_wronly fl) n || Z.testbit (f_create fl) n || Z.testbit (f_trunc fl) n.
Proof. exact (write_flag_bits fl n). Qed.
Print Assumptions C93_write_flag.
