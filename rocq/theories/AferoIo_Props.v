(* C74: the adapters of aferofs. *)
From Verif Require Import Common CommonLemmas ContentRange_Model PathLex_Model PathLex_Proofs Utf8_Model Views_Model Views_Spec Views_Props IoBridge_Model IoBridge_Spec IoBridge_Proofs AferoIo_Model AferoIo_Spec AferoIo_Proofs.
Open Scope Z_scope.

(* "//a/./b" and "../a" *)
Definition c74_abs : list byte := [47%N; 47%N; 97%N; 47%N; 46%N; 47%N; 98%N].
Definition c74_up : list byte := [46%N; 46%N; 47%N; 97%N].

(* ValidPathFs makes the same call with the elements of each name joined by slashes, no leading slash, and changes no name twice. *)
Theorem C74_names c : renamed c (valid_path_call c) /\ names (valid_path_call c) = map to_fs_path (names c).
Proof. exact (valid_path_spec c). Qed.
Print Assumptions C74_names.
Theorem C74_path p : p <> [] -> to_fs_path p = match elems p with [] => if rooted p then [] else [dot] | l => join_sep l end.
Proof. exact (to_fs_exact p). Qed.
Print Assumptions C74_path.
Theorem C74_same_elements p : (elems p <> [] -> rooted (to_fs_path p) = false /\ elems (to_fs_path p) = elems p) /\ to_fs_path (to_fs_path p) = to_fs_path p.
Proof. exact (conj (to_fs_elems p) (to_fs_idem p)). Qed.
Print Assumptions C74_same_elements.
Example C74_same_elements_met : elems c74_abs = [[97%N]; [98%N]] /\ to_fs_path c74_abs = [97%N; 47%N; 98%N] /\ valid_path_call (ARename c74_abs c74_up) = ARename [97%N; 47%N; 98%N] c74_up.
Proof. repeat split. Qed.
(* The result is a valid io/fs path for all text but the empty string, the root and names that climb. *)
Theorem C74_valid_names_partial p : valid_text p -> (valid_name (to_fs_path p) <-> p <> [] /\ Forall proper (elems p) /\ ~ (rooted p = true /\ elems p = [])).
Proof.
  exact (fun H => conj (to_fs_valid_only p) (fun X => to_fs_valid p H (proj1 X) (proj1 (proj2 X)) (proj2 (proj2 X)))).
Qed.
Print Assumptions C74_valid_names_partial.
Example C74_valid_names_met : valid_text c74_abs /\ c74_abs <> [] /\ Forall proper (elems c74_abs) /\ ~ (rooted c74_abs = true /\ elems c74_abs = []).
Proof.
  split; [apply valid_string_spec; reflexivity|]. split; [discriminate|]. split; [|intros (_ & H); discriminate].
  apply Forall_cons; [|apply Forall_cons; [|apply Forall_nil]]; (split; [discriminate|]; split; [discriminate|]; split; [discriminate|]; intros [E|[]]; discriminate).
Qed.
Theorem C74_valid_names_refuted : ~ forall p, valid_text p -> p <> [] -> valid_name (to_fs_path p).
Proof.
  intros H. specialize (H [47%N] (proj1 (valid_string_spec [47%N]) eq_refl) ltac:(discriminate)). apply to_fs_valid_only in H. destruct H as (_ & _ & H). apply H. split; reflexivity.
Qed.
Print Assumptions C74_valid_names_refuted.

(* IoFsAdapter refuses every writing call and asks the fs.FS for valid paths, unchanged; Stat passes any name on. *)
Theorem C74_adapter fl c :
  (writes_fs fl c -> adapter_call fl c = AROFS) /\
  (~ writes_fs fl c -> match c with
                       | A1 AStat n => adapter_call fl c = AAsk IStat n
                       | A1 _ n => (valid_name n -> adapter_call fl c = AAsk IOpen n) /\ (~ valid_name n -> adapter_call fl c = AInvalid)
                       | _ => adapter_call fl c = AOwn
                       end).
Proof. exact (adapter_spec fl c). Qed.
Print Assumptions C74_adapter.
Example C74_adapter_met : adapter_call linux_flags (A1 (AOpenFile 66) [97%N]) = AROFS /\ adapter_call linux_flags (A1 (AOpenFile 0) [97%N]) = AAsk IOpen [97%N] /\
  adapter_call linux_flags (A1 AOpen c74_up) = AInvalid /\ writes_fs linux_flags (A1 (AOpenFile 66) [97%N]) /\ ~ writes_fs linux_flags (A1 (AOpenFile 0) [97%N]).
Proof. split; [reflexivity|]. split; [reflexivity|]. split; [reflexivity|]. split; [right; left; discriminate|]. cbn. lia. Qed.
(* A file opened through it, whatever methods it has and whatever the readonly flag was, is never written. *)
Theorem C74_files_read_only readonly m o : (writes_file o -> adapter_file readonly m o = FROFS) /\ (forall o', adapter_file readonly m o = Does o' -> ~ writes_file o' /\ ~ writes_file o).
Proof. exact (conj (file_refuses readonly m o) (file_never_writes readonly m o)). Qed.
Print Assumptions C74_files_read_only.
Definition std_dir : methods := {| m_readat := true; m_readdir := false; m_readdirnames := false; m_ReadDir := true; m_seek := true; m_sync := false; m_truncate := false; m_write := true; m_writeat := true; m_writestring := false |}.
Example C74_files_read_only_met : writes_file OWrite /\ adapter_file false std_dir OWrite = FROFS /\ adapter_file false std_dir OReadAt = Does OReadAt.
Proof. repeat split. Qed.
(* Each call on the file comes to the file's own method or to its substitute; it is refused with EROFS exactly when it writes
   and the file is read-only, and as unsupported exactly when neither method is there. *)
Theorem C74_files readonly m o : answered readonly m o (fsfile_call readonly m o).
Proof. exact (fsfile_answered readonly m o). Qed.
Print Assumptions C74_files.
Example C74_files_met : fsfile_call false std_dir OWriteString = Does OWrite /\ fsfile_call true std_dir OWriteString = FROFS /\
  fsfile_call false std_dir OReaddirnames = FUnsupported /\ fsfile_call false std_dir OWriteAt = Does OWriteAt.
Proof. repeat split. Qed.
(* NewIoFsAdapter's readonly = false has no effect. *)
Theorem C74_readonly_flag_refuted : ~ forall m, m_write m = true -> adapter_file false m OWrite = Does OWrite.
Proof. intros H. discriminate (H std_dir eq_refl). Qed.
Print Assumptions C74_readonly_flag_refuted.
(* A directory opened from an fs.FS that has io/fs's ReadDir can still not be listed. *)
Theorem C74_lists_directories_partial readonly m : m_readdir m = true -> adapter_file readonly m OReaddir = Does OReaddir /\ adapter_file readonly m OReaddirnames <> FUnsupported.
Proof. destruct m as [a [] c d e f g h i j]; cbn; intros H; [split; [reflexivity|destruct c; discriminate]|discriminate]. Qed.
Print Assumptions C74_lists_directories_partial.
Example C74_lists_directories_met : m_readdir {| m_readat := true; m_readdir := true; m_readdirnames := false; m_ReadDir := true; m_seek := true; m_sync := false; m_truncate := false; m_write := true; m_writeat := true; m_writestring := false |} = true.
Proof. reflexivity. Qed.
Theorem C74_lists_directories_refuted : ~ forall readonly m, m_ReadDir m = true -> adapter_file readonly m OReaddir <> FUnsupported.
Proof. intros H. exact (H true std_dir eq_refl eq_refl). Qed.
Print Assumptions C74_lists_directories_refuted.

(* IoFs: a listing is passed on where it comes without an error; what comes with one is dropped. *)
Theorem C74_listing_partial A (p : list A * option nat) : snd p = None \/ fst p = [] -> io_readdir p = p.
Proof. destruct p as (l, [e|]); cbn; intros [H|H]; try discriminate; try reflexivity. subst l. reflexivity. Qed.
Print Assumptions C74_listing_partial.
Example C74_listing_met : snd ([1%nat; 2%nat], @None nat) = None /\ io_readdir ([1%nat; 2%nat], @None nat) = ([1%nat; 2%nat], None).
Proof. split; reflexivity. Qed.
Theorem C74_listing_refuted : ~ forall (p : list nat * option nat), fst (io_readdir p) = fst p.
Proof. intros H. discriminate (H ([1%nat], Some 5%nat)). Qed.
Print Assumptions C74_listing_refuted.

(* ObservableFs: an entry before and one after each call, in order, with the method and the arguments or results. *)
Theorem C74_history es s : hist (observe_all s es) = hist s ++ calls_of es.
Proof. exact (observe_hist es s). Qed.
Print Assumptions C74_history.
(* It shows what the calls were given and gave back, as long as no buffer in it is used again. *)
Theorem C74_history_shows_partial es b : untouched (fun _ => False) es -> shows_history (observe_all {| bufs := b; hist := [] |} es) = ideal b es.
Proof. exact (fun H => observe_shown es {| bufs := b; hist := [] |} (fun _ => False) H (fun e i He _ => He)). Qed.
Print Assumptions C74_history_shows_partial.
(* One buffer written twice with different bytes. *)
Definition c74_copy : list event := [ECall false 1 [ABuf 0] [] [AVal 2]; ECaller 0 [3%N; 4%N]; ECall false 1 [ABuf 0] [] [AVal 2]].
Example C74_history_met : untouched (fun _ => False) [ECall false 1 [ABuf 0] [] [AVal 2]; ECaller 1 [3%N]; ECall false 1 [ABuf 1] [] [AVal 1]] /\
  shows_history (observe_all {| bufs := [[1%N; 2%N]; []]; hist := [] |} [ECall false 1 [ABuf 0] [] [AVal 2]; ECaller 1 [3%N]; ECall false 1 [ABuf 1] [] [AVal 1]]) =
    [(false, true, 1%nat, [SBytes [1%N; 2%N]]); (false, false, 1%nat, [SVal 2]); (false, true, 1%nat, [SBytes [3%N]]); (false, false, 1%nat, [SVal 1])].
Proof.
  split; [|reflexivity]. cbn. split; [intros f []|]. split; [unfold mentions; cbn; intros [[]|[[E|[]]|[E|[]]]]; discriminate|]. split; [intros f []|exact I].
Qed.
(* io.Copy uses its buffer again: the history then shows the last bytes in every Write. *)
Theorem C74_history_shows_refuted : ~ forall es b, shows_history (observe_all {| bufs := b; hist := [] |} es) = ideal b es.
Proof. intros H. specialize (H c74_copy [[1%N; 2%N]]). vm_compute in H. discriminate. Qed.
Print Assumptions C74_history_shows_refuted.
