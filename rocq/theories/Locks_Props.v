(* C75: calls on synthfs, overlayfs and tarfs always return. C76: what they share is touched
   only under its lock. *)
From Verif Require Import Common Locks_Model Locks_Spec Locks_Proofs.
Open Scope nat_scope.

Definition open_handles : nat -> nat -> bool := fun _ _ => false.

(* A synthetic file system 0 with an in-memory file and a view of a file in synthetic file
   system 1, and overlay 0 over it: an opener, a reader, a remover, and a lister. *)
Definition ex_sh (f : nat) : nat := match f with 0 => 1 | _ => 0 end.
Definition ex_oh (o : nat) : nat := 2.
Definition ex_view : view := VRange 5 (VFile 1 0 (VMem 0 0)).
Definition ex_calls : list (list ((nat -> nat -> bool) * call)) :=
  [ [(open_handles, SOpen 0 (OFile false ex_view None)); (open_handles, FReadAt 0 0 ex_view); (open_handles, FClose 0 0 ex_view)];
    [(open_handles, FWrite 0 1 (VMem 1 1) true false); (open_handles, SOpen 0 (OFile false (VMem 1 1) (Some true)))];
    [(open_handles, OChange 0 true [SDrop 0 [ex_view]; SChange 0]); (open_handles, SAddFS 0 [SStat 1 (NFile (VMem 0 0))])];
    [(open_handles, MRead 0 0 false [SStat 0 NDir; DRead 0 2 0] [SStat 0 (NFile ex_view)]); (open_handles, MClose 0 0 false true [DClose 0 2])] ].

(* Whatever calls any number of goroutines make, at once and in any order, on file systems that
   stand on each other without a circle, every schedule comes to an end, and at its end every
   call has returned and no lock is held. *)
Theorem C75_returns_partial : forall sh oh css,
  (forall cs c, In cs css -> In c cs -> exists n, call_ok sh oh n (snd c)) ->
  always_returns (goroutines css).
Proof. exact goroutines_return. Qed.
Print Assumptions C75_returns_partial.
Example C75_returns_partial_ex :
  (forall cs c, In cs ex_calls -> In c cs -> exists n, call_ok ex_sh ex_oh n (snd c)) /\
  (exists is ts, run is (goroutines ex_calls) = Some ts /\ length is = 4 /\ ts <> goroutines ex_calls).
Proof.
  split.
  - intros cs c Hcs Hc. exists 3. cbn [ex_calls In] in Hcs.
    repeat (destruct Hcs as [<-|Hcs]; [cbn [In] in Hc; repeat (destruct Hc as [<-|Hc]; [cbn; repeat split; first [unfold ex_oh; lia|discriminate]|]); destruct Hc|]). destruct Hcs.
  - exists [0; 1; 2; 3]. eexists. split; [reflexivity|]. split; [reflexivity|discriminate].
Qed.

(* It fails when a file system stands on itself: a view of a file of the same file system
   hangs the first OpenFile; Stat of it hangs as soon as a writer comes in between its two read
   locks; two file systems with views of each other hang each other. *)
Theorem C75_circular_views_refuted :
  hangs (goroutines [[(open_handles, SOpen 0 (OFile false (VFile 0 0 (VMem 0 0)) None))]]) /\
  hangs (goroutines [[(open_handles, SStat 0 (NFile (VFile 0 0 (VMem 0 0))))]; [(open_handles, SChange 0)]]) /\
  hangs (goroutines [[(open_handles, SOpen 0 (OFile false (VFile 1 0 (VMem 0 0)) None))];
                     [(open_handles, SOpen 1 (OFile false (VFile 0 0 (VMem 1 1)) None))]]).
Proof.
  split; [|split].
  - exists [0; 0; 0; 0]. eexists. split; [reflexivity|]. split.
    + intros [|[|i]]; reflexivity.
    + intros F. specialize (F _ (or_introl eq_refl)). discriminate.
  - exists [0; 0; 1]. eexists. split; [reflexivity|]. split.
    + intros [|[|[|i]]]; reflexivity.
    + intros F. specialize (F _ (or_introl eq_refl)). discriminate.
  - exists [0; 0; 0; 0; 1; 1; 1; 1]. eexists. split; [reflexivity|]. split.
    + intros [|[|[|i]]]; reflexivity.
    + intros F. specialize (F _ (or_introl eq_refl)). discriminate.
Qed.
Print Assumptions C75_circular_views_refuted.

(* It fails when AddFile's callback or the file system AddFS walks comes back to the same root:
   even reading through it hangs. *)
Theorem C75_callbacks_refuted :
  hangs (goroutines [[(open_handles, SAddFile 0 (VMem 0 0) NNone [SLook 0] true)]]) /\
  hangs (goroutines [[(open_handles, SAddFS 0 [SStat 0 NDir])]]).
Proof.
  split.
  - exists [0; 0; 0; 0; 0; 0; 0]. eexists. split; [reflexivity|]. split.
    + intros [|[|i]]; reflexivity.
    + intros F. specialize (F _ (or_introl eq_refl)). discriminate.
  - exists [0; 0; 0]. eexists. split; [reflexivity|]. split.
    + intros [|[|i]]; reflexivity.
    + intros F. specialize (F _ (or_introl eq_refl)). discriminate.
Qed.
Print Assumptions C75_callbacks_refuted.

(* It fails when the truncation of an opened file fails: the handle is closed under the lock
   its Close takes. *)
Theorem C75_failed_truncation_refuted :
  hangs (goroutines [[(open_handles, SOpen 0 (OFile false (VBytes 0) (Some false)))]]).
Proof.
  exists [0; 0; 0; 0; 0]. eexists. split; [reflexivity|]. split.
  - intros [|[|i]]; reflexivity.
  - intros F. specialize (F _ (or_introl eq_refl)). discriminate.
Qed.
Print Assumptions C75_failed_truncation_refuted.

(* Whatever calls any number of goroutines make, no two of them are ever about to touch the same
   fields with one of them writing, unless entries are taken out of a synthfs directory handle
   or a handle of a bytes or ranged view is read or moved. *)
Theorem C76_race_free_partial : forall css,
  (forall cs c, In cs css -> In c cs -> call_locked (snd c) = true) -> race_free (goroutines css).
Proof. exact goroutines_race_free. Qed.
Print Assumptions C76_race_free_partial.
Example C76_race_free_partial_ex :
  (forall cs c, In cs ex_calls -> In c cs -> call_locked (snd c) = true) /\
  (exists is ts t, run is (goroutines ex_calls) = Some ts /\ nth_error ts 1 = Some t /\ about t = Some (false, Of (LHandle 0 1))).
Proof.
  split.
  - intros cs c Hcs Hc. cbn [ex_calls In] in Hcs.
    repeat (destruct Hcs as [<-|Hcs]; [cbn [In] in Hc; repeat (destruct Hc as [<-|Hc]; [reflexivity|]); destruct Hc|]). destruct Hcs.
  - exists [1; 1]. eexists. eexists. split; [reflexivity|]. split; reflexivity.
Qed.

(* Listing a synthfs directory reads its nodes with no lock on the tree, while Chmod, Chtimes or
   Rename write them. *)
Theorem C76_listing_refuted :
  races (goroutines [[(open_handles, DRead 0 0 1)]; [(open_handles, SChange 0)]]).
Proof.
  exists [0; 0; 0; 0; 0; 0; 0; 0; 1; 1; 1]. eexists. split; [reflexivity|].
  exists 0, 1. eexists. eexists. exists (Of (LState 0)). eexists. eexists.
  split; [discriminate|]. repeat split; reflexivity.
Qed.
Print Assumptions C76_listing_refuted.

(* Two goroutines reading from one handle of a bytes view or a ranged view write its position at
   once. *)
Theorem C76_positions_refuted :
  races (goroutines [[(open_handles, FRead 0 0 (VBytes 0))]; [(open_handles, FRead 0 0 (VBytes 0))]]) /\
  races (goroutines [[(open_handles, FRead 0 0 (VRange 0 (VMem 1 1)))]; [(open_handles, FSeek 0 0 (VRange 0 (VMem 1 1)) false)]]).
Proof.
  split.
  - exists [0; 0; 0; 0; 0; 1; 1; 1; 1]. eexists. split; [reflexivity|].
    exists 0, 1. eexists. eexists. exists (Bare 0). eexists. eexists.
    split; [discriminate|]. repeat split; reflexivity.
  - exists [0; 0; 0; 0; 1; 1; 1; 1; 1]. eexists. split; [reflexivity|].
    exists 0, 1. eexists. eexists. exists (Bare 0). eexists. eexists.
    split; [discriminate|]. repeat split; reflexivity.
Qed.
Print Assumptions C76_positions_refuted.
