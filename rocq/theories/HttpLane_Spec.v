(* What holds of the lane whatever its goroutines do. *)
From Verif Require Import Common HttpLane_Model.
Open Scope Z_scope.

Definition over (p : pc) : Prop := match p with Ended _ _ _ | CEnded => True | _ => False end.
(* The bytes of the object from [off] on, where the body begins at [base]. *)
Definition object_bytes (base : Z) (body : Z -> byte) (off : Z) (bytes : list byte) : Prop :=
  forall k, 0 <= k < zlen bytes -> nth_error bytes (Z.to_nat k) = Some (body (off - base + k)).

(* A served read has the object's bytes from its offset on: all it asked for with a nil error;
   io.EOF only with the last byte granted, or from the answer that opened the lane. *)
Definition read_right (base limit : Z) (body : Z -> byte) (off len : Z) (r : result) : Prop :=
  match r with
  | NotServed => True
  | Served bytes e =>
      base <= off /\ zlen bytes <= len /\ object_bytes base body off bytes /\
      (e = KNil -> zlen bytes = len) /\
      (e = KEof -> bytes <> [] -> off + zlen bytes = limit)
  end.
(* What was handed out so far, in order. *)
Fixpoint handed_out (log : list (Z * Z * result)) : list byte :=
  match log with
  | [] => []
  | (_, _, Served b _) :: r => b ++ handed_out r
  | (_, _, NotServed) :: r => handed_out r
  end.
(* Each read began where the one served before it had ended. *)
Fixpoint contiguous (pos : Z) (log : list (Z * Z * result)) : Prop :=
  match log with
  | [] => True
  | (off, _, Served b _) :: r => off = pos /\ contiguous (off + zlen b) r
  | (_, _, NotServed) :: r => contiguous pos r
  end.

(* A goroutine can go on, unless it waits for a mutex somebody holds. *)
Definition blocked (l : lane) (p : pc) : Prop :=
  match p with Wait _ _ | CWait => l_mu l <> None | _ => False end.
(* A goroutine is queueing for the mutex. *)
Definition queued (m : machine) (i : nat) : Prop :=
  exists off len, nth_error (m_pcs m) i = Some (Wait off len) /\ l_mu (m_lane m) <> None.
(* A read the lane does not serve never queues behind one it serves. *)
Definition unserved_never_queue : Prop :=
  forall base body reads closers sched more i off len,
    let m := run base body (start base reads closers) sched in
    nth_error (m_pcs (run base body m more)) i = Some (Ended off len NotServed) -> ~ queued m i.
(* A step that gets a goroutine further; a read of the body gives at least one byte. *)
Definition useful (m : machine) (s : nat * ans) : Prop :=
  exists p, nth_error (m_pcs m) (fst s) = Some p /\ ~ over p /\ ~ blocked (m_lane m) p /\ 1 <= a_n (snd s).
Fixpoint all_useful (base : Z) (body : Z -> byte) (m : machine) (sched : list (nat * ans)) : Prop :=
  match sched with [] => True | s :: r => useful m s /\ all_useful base body (step base body m s) r end.
Definition bound (reads : list (Z * Z)) (closers : nat) : Z :=
  fold_right (fun r n => snd r + 7 + n) 0 reads + 4 * Z.of_nat closers.
Definition sane (reads : list (Z * Z)) : Prop := Forall (fun r => 0 < snd r) reads.
