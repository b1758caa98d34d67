(* Model of httprange's streaming lane under several goroutines (stream.go): the atomics pos and
   dead, the mutex, and the detached close, each access to shared state one step. What a response
   must look like to open the lane is HttpRange_Model's [open_stream]; here the server's answer
   comes with the schedule. *)
From Verif Require Import Common.
Open Scope Z_scope.

(* streamState (stream.go:19-31). *)
Inductive lstate := Pending | Open | Dead.
(* How a read of the lane ends: nil, io.EOF, io.ErrUnexpectedEOF, another error. *)
Inductive kind := KNil | KEof | KShort | KFail.
Inductive result := NotServed | Served (bytes : list byte) (e : kind).

(* stream (stream.go:43-69): mu (who holds it), the body's position, state, limit, pos and dead.
   Beside it: how many requests were made, bodies received and bodies closed. *)
Record lane := {
  l_mu : option nat; l_state : lstate; l_body : Z; l_limit : Z; l_pos : Z; l_dead : bool;
  l_requests : nat; l_bodies : nat; l_closes : nat }.

Definition set_mu (l : lane) (m : option nat) : lane :=
  {| l_mu := m; l_state := l_state l; l_body := l_body l; l_limit := l_limit l; l_pos := l_pos l; l_dead := l_dead l;
     l_requests := l_requests l; l_bodies := l_bodies l; l_closes := l_closes l |}.
Definition mark_dead (l : lane) : lane :=
  {| l_mu := l_mu l; l_state := l_state l; l_body := l_body l; l_limit := l_limit l; l_pos := l_pos l; l_dead := true;
     l_requests := l_requests l; l_bodies := l_bodies l; l_closes := l_closes l |}.
(* killLocked (stream.go:96-103). *)
Definition kill_locked (l : lane) : lane :=
  {| l_mu := l_mu l; l_state := Dead; l_body := l_body l; l_limit := l_limit l; l_pos := l_pos l; l_dead := true;
     l_requests := l_requests l; l_bodies := l_bodies l;
     l_closes := match l_state l with Open => S (l_closes l) | _ => l_closes l end |}.
(* A request was made and refused: openStream's error paths (stream.go:237-240, :261-271). *)
Definition refused (l : lane) : lane :=
  let l := kill_locked l in
  {| l_mu := l_mu l; l_state := l_state l; l_body := l_body l; l_limit := l_limit l; l_pos := l_pos l; l_dead := l_dead l;
     l_requests := S (l_requests l); l_bodies := l_bodies l; l_closes := l_closes l |}.
(* The end of openStream (stream.go:273-277); the view begins at [base]. *)
Definition opened (base : Z) (l : lane) (granted : Z) : lane :=
  {| l_mu := l_mu l; l_state := Open; l_body := 0; l_limit := granted; l_pos := base; l_dead := l_dead l;
     l_requests := S (l_requests l); l_bodies := S (l_bodies l); l_closes := l_closes l |}.
(* A read of the body gave [n] bytes (stream.go:199-201). *)
Definition advanced (l : lane) (n : Z) (pos : Z) : lane :=
  {| l_mu := l_mu l; l_state := l_state l; l_body := l_body l + n; l_limit := l_limit l; l_pos := pos; l_dead := l_dead l;
     l_requests := l_requests l; l_bodies := l_bodies l; l_closes := l_closes l |}.

(* Where a goroutine stands. *)
Inductive pc :=
  | Look (off len : Z)                        (* laneReadAt: about to load dead (stream.go:131) *)
  | Match (off len : Z)                       (* about to compare pos (:134) *)
  | Swap (off len : Z)                        (* killDetached: about to swap dead (:111) *)
  | Wait (off len : Z)                        (* streamReadAt: about to take mu (:175) *)
  | Held (off len : Z)                        (* about to look again under mu (:182) *)
  | Opening (off len : Z)                     (* openStream: about to ask the server (:186, :260) *)
  | Reading (off len : Z) (acc : list byte)   (* the loop (:191-221) *)
  | Leave (off len : Z) (r : result)          (* the deferred Unlock (:176) *)
  | Ended (off len : Z) (r : result)
  | CMark                                     (* kill: about to store dead (:89) *)
  | CWait                                     (* kill or the goroutine of killDetached: about to take mu (:90, :115) *)
  | CHeld                                     (* about to close under mu (:92, :117) *)
  | CLeave                                    (* its Unlock *)
  | CEnded.

(* What comes from outside with a step: whether the server's answer is let through, and up to
   where, or how it is refused; how many bytes a read of the body gives, and with what. *)
Inductive rerr := RNil | REof | ROther.
Inductive refusal := AtEnd | Otherwise.   (* io.EOF for a 416 (stream.go:237-240), another error *)
Record ans := { a_grant : option Z; a_refusal : refusal; a_n : Z; a_err : rerr }.

(* Byte [i] of the body. *)
Definition slice (body : Z -> byte) (from n : Z) : list byte :=
  map (fun k => body (from + Z.of_nat k)) (seq 0 (Z.to_nat n)).

(* One step of goroutine [me]; a third component is a goroutine it starts. A goroutine that
   wants mu while another holds it stays where it is. *)
Definition exec (base : Z) (body : Z -> byte) (me : nat) (a : ans) (l : lane) (p : pc) : lane * pc * option pc :=
  match p with
  | Look off len => if l_dead l then (l, Ended off len NotServed, None) else (l, Match off len, None)
  | Match off len => if l_pos l =? off then (l, Wait off len, None) else (l, Swap off len, None)
  | Swap off len =>
      if l_dead l then (l, Ended off len NotServed, None) else (mark_dead l, Ended off len NotServed, Some CWait)
  | Wait off len => match l_mu l with Some _ => (l, Wait off len, None) | None => (set_mu l (Some me), Held off len, None) end
  | Held off len =>
      if match l_state l with Dead => true | _ => false end || l_dead l || negb (l_pos l =? off)
      then (l, Leave off len NotServed, None)
      else match l_state l with Pending => (l, Opening off len, None) | _ => (l, Reading off len [], None) end
  | Opening off len =>
      match a_grant a with
      | None => (refused l, Leave off len (Served [] (match a_refusal a with AtEnd => KEof | Otherwise => KFail end)), None)
      | Some g => (opened base l g, Reading off len [], None)
      end
  | Reading off len acc =>
      let remaining := l_limit l - l_pos l in
      if remaining <=? 0 then (kill_locked l, Leave off len (Served acc KEof), None)
      else if zlen acc =? len then (l, Leave off len (Served acc KNil), None)
      else
        let want := Z.min (len - zlen acc) remaining in
        let n := Z.max 0 (Z.min (a_n a) want) in
        let acc' := acc ++ slice body (l_body l) n in
        let l' := advanced l n (off + zlen acc') in
        match a_err a with
        | RNil => (l', Reading off len acc', None)
        | REof =>
            if l_limit l' <=? l_pos l' then (kill_locked l', Leave off len (Served acc' KEof), None)
            else (kill_locked l', Leave off len (Served acc' KShort), None)
        | ROther => (kill_locked l', Leave off len (Served acc' KFail), None)
        end
  | Leave off len r => (set_mu l None, Ended off len r, None)
  | Ended off len r => (l, Ended off len r, None)
  | CMark => (mark_dead l, CWait, None)
  | CWait => match l_mu l with Some _ => (l, CWait, None) | None => (set_mu l (Some me), CHeld, None) end
  | CHeld => (kill_locked l, CLeave, None)
  | CLeave => (set_mu l None, CEnded, None)
  | CEnded => (l, CEnded, None)
  end.

(* The lane, its goroutines, and the reads the lane let go of, in that order. *)
Record machine := { m_lane : lane; m_pcs : list pc; m_log : list (Z * Z * result) }.
Fixpoint put (l : list pc) (i : nat) (p : pc) : list pc :=
  match l, i with [], _ => [] | _ :: r, O => p :: r | x :: r, S i => x :: put r i p end.
Definition step (base : Z) (body : Z -> byte) (m : machine) (ia : nat * ans) : machine :=
  match nth_error (m_pcs m) (fst ia) with
  | None => m
  | Some p =>
      let '(l, p', new) := exec base body (fst ia) (snd ia) (m_lane m) p in
      {| m_lane := l;
         m_pcs := put (m_pcs m) (fst ia) p' ++ match new with Some q => [q] | None => [] end;
         m_log := match p with Leave off len r => m_log m ++ [(off, len, r)] | _ => m_log m end |}
  end.
Definition run (base : Z) (body : Z -> byte) (m : machine) (sched : list (nat * ans)) : machine := fold_left (step base body) sched m.

(* newStream (stream.go:73-77). *)
Definition new_lane (base : Z) : lane :=
  {| l_mu := None; l_state := Pending; l_body := 0; l_limit := 0; l_pos := base; l_dead := false; l_requests := 0; l_bodies := 0; l_closes := 0 |}.
(* Goroutines that read, and goroutines that close. *)
Definition start (base : Z) (reads : list (Z * Z)) (closers : nat) : machine :=
  {| m_lane := new_lane base; m_pcs := map (fun r => Look (fst r) (snd r)) reads ++ repeat CMark closers; m_log := [] |}.
