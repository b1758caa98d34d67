(* Model of stream/multi_read_closer.go: NewMultiReadCloser, and io.MultiReader beneath it. *)
From Verif Require Import Common.
Open Scope nat_scope.

Inductive serr := SNil | SEof | SFault (code : nat).

(* A reader handed in: what is left of its bytes, and how its next calls go: at most so many
   bytes, a failure or none, and whether io.EOF comes along with the last bytes. Once the plan
   is used up it gives all that is asked for. *)
Record turn := Turn { t_most : nat; t_fault : option nat; t_eager : bool }.
Record src := Src { s_rest : list byte; s_plan : list turn }.

Definition src_read (s : src) (len : nat) : list byte * serr * src :=
  let t := match s_plan s with t :: _ => t | [] => Turn len None false end in
  let n := Nat.min len (t_most t) in
  let data := firstn n (s_rest s) in
  let rest := skipn n (s_rest s) in
  let e := match t_fault t with
           | Some c => SFault c
           | None =>
               match s_rest s with
               | [] => SEof
               | _ => match rest with [] => if t_eager t then SEof else SNil | _ => SNil end
               end
           end in
  (data, e, Src rest (tl (s_plan s))).

(* multiReader.Read of the io package, as called by multiReadCloser.Read (:29-31): the readers
   not yet ended are in the list. *)
Fixpoint multi_read (ss : list src) (len : nat) : list byte * serr * list src :=
  match ss with
  | [] => ([], SEof, [])
  | s :: ss' =>
      let '(data, e, s') := src_read s len in
      match e with
      | SEof =>
          match data with
          | [] => multi_read ss' len
          | _ => (data, match ss' with [] => SEof | _ => SNil end, ss')
          end
      | _ => (data, e, s' :: ss')
      end
  end.

(* NewMultiReadCloser (:17-27): readers and closers, both in the order given. *)
Record mrc := Mrc { m_readers : list src; m_closers : list nat }.
Definition new_mrc (l : list (src * nat)) : mrc := Mrc (map fst l) (map snd l).

Inductive act := ARead (len : nat) | AClose.
Inductive ans := GotRead (data : list byte) (e : serr) | GotClose (closed : list nat).

(* Read (:29-31), Close (:33-39): every closer each time, whatever was read. *)
Definition do_act (m : mrc) (a : act) : mrc * ans :=
  match a with
  | ARead len => let '(data, e, ss) := multi_read (m_readers m) len in (Mrc ss (m_closers m), GotRead data e)
  | AClose => (m, GotClose (m_closers m))
  end.
Fixpoint do_acts (m : mrc) (l : list act) : mrc * list ans :=
  match l with
  | [] => (m, [])
  | a :: l => let '(m, g) := do_act m a in let '(m, gs) := do_acts m l in (m, g :: gs)
  end.

(* io.ReadAll with a buffer of [len] each time: None if [fuel] calls do not reach the end. *)
Fixpoint read_to_end (fuel : nat) (ss : list src) (len : nat) (acc : list byte) : option (list byte * serr) :=
  match fuel with
  | O => None
  | S fuel =>
      let '(data, e, ss) := multi_read ss len in
      match e with
      | SNil => read_to_end fuel ss len (acc ++ data)
      | _ => Some (acc ++ data, e)
      end
  end.
