(* Specification of NewMultiReadCloser: the readers one after the other. *)
From Verif Require Import Common MultiStream_Model.
Open Scope nat_scope.

Definition content (ss : list src) : list byte := concat (map s_rest ss).
Definition got (g : ans) : list byte := match g with GotRead d _ => d | GotClose _ => [] end.

(* [ss'] is left of [ss]: some readers ended and dropped, the next perhaps moved on in its
   bytes, and the ones after it not touched. *)
Definition left_of (ss ss' : list src) : Prop :=
  exists k, ss' = skipn k ss \/
    exists s s' d j, nth_error ss k = Some s /\ s_rest s = d ++ s_rest s' /\ s_plan s' = skipn j (s_plan s) /\ ss' = s' :: skipn (S k) ss.

(* Readers that do not fail and never return nothing without io.EOF. *)
Definition willing (s : src) : Prop := Forall (fun t => t_fault t = None /\ 1 <= t_most t) (s_plan s).

(* A reader at its end, asked for [len] bytes. *)
Definition ends (len : nat) (s : src) : Prop := exists s', src_read s len = ([], SEof, s').

(* What the call on the concatenation says for what the reader's own call said, [more] telling
   that readers are left after it. *)
Definition said (more : bool) (e : serr) : serr :=
  match e with SEof => if more then SNil else SEof | _ => e end.
