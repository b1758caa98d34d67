(* What C53 and C56 say: lexical names, and subtrees of the server. *)
From Verif Require Import Common ContentRange_Model PathLex_Model PathLex_Proofs Sftp_Model.
Open Scope nat_scope.

(* Reading a name from left to right, going down and up; None: above the start. *)
Fixpoint steps (don : list (list byte)) (l : list (list byte)) : option (list (list byte)) :=
  match l with
  | [] => Some (rev don)
  | c :: l =>
      if is_empty c || is_dot c then steps don l
      else if is_dotdot c then match don with [] => None | _ :: don => steps don l end
      else steps (c :: don) l
  end.
Definition relative (name : list byte) : option (list (list byte)) := if rooted name then None else steps [] (split_sep name).

(* The path with the names l below base. *)
Definition below_text (base : list byte) (l : list (list byte)) : list byte := render true (clean_comps true (split_sep base) ++ l).
Definition strictly_inside (base p : list byte) : Prop := exists l, l <> [] /\ Forall proper l /\ p = below_text base l.
Definition inside (base p : list byte) : Prop := p = base \/ strictly_inside base p.

(* The server's names are names, and what has something below it is a directory. *)
Definition names_ok (fs : rfs) : Prop := Forall (fun e => Forall proper (fst e)) fs.
Definition well_formed (fs : rfs) : Prop := forall q c, rget fs (q ++ [c]) <> None -> exists m, rget fs q = Some (RDir m).

Definition at_or_below (p q : place) : Prop := exists l, q = p ++ l.
(* The only change from a to b is that places at w or below it may be gone. *)
Definition only_removed (w : wres) (a b : rfs) : Prop :=
  forall q, rget b q = rget a q \/ (rget b q = None /\ exists p, w = WAt p /\ at_or_below p q).
Definition gone (p : place) (fs : rfs) : Prop := forall l, rget fs (p ++ l) = None.

Fixpoint prefixb (p q : place) : bool :=
  match p, q with
  | [], _ => true
  | x :: p, y :: q => bytes_eqb x y && prefixb p q
  | _, _ => false
  end.
(* The server without the subtree at p. *)
Definition prune (fs : rfs) (p : place) : rfs := filter (fun e => negb (prefixb p (fst e))) fs.
(* The path leads to p, and does so without help from p's subtree. *)
Definition leads_to (hops : nat) (fs : rfs) (abs : list byte) (p : place) : Prop :=
  place_of hops fs abs = WAt p /\ place_of hops (prune fs p) abs = WAt p.

(* A server that never says something is missing when it refuses or fails. *)
Definition honest (ans : nat -> answer) : Prop :=
  forall k, match ans k with Serve => True | Refuse e | Late e _ => e <> ENoent end.
Definition height (fs : rfs) : nat := fold_right (fun e a => Nat.max (length (fst e)) a) 0 fs.

(* The same tree but for what stands at p. *)
Definition same_but (p : place) (a b : rfs) : Prop := forall q, q <> p -> rget b q = rget a q.
