(* Lexical path handling on Unix: the parts of Go's path/filepath the modelled code relies
   on (Clean, Join, Base, Dir, IsLocal), over byte strings. These are standard library
   functions; the definitions follow their documentation. *)
From Verif Require Import Common ContentRange_Model.

Definition sep : byte := 47%N.
Definition dot : byte := 46%N.

(* strings.Split(p, "/"): never the empty list. *)
Fixpoint split_sep (p : list byte) : list (list byte) :=
  match p with
  | [] => [[]]
  | c :: r =>
      if N.eqb c sep then [] :: split_sep r
      else match split_sep r with
           | h :: t => (c :: h) :: t
           | [] => [[c]]
           end
  end.

(* strings.Join(l, "/"). *)
Fixpoint join_sep (l : list (list byte)) : list byte :=
  match l with
  | [] => []
  | [x] => x
  | x :: r => x ++ sep :: join_sep r
  end.

Definition is_dot (c : list byte) : bool := bytes_eqb c [dot].
Definition is_dotdot (c : list byte) : bool := bytes_eqb c [dot; dot].
Definition is_empty (c : list byte) : bool := match c with [] => true | _ => false end.

Definition rooted (p : list byte) : bool := match p with c :: _ => N.eqb c sep | [] => false end.

(* filepath.Clean, rules 1-4; [st] is the cleaned path so far, innermost element first. *)
Definition clean_step (root : bool) (st : list (list byte)) (c : list byte) : list (list byte) :=
  if is_empty c || is_dot c then st
  else if is_dotdot c then
    match st with
    | top :: st' => if is_dotdot top then c :: st else st'
    | [] => if root then [] else [c]
    end
  else c :: st.

Definition clean_comps (root : bool) (l : list (list byte)) : list (list byte) :=
  rev (fold_left (clean_step root) l []).

(* A cleaned path as text. *)
Definition render (root : bool) (l : list (list byte)) : list byte :=
  if root then sep :: join_sep l
  else match l with [] => [dot] | _ => join_sep l end.

Definition clean (p : list byte) : list byte :=
  render (rooted p) (clean_comps (rooted p) (split_sep p)).

(* filepath.Join. *)
Definition join2 (a b : list byte) : list byte :=
  match a, b with
  | [], [] => []
  | [], _ => clean b
  | _, _ => clean (a ++ sep :: b)
  end.

(* strings.TrimRight(p, "/"). *)
Definition trim_seps (p : list byte) : list byte :=
  rev ((fix drop (l : list byte) := match l with
        | c :: r => if N.eqb c sep then drop r else l
        | [] => []
        end) (rev p)).

(* filepath.Base. *)
Definition base (p : list byte) : list byte :=
  match p with
  | [] => [dot]
  | _ => match last (split_sep (trim_seps p)) [] with [] => [sep] | b => b end
  end.

(* filepath.Dir: everything up to the last separator, cleaned. *)
Definition dir (p : list byte) : list byte :=
  match removelast (split_sep p) with
  | [] => [dot]
  | l => clean (join_sep l ++ [sep])
  end.

(* filepath.IsLocal. *)
Definition is_local (p : list byte) : bool :=
  negb (is_empty p) && negb (rooted p) &&
  match clean_comps false (split_sep p) with c :: _ => negb (is_dotdot c) | [] => true end.
