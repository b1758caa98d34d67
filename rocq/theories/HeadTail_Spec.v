(* Specification of the path iterators. *)
From Verif Require Import Common PathLex_Model.

(* The elements of the cleaned path. *)
Definition comps_of (p : list byte) : list (list byte) := clean_comps (rooted p) (split_sep p).

(* The path made of the first k elements. *)
Definition head_path (p : list byte) (k : nat) : list byte := render (rooted p) (firstn k (comps_of p)).

(* All of them, shortest first: the root counts as one for an absolute path; the empty
   relative path is ".". *)
Definition heads (p : list byte) : list (list byte) :=
  if rooted p then map (head_path p) (seq 0 (S (length (comps_of p))))
  else match comps_of p with
       | [] => [[dot]]
       | _ => map (head_path p) (seq 1 (length (comps_of p)))
       end.
