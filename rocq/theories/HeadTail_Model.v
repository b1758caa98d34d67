(* Model of fsutil/pathutil/head_tail.go and of PathFromHead in
   vroot/internal/paths/head_tail.go. An iterator is the list of what it yields to a
   consumer that never stops early. *)
From Verif Require Import Common PathLex_Model.

(* strings.Index / strings.LastIndex of the separator. *)
Fixpoint index_sep (p : list byte) : option nat :=
  match p with
  | [] => None
  | c :: r => if N.eqb c sep then Some 0 else option_map S (index_sep r)
  end.

Fixpoint last_index_sep (p : list byte) : option nat :=
  match p with
  | [] => None
  | c :: r =>
      match last_index_sep r with
      | Some i => Some (S i)
      | None => if N.eqb c sep then Some 0 else None
      end
  end.

(* The loop of PathFromHead (fsutil/pathutil/head_tail.go:17-35). [cut] is len(cut): the
   variable is always an initial part of name. None: out of fuel. *)
Fixpoint head_loop (fuel : nat) (vol name : list byte) (cut : nat) (rest : list byte)
    : option (list (list byte)) :=
  match rest with
  | [] => Some []
  | _ =>
      match fuel with
      | O => None
      | S fuel =>
          match index_sep rest with
          | None => Some [vol ++ name]
          | Some i =>
              let y := if (i =? 0)%nat then [sep] else firstn (cut + i) name in
              let cut' := if (i =? 0)%nat then cut else cut + i in
              option_map (cons (vol ++ y)) (head_loop fuel vol name (cut' + 1) (skipn (i + 1) rest))
          end
      end
  end.

(* PathFromHead (:11-37); [vol] is filepath.VolumeName(name), [p] what follows it. *)
Definition path_from_head (vol p : list byte) : option (list (list byte)) :=
  head_loop (length (clean p)) vol (clean p) 0 (clean p).

(* The loop of PathFromTail (:50-66). *)
Fixpoint tail_loop (fuel : nat) (vol rest : list byte) : option (list (list byte)) :=
  match rest with
  | [] => Some []
  | _ =>
      match fuel with
      | O => None
      | S fuel =>
          match last_index_sep rest with
          | None => Some []
          | Some O => Some [vol ++ [sep]]
          | Some i => option_map (cons (vol ++ firstn i rest)) (tail_loop fuel vol (firstn i rest))
          end
      end
  end.

(* PathFromTail (:39-68). *)
Definition path_from_tail (vol p : list byte) : option (list (list byte)) :=
  let name := clean p in
  if is_dot name then Some [vol ++ name]
  else option_map (cons (vol ++ name)) (tail_loop (length name) vol name).

(* PathFromHead of vroot/internal/paths (:10-29): no volume, no case for a leading separator. *)
Fixpoint vhead_loop (fuel : nat) (name : list byte) (cut : nat) (rest : list byte) : option (list (list byte)) :=
  match rest with
  | [] => Some []
  | _ =>
      match fuel with
      | O => None
      | S fuel =>
          match index_sep rest with
          | None => Some [name]
          | Some i => option_map (cons (firstn (cut + i) name)) (vhead_loop fuel name (cut + i + 1) (skipn (i + 1) rest))
          end
      end
  end.

Definition vpath_from_head (p : list byte) : option (list (list byte)) :=
  vhead_loop (length (clean p)) (clean p) 0 (clean p).
