(* Cleaning up with a temp-file policy: io/fs.WalkDir of the standard library calling a policy's
   WalkFunc (fsutil/safe_write.go:301-328, 409-466; [random_walk], [dir_walk] of TempName_Model). *)
From Verif Require Import Common ContentRange_Model PathLex_Model TempName_Model.

(* What is below a name: a file, or a directory and its entries in the order of ReadDir. *)
Inductive tree := Leaf | Node (es : list (list byte * tree)).
Definition is_node (t : tree) : bool := match t with Node _ => true | Leaf => false end.

(* What walkDir returns: nil, fs.SkipDir to the loop above it, or another error. *)
Inductive wres := WOk | WSkip | WErr.

(* walkDir of io/fs. [rm] is RemoveAll: None where it removed everything, else what it left behind;
   [lists] is whether ReadDir of the directory works. The entries were read before the loop, so
   that removing one of them does not change the rest. *)
Fixpoint walk_dir (fn : list byte -> bool -> walk_act) (rm : list byte -> tree -> option tree) (lists : list byte -> bool)
    (p : list byte) (t : tree) : option tree * wres :=
  match fn p (is_node t) with
  | Remove => match rm p t with None => (None, WOk) | Some t' => (Some t', WErr) end
  | SkipDir => (Some t, if is_node t then WOk else WSkip)
  | Continue =>
      match t with
      | Leaf => (Some t, WOk)
      | Node es =>
          if negb (lists p) then (Some t, WErr)
          else
            let '(es', r) :=
              (fix each (es : list (list byte * tree)) : list (list byte * tree) * wres :=
                 match es with
                 | [] => ([], WOk)
                 | (c, x) :: rest =>
                     let '(x', r) := walk_dir fn rm lists (join2 p c) x in
                     let keep l := match x' with Some y => (c, y) :: l | None => l end in
                     match r with
                     | WOk => let '(l, r') := each rest in (keep l, r')
                     | WSkip => (keep rest, WOk)
                     | WErr => (keep rest, WErr)
                     end
                 end) es in
            (Some (Node es'), r)
      end
  end.

(* fs.WalkDir(fsys, ".", WalkFunc), which knows SkipDir no more; whether it returned nil. *)
Definition clean_up (fn : list byte -> bool -> walk_act) (rm : list byte -> tree -> option tree) (lists : list byte -> bool)
    (t : tree) : option tree * bool :=
  let '(t', r) := walk_dir fn rm lists [dot] t in (t', match r with WErr => false | _ => true end).
