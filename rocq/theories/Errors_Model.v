(* Model of error wrapping: fsutil/wrap_path_err.go, stream/internal/serr, translateEscape of
   vroot/osfs/root.go. Errors are pointers into a heap; nil is None. *)
From Verif Require Import Common ContentRange_Model.
Open Scope nat_scope.

Definition str := list byte.
Inductive node :=
| NLeaf (msg : str)
| NPath (op path : str) (e : option nat)             (* *fs.PathError *)
| NLink (op old new_ : str) (e : option nat)         (* *os.LinkError *)
| NPrefix (p : str) (e : option nat)                 (* *serr.prefixed *)
| NGather (es : list (option nat)).                  (* *serr.gathered *)
Definition heap := list node.

(* Unwrap() error and Unwrap() []error. *)
Definition unwrap1 (n : node) : option nat :=
  match n with NPath _ _ e | NLink _ _ _ e | NPrefix _ e => e | NLeaf _ | NGather _ => None end.
Definition unwraps (n : node) : list (option nat) :=
  match n with NPath _ _ e | NLink _ _ _ e | NPrefix _ e => [e] | NLeaf _ => [] | NGather es => es end.

(* errors.Is(e, t) for a non-nil target t; [also] is a leaf's own Is method (syscall.Errno).
   The fuel is the depth: an error refers to older ones only. *)
Fixpoint is_err (also : nat -> nat -> bool) (h : heap) (fuel : nat) (e : option nat) (t : nat) : bool :=
  match fuel, e with
  | S fuel, Some a =>
      match nth_error h a with
      | Some n => Nat.eqb a t || (match n with NLeaf _ => also a t | _ => false end) || existsb (fun x => is_err also h fuel x t) (unwraps n)
      | None => false
      end
  | _, _ => false
  end.
Definition errors_is (also : nat -> nat -> bool) (h : heap) (e : option nat) (t : nat) : bool := is_err also h (S (length h)) e t.

(* Error(): PathError and LinkError of the standard library, prefixed and gathered of serr
   (prefix.go:43-52, gathered.go:151-164). *)
Definition sep_colon : str := [58%N; 32%N].
Definition sep_comma : str := [44%N; 32%N].
Definition sp : str := [32%N].
Definition nil_text : str := [37%N; 33%N; 115%N; 40%N; 60%N; 110%N; 105%N; 108%N; 62%N; 41%N].     (* %!s(<nil>) *)
Fixpoint join (ls : list str) : str :=
  match ls with [] => [] | [x] => x | x :: ls => x ++ sep_comma ++ join ls end.
Fixpoint text_of (h : heap) (fuel : nat) (e : option nat) : str :=
  match fuel, e with
  | S fuel, Some a =>
      match nth_error h a with
      | Some (NLeaf m) => m
      | Some (NPath op path e) => op ++ sp ++ path ++ sep_colon ++ text_of h fuel e
      | Some (NLink op old new_ e) => op ++ sp ++ old ++ sp ++ new_ ++ sep_colon ++ text_of h fuel e
      | Some (NPrefix p e) => p ++ text_of h fuel e
      | Some (NGather es) => join (map (text_of h fuel) es)
      | None => []
      end
  | _, _ => nil_text
  end.
Definition error_text (h : heap) (e : option nat) : str := text_of h (S (length h)) e.

Definition alloc (h : heap) (n : node) : heap * option nat := (h ++ [n], Some (length h)).
Fixpoint set_node (h : heap) (a : nat) (n : node) : heap :=
  match h, a with
  | [], _ => []
  | _ :: h, O => n :: h
  | x :: h, S a => x :: set_node h a n
  end.
Definition is_empty (s : str) : bool := match s with [] => true | _ => false end.

(* WrapPathErr (wrap_path_err.go:14-29): a PathError is overwritten in place. *)
Definition wrap_path_err (h : heap) (op path : str) (e : option nat) : heap * option nat :=
  match e with
  | None => (h, None)
  | Some a =>
      match nth_error h a with
      | Some (NPath op0 path0 e0) =>
          (set_node h a (NPath (if is_empty op then op0 else op) (if is_empty path then path0 else path) e0), e)
      | _ => alloc h (NPath op path e)
      end
  end.
(* WrapLinkErr (:37-55). *)
Definition wrap_link_err (h : heap) (op old new_ : str) (e : option nat) : heap * option nat :=
  match e with
  | None => (h, None)
  | Some a =>
      match nth_error h a with
      | Some (NLink op0 old0 new0 e0) =>
          (set_node h a (NLink (if is_empty op then op0 else op) (if is_empty old then old0 else old) (if is_empty new_ then new0 else new_) e0), e)
      | _ => alloc h (NLink op old new_ e)
      end
  end.

(* Prefix (prefix.go:24-37). *)
Definition prefix_err (h : heap) (p : str) (e : option nat) : heap * option nat :=
  match e with None => (h, None) | Some _ => alloc h (NPrefix p e) end.
Definition non_nil (e : option nat) : bool := match e with Some _ => true | None => false end.
(* Gather (gathered.go:27-66), GatherChecked (:69-85). *)
Definition gather (h : heap) (es : list (option nat)) : heap * option nat :=
  match es with
  | [] => (h, None)
  | _ =>
      if forallb non_nil es then alloc h (NGather es)
      else match filter non_nil es with
           | [] => (h, None)
           | filtered => alloc h (NGather filtered)
           end
  end.
Definition gather_checked (h : heap) (es : list (option nat)) : heap * option nat :=
  match es with
  | [] => (h, None)
  | _ => if existsb non_nil es then alloc h (NGather es) else (h, None)
  end.
(* GatherPrefixed (:120-145). *)
Fixpoint prefix_all (h : heap) (pes : list (str * option nat)) : heap * list (option nat) :=
  match pes with
  | [] => (h, [])
  | (p, e) :: pes =>
      let '(h1, x) := alloc h (NPrefix p e) in
      let '(h2, xs) := prefix_all h1 pes in (h2, x :: xs)
  end.
Definition gather_prefixed (h : heap) (pes : list (str * option nat)) : heap * option nat :=
  match pes with
  | [] => (h, None)
  | _ => if existsb (fun pe => non_nil (snd pe)) pes then let '(h1, xs) := prefix_all h pes in alloc h1 (NGather xs) else (h, None)
  end.

(* The loop of translateEscape (root.go:38-45): errors.Unwrap down to the last. *)
Fixpoint leaf_of (h : heap) (fuel : nat) (a : nat) : nat :=
  match fuel with
  | O => a
  | S fuel =>
      match nth_error h a with
      | Some n => match unwrap1 n with Some b => leaf_of h fuel b | None => a end
      | None => a
      end
  end.
(* errors.AsType: the first error of a type, an error before what it wraps. *)
Fixpoint as_type (sel : node -> bool) (h : heap) (fuel : nat) (e : option nat) : option node :=
  match fuel, e with
  | S fuel, Some a =>
      match nth_error h a with
      | Some n =>
          if sel n then Some n
          else (fix first (es : list (option nat)) : option node :=
                  match es with
                  | [] => None
                  | x :: es => match as_type sel h fuel x with Some m => Some m | None => first es end
                  end) (unwraps n)
      | None => None
      end
  | _, _ => None
  end.
Definition is_path (n : node) : bool := match n with NPath _ _ _ => true | _ => false end.
Definition is_link (n : node) : bool := match n with NLink _ _ _ _ => true | _ => false end.
(* "path escapes from parent" *)
Definition escape_text : str :=
  map N.of_nat [112; 97; 116; 104; 32; 101; 115; 99; 97; 112; 101; 115; 32; 102; 114; 111; 109; 32; 112; 97; 114; 101; 110; 116].
(* translateEscape (:32-65); [esc] is vroot.ErrPathEscapes. *)
Definition translate_escape (h : heap) (esc : nat) (e : option nat) : heap * option nat :=
  match e with
  | None => (h, None)
  | Some a =>
      if negb (bytes_eqb (error_text h (Some (leaf_of h (length h) a))) escape_text) then (h, e)
      else match as_type is_path h (S (length h)) e with
           | Some (NPath op path _) => alloc h (NPath op path (Some esc))
           | _ => match as_type is_link h (S (length h)) e with
                  | Some (NLink op old new_ _) => alloc h (NLink op old new_ (Some esc))
                  | _ => (h, Some esc)
                  end
           end
  end.
