(* What lines mean, and the tree a set of them describes. *)
From Verif Require Import Common ContentRange_Model PathLex_Model PathLex_Proofs SetupLines_Model Views_Spec.
Open Scope nat_scope.

(* [s] falls into [a], [p] and [b] at the first place where [p] begins. *)
Definition first_cut (p s a b : list byte) : Prop :=
  s = a ++ p ++ b /\ forall a' b', s = a' ++ p ++ b' -> length a <= length a'.
Definition nowhere (p s : list byte) : Prop := forall a b, s <> a ++ p ++ b.

(* " -> " makes a symlink wherever it stands; else a slash at the end a directory; else ": " a
   file, its content quoted or a single word. *)
Inductive line_of (uq : list byte -> option (list byte)) : list byte -> proc -> Prop :=
| LSym l n t : first_cut [32; 45; 62; 32]%N l n t -> n <> [] -> t <> [] -> line_of uq l (PSym n t)
| LDir n : nowhere [32; 45; 62; 32]%N (n ++ [47%N]) -> n <> [] -> line_of uq (n ++ [47%N]) (PDir n)
| LQuoted l n x c b : nowhere [32; 45; 62; 32]%N l -> (forall m, l <> m ++ [47%N]) -> first_cut [58; 32]%N l n (x :: c) -> n <> [] ->
    x = 34%N \/ x = 96%N -> uq (x :: c) = Some b -> line_of uq l (PFile n b)
| LBare l n c : nowhere [32; 45; 62; 32]%N l -> (forall m, l <> m ++ [47%N]) -> first_cut [58; 32]%N l n c -> n <> [] ->
    (forall c', c <> 34%N :: c') -> (forall c', c <> 96%N :: c') -> ~ In 32%N c -> line_of uq l (PFile n c).

(* Names as io/fs spells them. *)
Definition plain_name (n : list byte) : Prop := Forall proper (split_sep n).
Definition where_ (p : proc) : list (list byte) := match p with PDir n | PFile n _ | PSym n _ | PLink n _ => split_sep n end.
Definition isdir (p : proc) : Prop := match p with PDir _ => True | _ => False end.
Definition isfile (p : proc) : Prop := match p with PFile _ _ => True | _ => False end.
Definition over (c c' : list (list byte)) : Prop := exists x r, c' = c ++ x :: r.

(* A set of procs describes one tree: nothing but a directory is named twice or has something
   below it, and each hard link names a file of the set. *)
Record coherent (ps : list proc) : Prop := {
  co_names : Forall (fun p => plain_name (match p with PDir n | PFile n _ | PSym n _ | PLink n _ => n end)) ps;
  co_once : ForallOrdPairs (fun p q => isdir p /\ isdir q \/ where_ p <> where_ q) ps;
  co_leaf : forall p q, In p ps -> In q ps -> ~ isdir p -> ~ over (where_ p) (where_ q);
  co_links : forall n t, In (PLink n t) ps -> plain_name t /\ exists n' b, In (PFile n' b) ps /\ split_sep n' = split_sep t }.

(* The disk has room: nothing where a leaf goes, at most directories above, files numbered
   below the next number. *)
Record room (ps : list proc) (st : kdisk) : Prop := {
  rm_leaf : forall p, In p ps -> ~ isdir p -> k_at st (where_ p) = None;
  rm_dirs : forall p c, In p ps -> c <> [] -> over c (where_ p) \/ (isdir p /\ c = where_ p) -> k_at st c = None \/ k_at st c = Some KDir;
  rm_next : forall c f, k_at st c = Some (KFile f) -> f < k_next st }.

(* The disk is the one before with the described tree in it, and nothing else. *)
Record laid (ps : list proc) (st0 st : kdisk) : Prop := {
  la_file : forall n b, In (PFile n b) ps -> exists f, k_at st (split_sep n) = Some (KFile f) /\ k_bytes st f = b /\ k_next st0 <= f;
  la_sym : forall n t, In (PSym n t) ps -> k_at st (split_sep n) = Some (KSym t);
  la_link : forall n t, In (PLink n t) ps -> k_at st (split_sep n) = k_at st (split_sep t);
  la_dir : forall p c, In p ps -> c <> [] -> over c (where_ p) \/ (isdir p /\ c = where_ p) -> k_at st c = Some KDir;
  la_else : forall c, (forall p, In p ps -> where_ p <> c) -> (forall p, In p ps -> c <> [] -> ~ over c (where_ p)) -> k_at st c = k_at st0 c;
  la_root : k_at st [] = k_at st0 [];
  la_old : forall f, f < k_next st0 -> k_bytes st f = k_bytes st0 f;
  la_apart : forall p q, In p ps -> In q ps -> isfile p -> isfile q -> where_ p <> where_ q -> k_at st (where_ p) <> k_at st (where_ q) }.

(* Two disks with the same tree: files may be numbered otherwise. *)
Definition same_tree (a b : kdisk) : Prop :=
  (forall c, match k_at a c, k_at b c with
             | None, None => True
             | Some KDir, Some KDir => True
             | Some (KSym t), Some (KSym t') => t = t'
             | Some (KFile f), Some (KFile f') => k_bytes a f = k_bytes b f'
             | _, _ => False
             end) /\
  (forall c c' f f' g g', k_at a c = Some (KFile f) -> k_at a c' = Some (KFile f') -> k_at b c = Some (KFile g) -> k_at b c' = Some (KFile g') -> (f = f' <-> g = g')).

(* The order of application: directories, files, hard links, symlinks; among them shallow names
   first; then byte by byte. *)
Definition kind (p : proc) : nat := match p with PDir _ => 0 | PFile _ _ => 1 | PLink _ _ => 2 | PSym _ _ => 3 end.
Definition called (p : proc) : list byte := match p with PDir n | PFile n _ | PSym n _ | PLink n _ => n end.
Inductive lex : list byte -> list byte -> Prop :=
| lex_nil y b : lex [] (y :: b)
| lex_lt x y a b : (x < y)%N -> lex (x :: a) (y :: b)
| lex_eq x a b : lex a b -> lex (x :: a) (x :: b).
Definition goes_first (p q : proc) : Prop :=
  kind p < kind q \/ (kind p = kind q /\ (length (where_ p) < length (where_ q) \/ (length (where_ p) = length (where_ q) /\ lex (called p) (called q)))).
Definition alike (n : list byte) (k : nat) (p : proc) : bool :=
  (if list_eq_dec N.eq_dec (called p) n then true else false) && Nat.eqb (kind p) k.

(* Something on the disk is in the way of [p]. *)
Definition blocked (st : kdisk) (p : proc) : Prop :=
  (exists c f, c <> [] /\ (over c (where_ p) \/ (isdir p /\ c = where_ p)) /\ k_at st c = Some (KFile f)) \/
  match p with
  | PDir _ => False
  | PFile _ _ => k_at st (where_ p) = Some KDir
  | PSym _ _ | PLink _ _ => k_at st (where_ p) <> None
  end.
