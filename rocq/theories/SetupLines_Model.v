(* Model of fsutil/testhelper/setup.go: lines that describe a tree, the order in which they are
   applied, and what each does to the file system under test. *)
From Verif Require Import Common ContentRange_Model PathLex_Model TempName_Model CopyFs_Model.
Open Scope nat_scope.

(* SetupProc (:45-49) with its four kinds (:131-260); Mode 0 and no Mtime, as lines give them. *)
Inductive proc := PDir (name : list byte) | PFile (name content : list byte) | PSym (name target : list byte) | PLink (name target : list byte).

Definition arrow : list byte := [32; 45; 62; 32]%N.    (* " -> " *)
Definition colon : list byte := [58; 32]%N.            (* ": " *)
Definition space : byte := 32%N.

(* strings.Cut. *)
Fixpoint cut_str (p s : list byte) : option (list byte * list byte) :=
  if has_prefix p s then Some ([], skipn (length p) s)
  else match s with
       | [] => None
       | c :: s => match cut_str p s with Some (a, b) => Some (c :: a, b) | None => None end
       end.
(* strings.HasSuffix(line, "/"). *)
Definition ends_sep (s : list byte) : bool := match rev s with c :: _ => N.eqb c sep | [] => false end.
(* A quote or a backquote first. *)
Definition quoted (s : list byte) : bool := match s with c :: _ => (c =? 34)%N || (c =? 96)%N | [] => false end.

(* ParseSetupProcLine (:51-92); [uq] is strconv.Unquote. FromSlash is the identity on Unix. *)
Definition parse_line (uq : list byte -> option (list byte)) (line : list byte) : option proc :=
  match cut_str arrow line with
  | Some (path, target) => if is_empty path || is_empty target then None else Some (PSym path target)
  | None =>
      if ends_sep line then
        let path := removelast line in
        if is_empty path then None else Some (PDir path)
      else
        match cut_str colon line with
        | Some (path, content) =>
            if is_empty path then None
            else if quoted content then
              match uq content with Some c => Some (PFile path c) | None => None end
            else if existsb (N.eqb space) content then None
            else Some (PFile path content)
        | None => None
        end
  end.

(* Path, Order (:137-143, :169-175, :221-227, :244-250). *)
Definition p_path (p : proc) : list byte := match p with PDir n | PFile n _ | PSym n _ | PLink n _ => n end.
Definition p_order (p : proc) : nat := match p with PDir _ => 0 | PFile _ _ => 1 | PLink _ _ => 2 | PSym _ _ => 3 end.

(* pathDepth (:106-118). *)
Definition path_depth (path : list byte) : nat :=
  let path := clean path in
  if is_dot path then 0 else S (length (filter (N.eqb sep) path)).

(* compareSetupProc (:94-100): whether [l] goes before [r]. *)
Definition proc_ltb (l r : proc) : bool :=
  (p_order l <? p_order r) ||
  ((p_order l =? p_order r) &&
   ((path_depth (p_path l) <? path_depth (p_path r)) ||
    ((path_depth (p_path l) =? path_depth (p_path r)) && str_ltb (p_path l) (p_path r)))).

(* slices.SortStableFunc. *)
Fixpoint insert_proc (x : proc) (l : list proc) : list proc :=
  match l with
  | [] => [x]
  | y :: l' => if proc_ltb y x then y :: insert_proc x l' else x :: l
  end.
Definition sort_procs (l : list proc) : list proc := fold_right insert_proc [] l.

(* The file system: what each path holds, the bytes of each file, the files made so far. *)
Inductive knode := KDir | KFile (f : nat) | KSym (target : list byte).
Record kdisk := KDisk { k_at : list (list byte) -> option knode; k_bytes : nat -> list byte; k_next : nat }.

Definition kset (st : kdisk) (c : list (list byte)) (n : knode) : kdisk :=
  KDisk (fun x => if list_eq_dec (list_eq_dec N.eq_dec) x c then Some n else k_at st x) (k_bytes st) (k_next st).
Definition kwrite (st : kdisk) (f : nat) (b : list byte) : kdisk :=
  KDisk (k_at st) (fun g => if Nat.eqb g f then b else k_bytes st g) (k_next st).
Definition kpath (name : list byte) : list (list byte) := clean_comps (rooted name) (split_sep name).

(* MkdirAll. A symlink in the way is not followed but ends the run, here and below. *)
Fixpoint mk_dirs (st : kdisk) (cur rest : list (list byte)) : option kdisk :=
  match rest with
  | [] => Some st
  | c :: rest =>
      match k_at st (cur ++ [c]) with
      | None => mk_dirs (kset st (cur ++ [c]) KDir) (cur ++ [c]) rest
      | Some KDir => mk_dirs st (cur ++ [c]) rest
      | Some _ => None
      end
  end.
Definition k_mkdir_all (st : kdisk) (name : list byte) : option kdisk := mk_dirs st [] (kpath name).

Definition parent_ok (st : kdisk) (c : list (list byte)) : bool :=
  match c with
  | [] => false
  | _ => match removelast c with [] => true | q => match k_at st q with Some KDir => true | _ => false end end
  end.
(* Create: the file's number; its bytes are gone. *)
Definition k_create (st : kdisk) (name : list byte) : option (nat * kdisk) :=
  let c := kpath name in
  if negb (parent_ok st c) then None
  else match k_at st c with
       | None => Some (k_next st, kset (KDisk (k_at st) (fun g => if Nat.eqb g (k_next st) then [] else k_bytes st g) (S (k_next st))) c (KFile (k_next st)))
       | Some (KFile f) => Some (f, kwrite st f [])
       | Some _ => None
       end.
Definition k_symlink (st : kdisk) (target name : list byte) : option kdisk :=
  let c := kpath name in
  if negb (parent_ok st c) then None
  else match k_at st c with None => Some (kset st c (KSym target)) | Some _ => None end.
Definition k_link (st : kdisk) (old name : list byte) : option kdisk :=
  let c := kpath name in
  if negb (parent_ok st c) then None
  else match k_at st c, k_at st (kpath old) with
       | None, Some (KFile f) => Some (kset st c (KFile f))
       | _, _ => None
       end.

(* mkdirParent (:120-129). *)
Definition mkdir_parent (st : kdisk) (name : list byte) : option kdisk :=
  if is_dot (dir name) then Some st else k_mkdir_all st (dir name).

(* Setup of each kind (:145-160, :177-214, :229-237, :252-260). *)
Definition setup1 (st : kdisk) (p : proc) : option kdisk :=
  match p with
  | PDir n => k_mkdir_all st n
  | PFile n b =>
      match mkdir_parent st n with
      | None => None
      | Some st => match k_create st n with None => None | Some (f, st) => Some (kwrite st f (k_bytes st f ++ b)) end
      end
  | PSym n t => match mkdir_parent st n with None => None | Some st => k_symlink st t n end
  | PLink n t => match mkdir_parent st n with None => None | Some st => k_link st t n end
  end.
Fixpoint setup_in_order (st : kdisk) (ps : list proc) : option kdisk :=
  match ps with
  | [] => Some st
  | p :: ps => match setup1 st p with Some st => setup_in_order st ps | None => None end
  end.

(* C.Setup (:14-25): in order; the first error ends the test. *)
Definition setup (st : kdisk) (ps : list proc) : option kdisk := setup_in_order st (sort_procs ps).

(* C.SetupLines (:32-43): a line that does not parse ends the test before anything is made. *)
Fixpoint parse_lines (uq : list byte -> option (list byte)) (lines : list (list byte)) : option (list proc) :=
  match lines with
  | [] => Some []
  | l :: lines => match parse_line uq l, parse_lines uq lines with Some p, Some ps => Some (p :: ps) | _, _ => None end
  end.
Definition setup_lines (uq : list byte -> option (list byte)) (st : kdisk) (lines : list (list byte)) : option kdisk :=
  match parse_lines uq lines with Some ps => setup st ps | None => None end.
