(* Model of vroot/osfs/fs.go: Fs hands every call on to package os with a path made from its
   root and the name given. *)
From Verif Require Import Common ContentRange_Model PathLex_Model.

(* resolvePath (fs.go:62-77); None is vroot.ErrPathEscapes. *)
Definition resolve_path (root path : list byte) : option (list byte) :=
  let path := clean path in
  if bytes_eqb path [dot] then Some root
  else if negb (is_local path) then None
  else Some (join2 root path).

(* endsWithDot (:248-258). *)
Definition ends_with_dot (name : list byte) : bool :=
  if bytes_eqb name [dot] then true
  else match rev name with
       | c :: d :: _ => N.eqb c dot && N.eqb d sep
       | _ => false
       end.

(* The methods that take names. *)
Inductive fsop :=
| OpChmod (n : list byte) | OpChown (n : list byte) | OpChtimes (n : list byte) | OpCreate (n : list byte)
| OpLchown (n : list byte) | OpLink (o n : list byte) | OpLstat (n : list byte) | OpMkdir (n : list byte)
| OpMkdirAll (n : list byte) | OpOpen (n : list byte) | OpOpenFile (n : list byte) | OpOpenRoot (n : list byte)
| OpReadLink (n : list byte) | OpRemove (n : list byte) | OpRemoveAll (n : list byte)
| OpRename (o n : list byte) | OpStat (n : list byte) | OpSymlink (target n : list byte) | OpReadFile (n : list byte).

(* Functions of package os. *)
Inductive oscall :=
| OsChmod (p : list byte) | OsChown (p : list byte) | OsChtimes (p : list byte) | OsCreate (p : list byte)
| OsLchown (p : list byte) | OsLink (o p : list byte) | OsLstat (p : list byte) | OsMkdir (p : list byte)
| OsMkdirAll (p : list byte) | OsOpen (p : list byte) | OsOpenFile (p : list byte) | OsOpenRoot (p : list byte)
| OsReadlink (p : list byte) | OsRemove (p : list byte) | OsRemoveAll (p : list byte)
| OsRename (o p : list byte) | OsStat (p : list byte) | OsSymlink (target p : list byte) | OsReadFile (p : list byte).

Inductive fsout := Escapes | Invalid | Calls (c : oscall).

Definition one (root n : list byte) (k : list byte -> oscall) : fsout :=
  match resolve_path root n with None => Escapes | Some p => Calls (k p) end.
Definition two (root o n : list byte) (k : list byte -> list byte -> oscall) : fsout :=
  match resolve_path root o with
  | None => Escapes
  | Some p => match resolve_path root n with None => Escapes | Some q => Calls (k p q) end
  end.

(* The methods (:79-294). *)
Definition fs_call (root : list byte) (o : fsop) : fsout :=
  match o with
  | OpChmod n => one root n OsChmod
  | OpChown n => one root n OsChown
  | OpChtimes n => one root n OsChtimes
  | OpCreate n => one root n OsCreate
  | OpLchown n => one root n (fun p => if bytes_eqb root p then OsChown p else OsLchown p)
  | OpLink o n => two root o n OsLink
  | OpLstat n => one root n (fun p => if bytes_eqb root p then OsStat p else OsLstat p)
  | OpMkdir n => one root n OsMkdir
  | OpMkdirAll n => one root n OsMkdirAll
  | OpOpen n => one root n OsOpen
  | OpOpenFile n => one root n OsOpenFile
  | OpOpenRoot n => one root n OsOpenRoot
  | OpReadLink n =>
      match resolve_path root n with
      | None => Escapes
      | Some p => if bytes_eqb root p then Invalid else Calls (OsReadlink p)
      end
  | OpRemove n => one root n OsRemove
  | OpRemoveAll n =>
      if ends_with_dot n then Invalid
      else match resolve_path root n with
           | None => Escapes
           | Some p => if bytes_eqb p root then Invalid else Calls (OsRemoveAll p)
           end
  | OpRename o n => two root o n OsRename
  | OpStat n => one root n OsStat
  | OpSymlink target n => one root n (OsSymlink target)
  | OpReadFile n => one root n OsReadFile
  end.
