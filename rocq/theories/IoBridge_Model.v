(* Model of the bridges between vroot.Fs and io/fs.FS: vroot/iofs_to.go, iofs_from.go,
   pathnormalizer.go, and the listing helpers of funcs.go. *)
From Verif Require Import Common ContentRange_Model PathLex_Model Utf8_Model Views_Model.
Open Scope Z_scope.

(* utf8.ValidString. *)
Fixpoint utf8_loop (fuel : nat) (p : list byte) : bool :=
  match p with
  | [] => true
  | b :: r =>
      match fuel with
      | O => false
      | S fuel' =>
          if (b <? 128)%N then utf8_loop fuel' r
          else if (decode_size p =? 1)%nat then false
          else utf8_loop fuel' (skipn (decode_size p) p)
      end
  end.
Definition valid_string (p : list byte) : bool := utf8_loop (length p) p.

(* fs.ValidPath. *)
Definition fs_valid_path (name : list byte) : bool :=
  valid_string name && (is_dot name || forallb (fun e => negb (is_empty e || is_dot e || is_dotdot e)) (split_sep name)).
(* filepath.Localize on Unix: no NUL. *)
Definition localizable (name : list byte) : bool := fs_valid_path name && forallb (fun b => negb (b =? 0)%N) name.
(* validFsPath (iofs_to.go:193-208). *)
Definition valid_fs_path (name : list byte) : bool := fs_valid_path name && localizable name.

(* The methods of an fs.FS, and the calls ioFs and ioFsRoot make for them on what they wrap
   (iofs_to.go:55-112, 132-180). *)
Inductive ioop := IOpen | IReadDir | IReadFile | IReadLink | ILstat | IStat | ISub.
Inductive vop := WOpen | WReadDir | WReadFile | WReadLink | WLstat | WStat | WSub.
Definition to_io (o : ioop) (name : list byte) : option (vop * list byte) :=
  if valid_fs_path name then
    Some (match o with
          | IOpen => WOpen | IReadDir => WReadDir | IReadFile => WReadFile | IReadLink => WReadLink
          | ILstat => WLstat | IStat => WStat | ISub => WSub
          end, name)
  else None.

(* cleanToSlash, cleanFromSlash (pathnormalizer.go:22-32) where the separator is the slash. *)
Definition trim_dot_slash (p : list byte) : list byte :=
  match p with a :: b :: r => if (N.eqb a dot && N.eqb b sep)%bool then r else p | _ => p end.
Definition clean_to_slash (p : list byte) : list byte := trim_dot_slash (clean p).
Definition clean_from_slash (p : list byte) : list byte := trim_dot_slash (clean p).

(* The methods of ioFsAsFs (iofs_from.go:52-154): refused as writing, refused as escaping, or
   asked of the fs.FS. *)
Inductive fcall :=
| FC (c : vcall)
| FCOpenFile (name : list byte) (flag : Z).
Inductive fanswer := ReadOnlyFs | Escapes | Ask (o : ioop) (name : list byte).
(* resolvePath (:44-50). *)
Definition from_resolve (name : list byte) : option (list byte) :=
  let name := clean name in
  if negb (is_local name) then None else Some (clean_to_slash name).
Definition from_ask (o : ioop) (name : list byte) : fanswer :=
  match from_resolve name with Some p => Ask o p | None => Escapes end.
Definition from_io (fl : oflags) (c : fcall) : fanswer :=
  match c with
  | FC (V1 o name) =>
      match o with
      | Lstat => from_ask ILstat name
      | Stat => from_ask IStat name
      | ReadLink => from_ask IReadLink name
      | Open => from_ask IOpen name
      | Chmod | Chown | Chtimes | Create | Lchown | Mkdir | MkdirAll | Remove | OpenFile => ReadOnlyFs
      end
  | FC (VLink _ _) | FC (VRename _ _) | FC (VSymlink _ _) | FC (VRemoveAll _) => ReadOnlyFs
  | FCOpenFile name flag => if write_op fl flag then ReadOnlyFs else from_ask IOpen name
  end.

(* The calls PathNormalizerFs and PathLocalizerFs make (pathnormalizer.go:48-125, 156-233). *)
Definition norm_call (f : list byte -> list byte) (c : vcall) : vcall :=
  match c with
  | V1 o name => V1 o (f name)
  | VLink old new => VLink (f old) (f new)
  | VRename old new => VRename (f old) (f new)
  | VSymlink target new => VSymlink target (f new)
  | VRemoveAll name => VRemoveAll (f name)
  end.
Definition normalizer_call : vcall -> vcall := norm_call clean_to_slash.
Definition localizer_call : vcall -> vcall := norm_call clean_from_slash.

(* ---- listings ---- *)

(* A directory entry as ReadDir hands it out: its name and what Info answers. [A] are the
   file infos. *)
Inductive info (A : Type) := IHas (a : A) | IGone | IFails (e : nat).
Arguments IHas {A} a. Arguments IGone {A}. Arguments IFails {A} e.
Record dirent (A : Type) := { d_name : list byte; d_info : info A }.
Arguments d_name {A}. Arguments d_info {A}.
(* One answer of a ReadDir: entries and the error that came with them. *)
Definition page (A : Type) := (list (dirent A) * option nat)%type.

(* expandedFile.Readdirnames (iofs_from.go:233-244). *)
Definition ex_names {A} (p : page A) : list (list byte) * option nat :=
  match snd p with
  | Some e => ([], Some e)
  | None => (map d_name (fst p), None)
  end.
(* expandedFile.Readdir (:213-231); None is a nil FileInfo. *)
Fixpoint ex_infos {A} (l : list (dirent A)) : list (option A) + nat :=
  match l with
  | [] => inl []
  | d :: r =>
      match d_info d with
      | IFails e => inr e
      | IHas a => match ex_infos r with inl x => inl (Some a :: x) | inr e => inr e end
      | IGone => match ex_infos r with inl x => inl (None :: x) | inr e => inr e end
      end
  end.
Definition ex_readdir {A} (p : page A) : list (option A) * option nat :=
  match snd p with
  | Some e => ([], Some e)
  | None => match ex_infos (fst p) with inl x => (x, None) | inr e => ([], Some e) end
  end.

(* fsFile.ReadDir (iofs_to.go:261-282): every entry looked at again by its path. *)
Definition restat {A} (named : A -> list byte) (lstat : list byte -> option A) (dir : list byte) (d : dirent A) : dirent A :=
  match lstat (join2 dir (d_name d)) with
  | Some a => {| d_name := named a; d_info := IHas a |}
  | None => d
  end.
Definition fs_readdir {A} (named : A -> list byte) (lstat : option (list byte -> option A)) (dir : list byte) (p : page A) : page A :=
  match lstat with
  | None => p
  | Some l => (map (restat named l dir) (fst p), snd p)
  end.

(* cmp.Compare on names, and the sort of ReadDir (funcs.go:29-34): SortFunc on names. *)
Fixpoint bytes_cmp (a b : list byte) : comparison :=
  match a, b with
  | [], [] => Eq
  | [], _ => Lt
  | _, [] => Gt
  | x :: a', y :: b' => match N.compare x y with Eq => bytes_cmp a' b' | c => c end
  end.
Fixpoint insert {A} (d : dirent A) (l : list (dirent A)) : list (dirent A) :=
  match l with
  | [] => [d]
  | e :: r => match bytes_cmp (d_name e) (d_name d) with Lt => e :: insert d r | _ => d :: l end
  end.
Definition sort_entries {A} (l : list (dirent A)) : list (dirent A) := fold_right insert [] l.
(* ReadDir without a ReadDir of the file system's own (funcs.go:20-35); [sort] is
   slices.SortFunc. *)
Definition read_dir {A} (sort : list (dirent A) -> list (dirent A)) (opened : option (page A)) : page A :=
  match opened with
  | None => ([], Some 0%nat)
  | Some p => (if (2 <=? length (fst p))%nat then sort (fst p) else fst p, snd p)
  end.
