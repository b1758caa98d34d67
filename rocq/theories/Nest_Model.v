(* Model of nested vroot wrappers: Widen (widen.go), PathPrefixFs (pathprefix.go), ReadOnlyFs
   (readonly.go), PathNormalizerFs and PathLocalizerFs (pathnormalizer.go) put over each other
   in any order, and the helpers that run on whatever comes out: ReadFile, ReadDir, WriteFile
   and Sub (funcs.go). *)
From Verif Require Import Common ContentRange_Model PathLex_Model Views_Model IoBridge_Model.
Open Scope Z_scope.

(* A stack of wrappers, outermost first. *)
Inductive view :=
| Base
| Widened (v : view)
| Prefixed (prefix : list byte) (v : view)
| Frozen (v : view)
| Normalized (v : view)
| Localized (v : view).

(* What the file system at the bottom is: whether its file type is the interface File, and
   whether it brings its own ReadFile and ReadDir. *)
Record native := { n_wide : bool; n_readfile : bool; n_readdir : bool }.

(* Whether a stack is an Fs[File] already: PathPrefixFs and the normalizers keep the file type,
   ReadOnlyFs has *ReadOnlyFile. *)
Fixpoint wide (nt : native) (v : view) : bool :=
  match v with
  | Base => n_wide nt
  | Widened _ => true
  | Prefixed _ v | Normalized v | Localized v => wide nt v
  | Frozen _ => false
  end.
(* Widen (widen.go:33-38). *)
Definition widen (nt : native) (v : view) : view := if wide nt v then v else Widened v.

(* ---- calls ---- *)

(* Why a wrapper answers by itself: EROFS, ErrPathEscapes, EINVAL. *)
Inductive refusal := RReadOnly | REscapes | RItself.

(* The method of the wrapped file system a call is for; [flag] is OpenFile's. *)
Definition fsop_of (flag : Z) (c : vcall) : fsop :=
  match c with
  | V1 o _ =>
      match o with
      | Chmod => FChmod | Chown => FChown | Chtimes => FChtimes | Create => FCreate | Lchown => FLchown
      | Lstat => FLstat | Mkdir => FMkdir | MkdirAll => FMkdirAll | Open => FOpen | OpenFile => FOpenFile flag
      | ReadLink => FReadLink | Remove => FRemove | Stat => FStat
      end
  | VLink _ _ => FLink
  | VRename _ _ => FRename
  | VSymlink _ _ => FSymlink
  | VRemoveAll _ => FRemoveAll
  end.

(* The error of a refusing PathPrefixFs (pathprefix.go:49-51, 185-187). *)
Definition pp_refusal (c : vcall) : refusal :=
  match c with
  | VRemoveAll name => if is_dot (clean name) then RItself else REscapes
  | _ => REscapes
  end.

(* The call that reaches the bottom. *)
Fixpoint down (fl : oflags) (flag : Z) (v : view) (c : vcall) : vcall + refusal :=
  match v with
  | Base => inl c
  | Widened v => down fl flag v c                              (* widen.go:44-125 *)
  | Prefixed prefix v =>
      match pp_call prefix c with
      | None => inr (pp_refusal c)
      | Some c1 => down fl flag v c1
      end
  | Frozen v =>
      match ro_root fl 0 (fsop_of flag c) with
      | None => inr RReadOnly
      | Some _ => down fl flag v c
      end
  | Normalized v => down fl flag v (normalizer_call c)
  | Localized v => down fl flag v (localizer_call c)
  end.

(* The call on the bottom's file for one on the handle a stack hands out: ReadOnlyFs wraps it in
   a ReadOnlyFile (readonly.go:80-89), the others pass it on as it is. *)
Fixpoint file_down (v : view) (o : fileop) : fileop :=
  match v with
  | Base => o
  | Widened v | Prefixed _ v | Normalized v | Localized v => file_down v o
  | Frozen v => match ro_file 0 o with IFile _ o1 => file_down v o1 | IRoot _ _ => o end
  end.

(* ---- helpers ---- *)

(* The calls the bottom sees. *)
Inductive bcall :=
| BOpen (name : list byte)
| BOpenFile (name : list byte) (flag : Z)
| BReadFile (name : list byte)
| BReadDir (name : list byte)
| BRead                                  (* io.ReadAll or ReadDir(-1) on the handle *)
| BWrite (data : list byte)
| BClose.

Inductive nerr := ERefused (r : refusal) | EBase (e : nat).
Definition as_err (e : option nat) : option nerr := match e with Some e => Some (EBase e) | None => None end.

(* ReadFile (funcs.go:43-54) and, with [A] the entries and [f] the sorting, ReadDir (:16-35).
   [opened] answers Open: an error or a handle, told by what reading it to the end gives;
   [own] is the bottom's own method. *)
Definition read_all {A : Type} (f : list A -> list A) (opened : list byte -> (list A * option nat) + nat) (fl : oflags) (v : view) (name : list byte)
  : list bcall * (list A * option nerr) :=
  match down fl 0 v (V1 Open name) with
  | inr r => ([], ([], Some (ERefused r)))
  | inl (V1 _ p) =>
      match opened p with
      | inr e => ([BOpen p], ([], Some (EBase e)))
      | inl (l, e) => ([BOpen p; BRead; BClose], (f l, as_err e))
      end
  | inl _ => ([], ([], None))
  end.

Fixpoint read_file (opened : list byte -> (list byte * option nat) + nat) (own : list byte -> list byte * option nat)
    (nt : native) (fl : oflags) (v : view) (name : list byte) : list bcall * (list byte * option nerr) :=
  match v with
  | Widened v => read_file opened own nt fl v name               (* widen.go:135-137 *)
  | Base =>
      if n_readfile nt then ([BReadFile name], (fst (own name), as_err (snd (own name))))
      else read_all (fun l => l) opened fl Base name
  | _ => read_all (fun l => l) opened fl v name
  end.

Fixpoint list_dir {A : Type} (sort : list (dirent A) -> list (dirent A))
    (opened : list byte -> (list (dirent A) * option nat) + nat) (own : list byte -> list (dirent A) * option nat)
    (nt : native) (fl : oflags) (v : view) (name : list byte) : list bcall * (list (dirent A) * option nerr) :=
  let sort2 l := if (2 <=? length l)%nat then sort l else l in
  match v with
  | Widened v => list_dir sort opened own nt fl v name             (* widen.go:129-131 *)
  | Base =>
      if n_readdir nt then ([BReadDir name], (fst (own name), as_err (snd (own name))))
      else read_all sort2 opened fl Base name
  | _ => read_all sort2 opened fl v name
  end.

(* WriteFile (funcs.go:91-102): [opened], [wrote] and [closed] are the errors of the bottom's
   OpenFile, Write and Close. *)
Definition write_flag (fl : oflags) : Z := Z.lor (Z.lor (f_wronly fl) (f_create fl)) (f_trunc fl).
Definition write_file (opened wrote closed : option nat) (fl : oflags) (v : view) (name data : list byte) : list bcall * option nerr :=
  match down fl (write_flag fl) v (V1 OpenFile name) with
  | inr r => ([], Some (ERefused r))
  | inl (V1 _ p) =>
      match opened with
      | Some e => ([BOpenFile p (write_flag fl)], Some (EBase e))
      | None =>
          ([BOpenFile p (write_flag fl); BWrite data; BClose],
           match wrote with Some e => Some (EBase e) | None => as_err closed end)
      end
  | inl _ => ([], None)
  end.

(* NewPathPrefixFs (pathprefix.go:29-42) over a stack: [is_dir] is what the bottom's Stat says. *)
Definition new_prefix (is_dir : list byte -> bool) (fl : oflags) (v : view) (prefix : list byte) : option view :=
  match pp_new (fun p => match down fl 0 v (V1 Stat p) with inl (V1 _ q) => is_dir q | _ => false end) prefix with
  | Some p => Some (Prefixed p v)
  | None => None
  end.
(* Sub (funcs.go:71-80, widen.go:140-146), for a bottom without a Sub of its own. *)
Fixpoint sub (is_dir : list byte -> bool) (nt : native) (fl : oflags) (v : view) (dir : list byte) : option view :=
  match v with
  | Widened v => match sub is_dir nt fl v dir with Some v1 => Some (widen nt v1) | None => None end
  | _ => new_prefix is_dir fl v dir
  end.

(* The ways to build a stack. *)
Inductive wrap := AddWiden | AddSub (dir : list byte) | AddPrefix (prefix : list byte) | AddFreeze | AddNormalize | AddLocalize.
Definition put (is_dir : list byte -> bool) (nt : native) (fl : oflags) (w : wrap) (v : view) : option view :=
  match w with
  | AddWiden => Some (widen nt v)
  | AddSub dir => sub is_dir nt fl v dir
  | AddPrefix prefix => new_prefix is_dir fl v prefix
  | AddFreeze => Some (Frozen v)
  | AddNormalize => Some (Normalized v)
  | AddLocalize => Some (Localized v)
  end.
Fixpoint build (is_dir : list byte -> bool) (nt : native) (fl : oflags) (ws : list wrap) (v : view) : option view :=
  match ws with
  | [] => Some v
  | w :: ws => match put is_dir nt fl w v with Some v1 => build is_dir nt fl ws v1 | None => None end
  end.
