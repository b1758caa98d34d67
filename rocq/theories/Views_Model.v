(* Model of vroot's wrapping views: PathPrefixFs (pathprefix.go) and ReadOnlyFs, ReadOnlyRoot,
   ReadOnlyFile (readonly.go). *)
From Verif Require Import Common ContentRange_Model PathLex_Model.
Open Scope Z_scope.

(* ---- PathPrefixFs ---- *)

Inductive op1 := Chmod | Chown | Chtimes | Create | Lchown | Lstat | Mkdir | MkdirAll | Open | OpenFile | ReadLink | Remove | Stat.

(* A call by its path arguments; other arguments are passed on unchanged. *)
Inductive vcall :=
| V1 (o : op1) (name : list byte)
| VLink (old new : list byte)
| VRename (old new : list byte)
| VSymlink (target new : list byte)
| VRemoveAll (name : list byte).

(* resolvePath (:44-53). *)
Definition pp_resolve (prefix name : list byte) : option (list byte) :=
  let p := clean name in
  if is_dot p then Some prefix
  else if negb (is_local p) then None
  else Some (join2 prefix p).

(* The call made on the inner file system, None when refused (:55-219). *)
Definition pp_call (prefix : list byte) (c : vcall) : option vcall :=
  match c with
  | V1 o name => match pp_resolve prefix name with Some p => Some (V1 o p) | None => None end
  | VLink old new =>
      match pp_resolve prefix old with
      | None => None
      | Some a => match pp_resolve prefix new with Some b => Some (VLink a b) | None => None end
      end
  | VRename old new =>
      match pp_resolve prefix old with
      | None => None
      | Some a => match pp_resolve prefix new with Some b => Some (VRename a b) | None => None end
      end
  | VSymlink target new => match pp_resolve prefix new with Some b => Some (VSymlink target b) | None => None end
  | VRemoveAll name =>
      if is_dot (clean name) then None
      else match pp_resolve prefix name with Some p => Some (VRemoveAll p) | None => None end
  end.

(* NewPathPrefixFs (:29-42), given what Stat says of the cleaned prefix. *)
Definition pp_new (is_dir : list byte -> bool) (prefix : list byte) : option (list byte) :=
  match prefix with
  | [] => None
  | _ => if is_dir (clean prefix) then Some (clean prefix) else None
  end.

(* ---- ReadOnlyFs ---- *)

(* The platform's open flags. *)
Record oflags := { f_wronly : Z; f_rdwr : Z; f_append : Z; f_create : Z; f_trunc : Z }.

(* openflag.WriteOp (internal/openflag/flag.go:10-12). *)
Definition write_op (fl : oflags) (flag : Z) : bool :=
  negb (Z.land flag (Z.lor (Z.lor (Z.lor (Z.lor (f_wronly fl) (f_rdwr fl)) (f_append fl)) (f_create fl)) (f_trunc fl)) =? 0).

Inductive fsop :=
| FChmod | FChown | FChtimes | FCreate | FLchown | FLink | FMkdir | FMkdirAll | FRemove | FRemoveAll | FRename | FSymlink
| FLstat | FStat | FReadLink | FOpen | FOpenFile (flag : Z) | FOpenRoot | FClose | FName.
Inductive fileop :=
| HChmod | HChown | HSync | HTruncate | HWrite | HWriteAt | HWriteString
| HRead | HReadAt | HReadDir | HReaddir | HReaddirnames | HSeek | HStat | HName | HFd | HClose.

(* A call on the wrapped file system: on its root or file handle number [h]. *)
Inductive icall := IRoot (h : nat) (o : fsop) | IFile (h : nat) (o : fileop).

(* The call ReadOnlyFs and ReadOnlyRoot make for a call of theirs (readonly.go:38-115, 128-219). *)
Definition ro_root (fl : oflags) (h : nat) (o : fsop) : option icall :=
  match o with
  | FChmod | FChown | FChtimes | FCreate | FLchown | FLink | FMkdir | FMkdirAll | FRemove | FRemoveAll | FRename | FSymlink => None
  | FOpenFile flag => if write_op fl flag then None else Some (IRoot h (FOpenFile flag))
  | FLstat | FStat | FReadLink | FOpen | FOpenRoot | FClose | FName => Some (IRoot h o)
  end.
(* ReadOnlyFile (:241-311): a refusal asks the file for its name. *)
Definition ro_file (h : nat) (o : fileop) : icall :=
  match o with
  | HChmod | HChown | HSync | HTruncate | HWrite | HWriteAt | HWriteString => IFile h HName
  | _ => IFile h o
  end.

(* A history: each call names a read-only root or file by number. The wrapped file system
   answers a call with a new handle or not. *)
Inductive rocall := CRoot (i : nat) (o : fsop) | CFile (i : nat) (o : fileop).
Record rost := { roots : list nat; files : list nat }.

Definition opens_file (o : fsop) : bool := match o with FOpen | FOpenFile _ => true | _ => false end.
Definition opens_root (o : fsop) : bool := match o with FOpenRoot => true | _ => false end.

Fixpoint ro_run {W : Type} (exec : W -> icall -> W * option nat) (fl : oflags) (w : W) (s : rost) (cs : list rocall) : list icall * W :=
  match cs with
  | [] => ([], w)
  | CRoot i o :: cs =>
      match nth_error (roots s) i with
      | None => ro_run exec fl w s cs
      | Some h =>
          match ro_root fl h o with
          | None => ro_run exec fl w s cs
          | Some ic =>
              let '(w1, r) := exec w ic in
              let s1 := match r with
                        | Some nh => {| roots := if opens_root o then roots s ++ [nh] else roots s;
                                        files := if opens_file o then files s ++ [nh] else files s |}
                        | None => s
                        end in
              let '(l, w2) := ro_run exec fl w1 s1 cs in (ic :: l, w2)
          end
      end
  | CFile i o :: cs =>
      match nth_error (files s) i with
      | None => ro_run exec fl w s cs
      | Some h => let '(w1, _) := exec w (ro_file h o) in let '(l, w2) := ro_run exec fl w1 s cs in (ro_file h o :: l, w2)
      end
  end.
