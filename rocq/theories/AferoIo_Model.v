(* Model of the adapters of aferofs: aferofs/valid_path.go, iofs.go, operation.go, observable.go
   and the methods generated for them. *)
From Verif Require Import Common ContentRange_Model PathLex_Model Utf8_Model Views_Model IoBridge_Model MemBuf_Model.
Open Scope Z_scope.

(* strings.CutPrefix with "/". *)
Definition cut_sep (p : list byte) : list byte :=
  match p with a :: r => if N.eqb a sep then r else p | [] => [] end.
(* toFsPath (valid_path.go:11-21) on Unix: VolumeName is empty, ToSlash the identity. *)
Definition to_fs_path (p : list byte) : list byte :=
  match p with
  | [] => []
  | _ => cut_sep (trim_dot_slash (clean p))
  end.

(* The methods of an afero.Fs by the paths they take. *)
Inductive aop := ACreate | AMkdir | AMkdirAll | AOpen | AOpenFile (flag : Z) | ARemove | ARemoveAll | AStat | AChmod | AChown | AChtimes.
Inductive acall := A1 (o : aop) (name : list byte) | ARename (old new_ : list byte) | AName.
(* ValidPathFs (valid_path.validpathfs.generate.go). *)
Definition valid_path_call (c : acall) : acall :=
  match c with
  | A1 o name => A1 o (to_fs_path name)
  | ARename old new_ => ARename (to_fs_path old) (to_fs_path new_)
  | AName => AName
  end.

(* IoFsAdapter (iofs.go:84-157): a refusal, an invalid name, or a question to the fs.FS. *)
Inductive aanswer := AROFS | AInvalid | AAsk (o : ioop) (name : list byte) | AOwn.
Definition ad_open (name : list byte) : aanswer := if fs_valid_path name then AAsk IOpen name else AInvalid.
Definition adapter_call (fl : oflags) (c : acall) : aanswer :=
  match c with
  | A1 o name =>
      match o with
      | AChmod | AChown | AChtimes | ACreate | AMkdir | AMkdirAll | ARemove | ARemoveAll => AROFS
      | AOpen => ad_open name
      | AOpenFile flag =>
          if negb (Z.land flag (Z.lor (Z.lor (Z.lor (Z.lor (f_wronly fl) (f_rdwr fl)) (f_append fl)) (f_create fl)) (f_trunc fl)) =? 0) then AROFS else ad_open name
      | AStat => AAsk IStat name
      end
  | ARename _ _ => AROFS
  | AName => AOwn
  end.

(* The methods a file opened by an fs.FS may have besides Stat, Read and Close. *)
Record methods := {
  m_readat : bool; m_readdir : bool; m_readdirnames : bool; m_ReadDir : bool; m_seek : bool; m_sync : bool;
  m_truncate : bool; m_write : bool; m_writeat : bool; m_writestring : bool }.
Inductive fop := OReadAt | OReaddir | OReaddirnames | OSeek | OSync | OTruncate | OWrite | OWriteAt | OWriteString | ORead | OStat | OClose | OName.
(* What a call does: one of the file's methods, a refusal, ErrOpNotSupported, or nothing of the file. *)
Inductive fact := Does (o : fop) | FROFS | FUnsupported | FOwn.
Definition guarded (b : bool) (o : fop) : fact := if b then Does o else FUnsupported.
(* Readdirnames (operation.go:42-57): by Readdir where there is no Readdirnames. *)
Definition op_readdirnames (m : methods) : fact :=
  if m_readdirnames m then Does OReaddirnames else guarded (m_readdir m) OReaddir.
(* WriteString (:104-113). *)
Definition op_writestring (m : methods) : fact :=
  if m_writestring m then Does OWriteString else guarded (m_write m) OWrite.
(* FsFile (iofs.go:171-219) with the functions of operation.go:18-102. *)
Definition fsfile_call (readonly : bool) (m : methods) (o : fop) : fact :=
  match o with
  | OReadAt => guarded (m_readat m) OReadAt
  | OReaddir => guarded (m_readdir m) OReaddir
  | OReaddirnames => op_readdirnames m
  | OSeek => guarded (m_seek m) OSeek
  | OSync => guarded (m_sync m) OSync
  | OTruncate => if readonly then FROFS else guarded (m_truncate m) OTruncate
  | OWrite => if readonly then FROFS else guarded (m_write m) OWrite
  | OWriteAt => if readonly then FROFS else guarded (m_writeat m) OWriteAt
  | OWriteString => if readonly then FROFS else op_writestring m
  | ORead | OStat | OClose => Does o
  | OName => FOwn
  end.
(* NewIoFsAdapter (:80-82) drops its flag; its Open (:121-130) makes read-only files. *)
Definition adapter_file (readonly : bool) (m : methods) (o : fop) : fact := fsfile_call true m o.

(* readDirFile.ReadDir (iofs.go:42-52); [A] are the file infos. *)
Definition io_readdir {A} (p : list A * option nat) : list A * option nat :=
  match snd p with Some e => ([], Some e) | None => (fst p, None) end.

(* ---- observable.go ---- *)

(* An argument: a byte slice, by the number of its array, or a plain value. *)
Inductive arg := ABuf (i : nat) | AVal (v : nat).
(* An entry (observable.go:12-18) without its time; [r_args] is a copy of the argument list only. *)
Record entry := { r_fs : bool; r_before : bool; r_method : nat; r_args : list arg }.
Record ost := { bufs : list (list byte); hist : list entry }.
Definition record_op (s : ost) (isfs before : bool) (m : nat) (args : list arg) : ost :=
  {| bufs := bufs s; hist := hist s ++ [{| r_fs := isfs; r_before := before; r_method := m; r_args := args |}] |}.
Definition put_bytes (s : ost) (i : nat) (v : list byte) : ost := {| bufs := set_nth (bufs s) i v; hist := hist s |}.
(* What happens: a call through the wrapper, in which the wrapped method fills some buffers, or the
   caller changing a buffer of its own. *)
Inductive event :=
| ECall (isfs : bool) (m : nat) (args : list arg) (fills : list (nat * list byte)) (results : list arg)
| ECaller (i : nat) (v : list byte).
(* The generated methods: beforeEach, the call, afterEach. *)
Definition observe (s : ost) (e : event) : ost :=
  match e with
  | ECall isfs m args fills results =>
      let s := record_op s isfs true m args in
      let s := fold_left (fun s f => put_bytes s (fst f) (snd f)) fills s in
      record_op s isfs false m results
  | ECaller i v => put_bytes s i v
  end.
Definition observe_all (s : ost) (es : list event) : ost := fold_left observe es s.
