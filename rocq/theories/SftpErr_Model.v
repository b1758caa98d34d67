(* Model of the errors and directory handles of vroot-adapter/sftpfs/sftpfs.go. *)
From Verif Require Import Common ContentRange_Model.
Open Scope nat_scope.

(* Errors, as errors.Is and errors.AsType walk them: a sentinel, a *sftp.StatusError with what
   its Error() prints, an error around another, an errors.Join of two. *)
Inductive gerr :=
| GLeaf (id : nat)
| GStatus (code : nat) (text : list byte)
| GWrap (e : gerr)
| GJoin (a b : gerr).

(* fs.ErrExist, fs.ErrNotExist, fs.ErrPermission; other sentinels are other numbers. *)
Definition s_exist : nat := 0.
Definition s_not_exist : nat := 1.
Definition s_permission : nat := 2.
(* SSH_FX_NO_SUCH_FILE, SSH_FX_FAILURE, SSH_FX_OP_UNSUPPORTED *)
Definition fx_no_such_file : nat := 2.
Definition fx_failure : nat := 4.
Definition fx_unsupported : nat := 8.

(* errors.Is(e, t) of a sentinel *)
Fixpoint is_sentinel (e : gerr) (t : nat) : bool :=
  match e with
  | GLeaf i => i =? t
  | GStatus _ _ => false
  | GWrap e => is_sentinel e t
  | GJoin a b => is_sentinel a t || is_sentinel b t
  end.
(* errors.AsType[*sftp.StatusError](e): the first one found, depth first. *)
Fixpoint as_status (e : gerr) : option (nat * list byte) :=
  match e with
  | GLeaf _ => None
  | GStatus c m => Some (c, m)
  | GWrap e => as_status e
  | GJoin a b => match as_status a with Some r => Some r | None => as_status b end
  end.

(* strings.Contains *)
Fixpoint starts_with (p s : list byte) : bool :=
  match p, s with
  | [], _ => true
  | a :: p, b :: s => N.eqb a b && starts_with p s
  | _, _ => false
  end.
Fixpoint contains (s p : list byte) : bool :=
  starts_with p s || match s with [] => false | _ :: s => contains s p end.

(* "file exists", "file already exists" *)
Definition t_exists : list byte := [102; 105; 108; 101; 32; 101; 120; 105; 115; 116; 115]%N.
Definition t_already : list byte := [102; 105; 108; 101; 32; 97; 108; 114; 101; 97; 100; 121; 32; 101; 120; 105; 115; 116; 115]%N.

(* isSftpNotExist (:470-482). *)
Definition is_not_exist (e : option gerr) : bool :=
  match e with
  | None => false
  | Some e =>
      if is_sentinel e s_not_exist then true
      else match as_status e with Some (c, _) => c =? fx_no_such_file | None => false end
  end.
(* mapSftpErr (:491-504). *)
Definition map_err (e : option gerr) : option gerr :=
  match e with
  | None => None
  | Some e =>
      match as_status e with
      | Some (c, msg) =>
          if negb (c =? fx_failure) then Some e
          else if contains msg t_exists || contains msg t_already then Some (GJoin e (GLeaf s_exist))
          else Some e
      | None => Some e
      end
  end.
(* sftpFile.Sync (:390-400). *)
Definition sync_err (e : option gerr) : option gerr :=
  match e with
  | None => None
  | Some e => match as_status e with
              | Some (c, _) => if c =? fx_unsupported then None else Some e
              | None => Some e
              end
  end.

(* What a call does with the client's error: Mkdir (:153-155), OpenFile (:196-199) and Symlink
   (:346) map it, MkdirAll (:168-170), Link (:131), Rename (:323-326) return it. *)
Inductive ecall := EMkdir | EOpenFile | ESymlink | EMkdirAll | ELink | ERename.
Definition returned (c : ecall) (e : option gerr) : option gerr :=
  match c with
  | EMkdir | EOpenFile | ESymlink => map_err e
  | EMkdirAll | ELink | ERename => e
  end.

(* pkg/sftp: the stock server's answer to a request failing with an errno and the client's
   reading of it. Missing things and missing permissions have codes of their own, which the
   client turns into the sentinels; everything else is SSH_FX_FAILURE with the text of the
   *os.PathError, which Error() prints quoted. [q] is the quoting of the path. *)
Inductive errno := NoEnt | NoPerm | Exist | Other (text : list byte).
Definition status_text (q : list byte -> list byte) (op abs text : list byte) : list byte :=
  [115; 102; 116; 112; 58; 32; 34]%N ++ op ++ 32%N :: q abs ++ [58; 32]%N ++ text
  ++ [34; 32; 40; 83; 83; 72; 95; 70; 88; 95; 70; 65; 73; 76; 85; 82; 69; 41]%N.
Definition stock (q : list byte -> list byte) (op abs : list byte) (n : errno) : gerr :=
  match n with
  | NoEnt => GLeaf s_not_exist
  | NoPerm => GLeaf s_permission
  | Exist => GStatus fx_failure (status_text q op abs t_exists)
  | Other text => GStatus fx_failure (status_text q op abs text)
  end.

(* ---- directory handles used by several goroutines ---- *)

(* sftpFile (:370-378) over entries [A], and the number of listings asked of the server. *)
Record dirst (A : Type) := { d_entries : list A; d_loaded : bool; d_err : option nat; d_asked : nat }.
Arguments d_entries {A}. Arguments d_loaded {A}. Arguments d_err {A}. Arguments d_asked {A}.
Definition fresh {A} : dirst A := {| d_entries := []; d_loaded := false; d_err := None; d_asked := 0 |}.

(* What a Readdir returns: entries, or entries and io.EOF, or the listing's error. *)
Inductive dres (A : Type) := DOk (l : list A) | DEof | DErr (e : nat).
Arguments DOk {A}. Arguments DEof {A}. Arguments DErr {A}.

(* loadDir (:404-415), under dirMu; [srv k] is the server's answer to listing number k. *)
Definition load {A} (srv : nat -> list A * option nat) (d : dirst A) : dirst A * option nat :=
  if d_loaded d then (d, d_err d)
  else let '(l, e) := srv (d_asked d) in
       ({| d_entries := l; d_loaded := true; d_err := e; d_asked := S (d_asked d) |}, e).
(* The second half of Readdir (:423-440), under dirMu again. *)
Definition take {A} (n : Z) (d : dirst A) : dirst A * dres A :=
  let set l := {| d_entries := l; d_loaded := d_loaded d; d_err := d_err d; d_asked := d_asked d |} in
  if (n <=? 0)%Z then (set [], DOk (d_entries d))
  else match d_entries d with
       | [] => (d, DEof)
       | _ =>
           let k := if (n >? Z.of_nat (length (d_entries d)))%Z then length (d_entries d) else Z.to_nat n in
           (set (skipn k (d_entries d)), DOk (firstn k (d_entries d)))
       end.

(* A goroutine: the calls still to make; whether the first half of the first is done. *)
Record gor := { g_todo : list Z; g_half : bool }.
Record mach (A : Type) := { m_dir : dirst A; m_gors : list gor; m_log : list (nat * Z * dres A) }.
Arguments m_dir {A}. Arguments m_gors {A}. Arguments m_log {A}.

Fixpoint replace {B} (l : list B) (i : nat) (x : B) : list B :=
  match l, i with
  | [], _ => []
  | _ :: l, O => x :: l
  | y :: l, S i => y :: replace l i x
  end.

(* Goroutine [i] goes through its next locked section; the log records calls as they return. *)
Definition dstep {A} (srv : nat -> list A * option nat) (m : mach A) (i : nat) : mach A :=
  match nth_error (m_gors m) i with
  | Some {| g_todo := n :: todo; g_half := false |} =>
      let '(d, e) := load srv (m_dir m) in
      match e with
      | None => {| m_dir := d; m_gors := replace (m_gors m) i {| g_todo := n :: todo; g_half := true |}; m_log := m_log m |}
      | Some e => {| m_dir := d; m_gors := replace (m_gors m) i {| g_todo := todo; g_half := false |}; m_log := m_log m ++ [(i, n, DErr e)] |}
      end
  | Some {| g_todo := n :: todo; g_half := true |} =>
      let '(d, r) := take n (m_dir m) in
      {| m_dir := d; m_gors := replace (m_gors m) i {| g_todo := todo; g_half := false |}; m_log := m_log m ++ [(i, n, r)] |}
  | _ => m
  end.
Definition drun {A} (srv : nat -> list A * option nat) (m : mach A) (sched : list nat) : mach A := fold_left (dstep srv) sched m.
Definition dstart {A} (calls : list (list Z)) : mach A :=
  {| m_dir := fresh; m_gors := map (fun l => {| g_todo := l; g_half := false |}) calls; m_log := [] |}.
