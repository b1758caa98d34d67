(* Model of fsutil/testhelper/context.go and context_fsys.go: the test context C, its history
   and its 34 wrappers. *)
From Coq Require Import String Ascii.
From Verif Require Import Common.
Open Scope nat_scope.
Open Scope list_scope.

Definition text := list byte.
Definition lit (s : string) : text := map N_of_ascii (list_ascii_of_string s).

(* The methods of Fsys (context.go:46-64) with their arguments. *)
Inductive arg := AName (s : text) | AMode (m : N) | AInt (z : Z) | ATime (z : Z).
Inductive call :=
| Chmod (name : text) (mode : N) | Chown (name : text) (uid gid : Z) | Chtimes (name : text) (atime mtime : Z)
| Create (name : text) | Lchown (name : text) (uid gid : Z) | Link (oldname newname : text) | Lstat (name : text)
| Mkdir (name : text) (perm : N) | MkdirAll (name : text) (perm : N) | Open (name : text)
| OpenFile (name : text) (flag : Z) (perm : N) | ReadLink (name : text) | Remove (name : text) | RemoveAll (name : text)
| Rename (oldname newname : text) | Stat (name : text) | Symlink (oldname newname : text).

(* The name and the arguments as the format strings have them (context_fsys.go, first line of
   each method). [sh] is how fmt prints an argument: %q, %s of a mode, %d, %s of a time. *)
Definition parts (c : call) : text * list arg :=
  match c with
  | Chmod n m => (lit "Chmod", [AName n; AMode m])
  | Chown n u g => (lit "Chown", [AName n; AInt u; AInt g])
  | Chtimes n a m => (lit "Chtimes", [AName n; ATime a; ATime m])
  | Create n => (lit "Create", [AName n])
  | Lchown n u g => (lit "Lchown", [AName n; AInt u; AInt g])
  | Link o n => (lit "Link", [AName o; AName n])
  | Lstat n => (lit "Lstat", [AName n])
  | Mkdir n p => (lit "Mkdir", [AName n; AMode p])
  | MkdirAll n p => (lit "MkdirAll", [AName n; AMode p])
  | Open n => (lit "Open", [AName n])
  | OpenFile n f p => (lit "OpenFile", [AName n; AInt f; AMode p])
  | ReadLink n => (lit "ReadLink", [AName n])
  | Remove n => (lit "Remove", [AName n])
  | RemoveAll n => (lit "RemoveAll", [AName n])
  | Rename o n => (lit "Rename", [AName o; AName n])
  | Stat n => (lit "Stat", [AName n])
  | Symlink o n => (lit "Symlink", [AName o; AName n])
  end.
Fixpoint joined (l : list text) : text :=
  match l with [] => [] | [x] => x | x :: l => x ++ lit ", " ++ joined l end.
Definition show (sh : arg -> text) (c : call) : text :=
  let '(f, l) := parts c in f ++ lit "(" ++ joined (map sh l) ++ lit ")".

(* What the file system answers: a value (a handle for Create, Open and OpenFile) or an error,
   here its text. *)
Inductive res := Ok (v : nat) | Err (why : text).
Inductive ev := EvCall (c : call) (r : res) | EvClose (h : nat).

(* The context (context.go:97-101), what reached the file system, the messages given to
   Fatalf, and whether Fatalf has ended the test. *)
Record ctx := Ctx { c_hist : list text; c_evs : list ev; c_fatal : list text; c_stopped : bool }.
Definition new_ctx : ctx := Ctx [] [] [] false.

(* record (:107-109). *)
Definition record (w : ctx) (s : text) : ctx := Ctx (c_hist w ++ [s]) (c_evs w) (c_fatal w) (c_stopped w).

(* Fatalf of the T given: [stops] for testing.T, not for a T that only notes the failure, such
   as the fakeT of faket_test.go. *)
Definition fatalf (stops : bool) (w : ctx) (msg : text) : ctx :=
  Ctx (c_hist w) (c_evs w) (c_fatal w ++ [msg]) (stops || c_stopped w).

(* ReportFailf (:111-126). *)
Definition listing (h : list text) : text := concat (map (fun x => 10%N :: lit "  - " ++ x) h).
Definition report_failf (stops : bool) (w : ctx) (msg : text) : ctx :=
  let w := match c_hist w with [] => fatalf stops w msg | _ => w end in
  if c_stopped w then w
  else fatalf stops w (msg ++ 10%N :: lit "operation history:" ++ listing (c_hist w)).

(* CreateE, OpenE and OpenFileE close what they got (context_fsys.go:66-69, :179-182, :200-203). *)
Definition opens (c : call) : bool :=
  match c with Create _ | Open _ | OpenFile _ _ _ => true | _ => false end.

(* The wrappers (context_fsys.go): [e] for the variant that wants an error. *)
Definition ctx_call (stops : bool) (sh : arg -> text) (fs : list ev -> call -> res) (e : bool) (c : call) (w : ctx) : ctx * res :=
  let w := record w (show sh c) in
  let r := fs (c_evs w) c in
  let w := Ctx (c_hist w) (c_evs w ++ [EvCall c r]) (c_fatal w) (c_stopped w) in
  match e, r with
  | true, Ok v =>
      let w := if opens c then Ctx (c_hist w) (c_evs w ++ [EvClose v]) (c_fatal w) (c_stopped w) else w in
      (report_failf stops w (show sh c ++ lit " succeeded, want error"), r)
  | false, Err why => (report_failf stops w (show sh c ++ lit ": " ++ why), r)
  | _, _ => (w, r)
  end.

(* A test that makes these calls one after the other. The answers are those of the calls that
   returned. *)
Fixpoint run (stops : bool) (sh : arg -> text) (fs : list ev -> call -> res) (l : list (bool * call)) (w : ctx) : ctx * list res :=
  match l with
  | [] => (w, [])
  | (e, c) :: l =>
      let '(w, r) := ctx_call stops sh fs e c w in
      if c_stopped w then (w, [])
      else let '(w, rs) := run stops sh fs l w in (w, r :: rs)
  end.
