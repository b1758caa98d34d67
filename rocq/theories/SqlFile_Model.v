(* Model of the data path of vroot-adapter/overlayfs/internal/sqlvfs: Open, Delete and Access of
   sqlvfs.go and the methods of file.go, over a backend that may fail at any call. *)
From Verif Require Import Common ContentRange_Model PathLex_Model SqlVfs_Model.
Open Scope nat_scope.

(* ---- Go errors ---- *)

(* The result codes that the adapter or go-sqlite3's bridge picks. *)
Inductive code :=
| Cantopen | DeleteNoent | IoDelete | IoAccess | IoRead | IoWrite | IoTruncate | IoFsync | IoFstat | IoLock | IoUnlock | IoClose.

(* [EWrap]: an error whose Unwrap gives the one inside, such as *fs.PathError. [ESys]: what
   vfs.SystemError(err, code) makes. [EJoin]: errors.Join of two. *)
Inductive err :=
| EEof | ENoent | EHard (n : nat) | ECode (c : code)
| EWrap (e : err) | ESys (e : err) (c : code) | EJoin (a b : err).

(* errors.Is(err, io.EOF) and errors.Is(err, fs.ErrNotExist). *)
Fixpoint is_eof (e : err) : bool :=
  match e with EEof => true | EWrap e | ESys e _ => is_eof e | EJoin a b => is_eof a || is_eof b | _ => false end.
Fixpoint is_noent (e : err) : bool :=
  match e with ENoent => true | EWrap e | ESys e _ => is_noent e | EJoin a b => is_noent a || is_noent b | _ => false end.

(* errors.Join(a, b): nil when both are. *)
Definition join_err (a b : option err) : option err :=
  match a, b with
  | Some a, Some b => Some (EJoin a b)
  | Some a, None => Some (EWrap a)
  | None, Some b => Some (EWrap b)
  | None, None => None
  end.

(* ---- the backend: some vroot.Fs ---- *)

(* [e_wraps]: how often the backend wraps the errors it returns. [e_eof]: whether a read that
   ends at the end of the file reports io.EOF with the last bytes, as io.ReaderAt allows.
   [e_locks]: its files are Lockers. *)
Record env := Env { e_wraps : nat; e_eof : bool; e_locks : bool }.
Definition wrap (v : env) (e : err) : err := Nat.iter (e_wraps v) EWrap e.

Inductive node := NDir | NFile (ino : nat).
(* An open file description; it outlives the name. *)
Record fdesc := Fd { fd_node : node; fd_write : bool; fd_open : bool; fd_lock : oslock }.
Record backend := Backend { b_names : list (list (list byte) * node); b_data : list (list byte); b_fds : list fdesc }.

(* The elements of a path handed to the backend; the empty one is the root. *)
Definition comps (p : list byte) : list (list byte) := match p with [] => [] | _ => split_sep p end.

Fixpoint path_eqb (a b : list (list byte)) : bool :=
  match a, b with
  | [], [] => true
  | x :: a, y :: b => bytes_eqb x y && path_eqb a b
  | _, _ => false
  end.
Fixpoint assoc (l : list (list (list byte) * node)) (p : list (list byte)) : option node :=
  match l with [] => None | (q, n) :: l => if path_eqb q p then Some n else assoc l p end.
Definition entry (b : backend) (p : list (list byte)) : option node :=
  match p with [] => Some NDir | _ => assoc (b_names b) p end.

(* The walk down a path: what is there, or ENOENT, or ENOTDIR. *)
Inductive seen := There (n : node) | Missing | Blocked.
Fixpoint walk (at_ : list (list byte) -> option node) (pre rest : list (list byte)) : seen :=
  match at_ pre, rest with
  | Some n, [] => There n
  | Some NDir, c :: r => walk at_ (pre ++ [c]) r
  | Some (NFile _), _ :: _ => Blocked
  | None, _ => Missing
  end.
(* A file can be made at a path whose directory is there. *)
Definition dir_there (at_ : list (list byte) -> option node) (p : list (list byte)) : bool :=
  match walk at_ [] (removelast p) with There NDir => true | _ => false end.

Definition e_notdir := EHard 20.
Definition e_exist := EHard 17.
Definition e_isdir := EHard 21.
Definition e_badf := EHard 9.
Definition e_notempty := EHard 39.

(* fsys.OpenFile(name, flag, perm). [f]: the call fails with that error. *)
Definition b_openfile (v : env) (b : backend) (p : list byte) (wr cr ex : bool) (f : option nat) : backend * (nat + err) :=
  let q := comps p in
  let new_fd n := Backend (b_names b) (b_data b) (b_fds b ++ [Fd n wr true ONone]) in
  match f with
  | Some n => (b, inr (wrap v (EHard n)))
  | None =>
      match walk (entry b) [] q with
      | There n =>
          if cr && ex then (b, inr (wrap v e_exist))
          else match n with
               | NDir => if wr || cr then (b, inr (wrap v e_isdir)) else (new_fd NDir, inl (length (b_fds b)))
               | NFile i => (new_fd (NFile i), inl (length (b_fds b)))
               end
      | Missing =>
          if cr && dir_there (entry b) q
          then (Backend ((q, NFile (length (b_data b))) :: b_names b) (b_data b ++ [[]])
                        (b_fds b ++ [Fd (NFile (length (b_data b))) wr true ONone]), inl (length (b_fds b)))
          else (b, inr (wrap v ENoent))
      | Blocked => (b, inr (wrap v e_notdir))
      end
  end.

(* fsys.Remove: a file, or a directory with nothing in it. *)
Fixpoint begins (p q : list (list byte)) : bool :=
  match p, q with
  | [], _ => true
  | x :: p, y :: q => bytes_eqb x y && begins p q
  | _, _ => false
  end.
Definition inside (p q : list (list byte)) : bool := begins p q && negb (path_eqb p q).
Fixpoint drop (l : list (list (list byte) * node)) (p : list (list byte)) : list (list (list byte) * node) :=
  match l with [] => [] | (q, n) :: l => if path_eqb q p then drop l p else (q, n) :: drop l p end.
Definition b_remove (v : env) (b : backend) (p : list byte) (f : option nat) : backend * option err :=
  let q := comps p in
  let gone := Backend (drop (b_names b) q) (b_data b) (b_fds b) in
  match f with
  | Some n => (b, Some (wrap v (EHard n)))
  | None =>
      match walk (entry b) [] q with
      | There NDir =>
          if existsb (fun e => inside q (fst e)) (b_names b) || path_eqb q [] then (b, Some (wrap v e_notempty))
          else (gone, None)
      | There (NFile _) => (gone, None)
      | Missing => (b, Some (wrap v ENoent))
      | Blocked => (b, Some (wrap v e_notdir))
      end
  end.

(* fsys.Stat. *)
Definition b_stat (v : env) (b : backend) (p : list byte) (f : option nat) : option err :=
  match f with
  | Some n => Some (wrap v (EHard n))
  | None =>
      match walk (entry b) [] (comps p) with
      | There _ => None
      | Missing => Some (wrap v ENoent)
      | Blocked => Some (wrap v e_notdir)
      end
  end.

(* Bytes of a file. A write past the end leaves zeros between. *)
Definition zeros (n : nat) : list byte := repeat 0%N n.
Definition bytes_read (d : list byte) (off n : nat) : list byte := firstn n (skipn off d).
Definition bytes_write (d : list byte) (off : nat) (bs : list byte) : list byte :=
  match bs with [] => d | _ => firstn off (d ++ zeros (off - length d)) ++ bs ++ skipn (off + length bs) d end.
Definition bytes_cut (d : list byte) (n : nat) : list byte := firstn n (d ++ zeros (n - length d)).

(* io.ReaderAt on bytes that are there. *)
Definition read_at (v : env) (d : list byte) (off n : nat) : list byte * option err :=
  let r := bytes_read d off n in
  if (length r <? n) || (e_eof v && negb (n =? 0) && (off + n =? length d)) then (r, Some (wrap v EEof)) else (r, None).

Definition set_data (b : backend) (i : nat) (d : list byte) : backend :=
  Backend (b_names b) (put_nth (b_data b) i d) (b_fds b).
Definition set_fd (b : backend) (k : nat) (x : fdesc) : backend :=
  Backend (b_names b) (b_data b) (put_nth (b_fds b) k x).
Definition fd_of (b : backend) (k : nat) : option fdesc :=
  match nth_error (b_fds b) k with Some x => if fd_open x then Some x else None | None => None end.
Definition data_of (b : backend) (i : nat) : list byte := nth i (b_data b) [].

(* The methods of the backend's file. A failing read returns fewer bytes than asked, a failing
   write has written fewer. *)
Definition b_read (v : env) (b : backend) (k off n : nat) (f : option (nat * nat)) : list byte * option err :=
  match fd_of b k with
  | Some x =>
      match fd_node x with
      | NFile i =>
          match f with
          | Some (j, e) => (firstn (Nat.min j (n - 1)) (bytes_read (data_of b i) off n), Some (wrap v (EHard e)))
          | None => read_at v (data_of b i) off n
          end
      | NDir => ([], Some (wrap v e_isdir))
      end
  | None => ([], Some (wrap v e_badf))
  end.
Definition b_write (v : env) (b : backend) (k off : nat) (bs : list byte) (f : option (nat * nat)) : backend * option err :=
  match fd_of b k with
  | Some x =>
      match fd_node x, fd_write x with
      | NFile i, true =>
          match f with
          | Some (j, e) => (set_data b i (bytes_write (data_of b i) off (firstn j bs)), Some (wrap v (EHard e)))
          | None => (set_data b i (bytes_write (data_of b i) off bs), None)
          end
      | _, _ => (b, Some (wrap v e_badf))
      end
  | None => (b, Some (wrap v e_badf))
  end.
Definition b_truncate (v : env) (b : backend) (k n : nat) (f : option nat) : backend * option err :=
  match fd_of b k with
  | Some x =>
      match fd_node x, fd_write x with
      | NFile i, true =>
          match f with
          | Some e => (b, Some (wrap v (EHard e)))
          | None => (set_data b i (bytes_cut (data_of b i) n), None)
          end
      | _, _ => (b, Some (wrap v e_badf))
      end
  | None => (b, Some (wrap v e_badf))
  end.
Definition b_sync (v : env) (b : backend) (k : nat) (f : option nat) : option err :=
  match fd_of b k, f with
  | Some _, None => None
  | Some _, Some e => Some (wrap v (EHard e))
  | None, _ => Some (wrap v e_badf)
  end.
Definition b_size (v : env) (b : backend) (k : nat) (f : option nat) : nat + err :=
  match fd_of b k, f with
  | Some x, None => inl (match fd_node x with NFile i => length (data_of b i) | NDir => 0 end)
  | Some _, Some e => inr (wrap v (EHard e))
  | None, _ => inr (wrap v e_badf)
  end.
Definition b_lock (v : env) (b : backend) (k : nat) (how : oslock) (f : option nat) : backend * option err :=
  match fd_of b k with
  | Some x =>
      match f with
      | None => (set_fd b k (Fd (fd_node x) (fd_write x) true how), None)
      | Some e => (b, Some (wrap v (EHard e)))
      end
  | None => (b, Some (wrap v e_badf))
  end.
(* Close frees the descriptor even when it reports an error, as close(2) does. *)
Definition b_close (v : env) (b : backend) (k : nat) (f : option nat) : backend * option err :=
  match fd_of b k with
  | Some x => (set_fd b k (Fd (fd_node x) (fd_write x) false ONone), match f with Some e => Some (wrap v (EHard e)) | None => None end)
  | None => (b, Some (wrap v e_badf))
  end.

(* ---- the adapter ---- *)

(* vfs.OpenFlag, the bits that Open and file look at. *)
Record flags := Flags { o_readonly : bool; o_readwrite : bool; o_create : bool; o_exclusive : bool; o_delete : bool }.

(* file (file.go:41-48); the backend is in the state. *)
Record sfile := SFile { sf_fd : nat; sf_name : list byte; sf_flags : flags; sf_level : level }.
(* A handle that Open gave to sqlite: a vfsutil.SliceFile or a file. *)
Inductive handle := HMem (d : list byte) | HFile (f : sfile).
(* A closed handle is gone from the bridge's table. *)
Record sstate := SState { s_back : backend; s_handles : list (option handle) }.

(* Calls of sqlite, with the failures of the backend calls that they make. *)
Inductive call :=
| KOpen (name : list byte) (fl : flags) (f : option nat)
| KDelete (name : list byte) (f : option nat)
| KAccess (name : list byte) (f : option nat)
| KRead (h off n : nat) (f : option (nat * nat))
| KWrite (h off : nat) (bs : list byte) (f : option (nat * nat))
| KTruncate (h n : nat) (f : option nat)
| KSync (h : nat) (f : option nat)
| KSize (h : nat) (f : option nat)
| KLock (h : nat) (l : level) (f : option nat)
| KUnlock (h : nat) (l : level) (f : option nat)
| KReserved (h : nat)
| KLockState (h : nat)
| KClose (h : nat) (fu fc fr : option nat).

(* What the Go methods return. [ANone]: no such handle, or a lock call on a SliceFile, which
   sqlite does not make for files it was told are in memory. *)
Inductive ans :=
| AOpen (h : option nat) (mem : bool) (e : option err)
| AErr (e : option err)
| ABool (b : bool) (e : option err)
| ARead (d : list byte) (e : option err)
| ASize (n : nat) (e : option err)
| ALevel (l : level)
| ANone.

(* Open (sqlvfs.go:80-105), newFile (file.go:50-59). *)
Definition s_open (v : env) (s : sstate) (name : list byte) (fl : flags) (f : option nat) : sstate * ans :=
  match name with
  | [] => (SState (s_back s) (s_handles s ++ [Some (HMem [])]), AOpen (Some (length (s_handles s))) true None)
  | _ =>
      let name := clean_path name in
      match b_openfile v (s_back s) name (o_readwrite fl) (o_create fl) (o_exclusive fl) f with
      | (b, inl k) => (SState b (s_handles s ++ [Some (HFile (SFile k name fl l_none))]), AOpen (Some (length (s_handles s))) false None)
      | (b, inr e) => (SState b (s_handles s), AOpen None false (Some (ESys e Cantopen)))
      end
  end.

(* Delete (sqlvfs.go:108-116). *)
Definition s_delete (v : env) (s : sstate) (name : list byte) (f : option nat) : sstate * ans :=
  let '(b, e) := b_remove v (s_back s) (clean_path name) f in
  (SState b (s_handles s),
   AErr (match e with Some e => Some (if is_noent e then ESys e DeleteNoent else e) | None => None end)).

(* Access (sqlvfs.go:119-130). *)
Definition s_access (v : env) (s : sstate) (name : list byte) (f : option nat) : ans :=
  match b_stat v (s_back s) (clean_path name) f with
  | Some e => if is_noent e then ABool false None else ABool false (Some e)
  | None => ABool true None
  end.

(* ReadAt (file.go:72-81). *)
Definition f_read (v : env) (b : backend) (x : sfile) (off n : nat) (f : option (nat * nat)) : ans :=
  let '(d, e) := b_read v b (sf_fd x) off n f in
  match e with
  | Some e => ARead d (Some (if is_eof e then EEof else e))
  | None => ARead d None
  end.

Definition with_level (x : sfile) (l : level) : sfile := SFile (sf_fd x) (sf_name x) (sf_flags x) l.

(* Lock (file.go:109-127). *)
Definition f_lock (v : env) (b : backend) (x : sfile) (l : level) (f : option nat) : backend * sfile * option err :=
  if l <=? sf_level x then (b, x, None)
  else if (l_reserved <=? l) && o_readonly (sf_flags x) then (b, x, Some (ECode IoLock))
  else if e_locks v then
    match b_lock v b (sf_fd x) (if l =? l_shared then OSh else OEx) f with
    | (b, Some e) => (b, x, Some e)
    | (b, None) => (b, with_level x l, None)
    end
  else (b, with_level x l, None).

(* Unlock (file.go:130-146). *)
Definition f_unlock (v : env) (b : backend) (x : sfile) (l : level) (f : option nat) : backend * sfile * option err :=
  if sf_level x <=? l then (b, x, None)
  else if e_locks v then
    let '(b, e) := b_lock v b (sf_fd x) (if l =? l_shared then OSh else ONone) f in (b, with_level x l, e)
  else (b, with_level x l, None).

(* Close (file.go:62-69). *)
Definition f_close (v : env) (b : backend) (x : sfile) (fu fc fr : option nat) : backend * option err :=
  let '(b, _, e) := f_unlock v b x l_none fu in
  let '(b, e') := b_close v b (sf_fd x) fc in
  let e := join_err e e' in
  if o_delete (sf_flags x)
  then let '(b, e') := b_remove v b (sf_name x) fr in (b, join_err e e')
  else (b, e).

Definition handle_of (s : sstate) (h : nat) : option handle :=
  match nth_error (s_handles s) h with Some (Some x) => Some x | _ => None end.
Definition set_handle (s : sstate) (b : backend) (h : nat) (x : option handle) : sstate :=
  SState b (put_nth (s_handles s) h x).

(* The rest of file.go is one backend call each; SliceFile is bytes in memory. *)
Definition sstep (v : env) (s : sstate) (c : call) : sstate * ans :=
  let b := s_back s in
  match c with
  | KOpen name fl f => s_open v s name fl f
  | KDelete name f => s_delete v s name f
  | KAccess name f => (s, s_access v s name f)
  | KRead h off n f =>
      match handle_of s h with
      | Some (HMem d) => let '(r, e) := read_at (Env 0 false false) d off n in (s, ARead r e)
      | Some (HFile x) => (s, f_read v b x off n f)
      | None => (s, ANone)
      end
  | KWrite h off bs f =>
      match handle_of s h with
      | Some (HMem d) => (set_handle s b h (Some (HMem (bytes_write d off bs))), AErr None)
      | Some (HFile x) => let '(b, e) := b_write v b (sf_fd x) off bs f in (SState b (s_handles s), AErr e)
      | None => (s, ANone)
      end
  | KTruncate h n f =>
      match handle_of s h with
      | Some (HMem d) => (set_handle s b h (Some (HMem (bytes_cut d n))), AErr None)
      | Some (HFile x) => let '(b, e) := b_truncate v b (sf_fd x) n f in (SState b (s_handles s), AErr e)
      | None => (s, ANone)
      end
  | KSync h f =>
      match handle_of s h with
      | Some (HMem _) => (s, AErr None)
      | Some (HFile x) => (s, AErr (b_sync v b (sf_fd x) f))
      | None => (s, ANone)
      end
  | KSize h f =>
      match handle_of s h with
      | Some (HMem d) => (s, ASize (length d) None)
      | Some (HFile x) => (s, match b_size v b (sf_fd x) f with inl n => ASize n None | inr e => ASize 0 (Some e) end)
      | None => (s, ANone)
      end
  | KLock h l f =>
      match handle_of s h with
      | Some (HFile x) => let '(b, x, e) := f_lock v b x l f in (set_handle s b h (Some (HFile x)), AErr e)
      | _ => (s, ANone)
      end
  | KUnlock h l f =>
      match handle_of s h with
      | Some (HFile x) => let '(b, x, e) := f_unlock v b x l f in (set_handle s b h (Some (HFile x)), AErr e)
      | _ => (s, ANone)
      end
  | KReserved h =>
      match handle_of s h with
      | Some (HFile x) => (s, ABool (l_reserved <=? sf_level x) None)
      | _ => (s, ANone)
      end
  | KLockState h =>
      match handle_of s h with
      | Some (HFile x) => (s, ALevel (sf_level x))
      | _ => (s, ANone)
      end
  | KClose h fu fc fr =>
      match handle_of s h with
      | Some (HMem _) => (set_handle s b h None, AErr None)
      | Some (HFile x) => let '(b, e) := f_close v b x fu fc fr in (set_handle s b h None, AErr e)
      | None => (s, ANone)
      end
  end.

Fixpoint srun (v : env) (s : sstate) (cs : list call) : sstate * list ans :=
  match cs with
  | [] => (s, [])
  | c :: cs => let '(s, a) := sstep v s c in let '(s, l) := srun v s cs in (s, a :: l)
  end.

(* Nothing opened yet. *)
Definition sinit (b : backend) : sstate := SState b [].
