(* The locks the calls of vroot/synthfs, vroot-adapter/overlayfs and tarfs take, in order, and
   what they touch in between. Branch outcomes the locks do not depend on (is the handle
   closed, is the name there) are arguments. *)
From Verif Require Import Common.
Open Scope nat_scope.

Inductive mode := Sh | Ex.

(* The mutexes: synthfs fileHandle.mu and dirHandle.mu (handle.go:31, handle_dir.go:23), state.mu
   (tree.go), memHandle.mu and memBuf.mu (view_mem_buf.go:28,121); overlayfs mergedDir.mu,
   trackedFile.once (file.go:86,120), overlayState.mu (state.go:38), handleTracker.mu
   (file.go:29); tarfs openFile.mu, openDir.mu and openFile.readMu (entfile.go:34-36,
   entdir.go:189). Numbers tell apart file systems, handles and buffers. *)
Inductive lock :=
| LHandle (f h : nat)
| LState (f : nat)
| LCursor (m : nat)
| LBuf (b : nat)
| LDir (o d : nat)
| LOnce (o d : nat)
| LOver (o : nat)
| LTrack (o : nat)
| LTar (t : nat)
| LTarRead (t : nat).

(* What is shared: the fields a mutex is declared to guard, or a reader's position that no
   mutex guards. *)
Inductive datum := Of (l : lock) | Bare (m : nat).

Inductive act :=
| Take (m : mode) (l : lock)
| Leave (m : mode) (l : lock)
| Get (d : datum)
| Put (d : datum).

(* mu.Lock(); defer mu.Unlock(); body. *)
Definition within (m : mode) (l : lock) (body : list act) : list act :=
  Take m l :: body ++ [Leave m l].

(* ---- views of synthfs ---- *)

(* memView on buffer b opened as handle m; bytesView opened as m; fsView over the file of
   synthetic file system f whose own view is v, opened as its handle h, through ToIoFs; a
   rangedView opened as m. *)
Inductive view :=
| VMem (m b : nat)
| VBytes (m : nat)
| VFile (f h : nat) (v : view)
| VRange (m : nat) (v : view).

(* memView.Stat, bytesView.Stat, fsView.Stat = Root.Stat, rangedView.Stat (view_mem.go:47-49,
   view_bytes.go:37-39, view_fs.go:59-61,122-133, inspect.go:12-20,50-59). *)
Fixpoint view_stat (v : view) : list act :=
  match v with
  | VMem _ b => within Sh (LBuf b) [Get (Of (LBuf b))]
  | VBytes _ => []
  | VFile f _ v => within Sh (LState f) (Get (Of (LState f)) :: view_stat v)
  | VRange _ v => view_stat v
  end.

(* Stat of an opened handle (view_mem_buf.go:141-143, view_bytes.go:96-98, handle.go:140-150
   below expandedFile, view_fs.go:178-189). *)
Fixpoint h_stat (v : view) : list act :=
  match v with
  | VMem _ b => within Sh (LBuf b) [Get (Of (LBuf b))]
  | VBytes _ => []
  | VFile f _ v => within Sh (LState f) (Get (Of (LState f)) :: view_stat v)
  | VRange _ v => h_stat v
  end.

(* memView.Open, bytesView.Open, fsView.Open = Root.OpenFile of an existing file, rangedView.Open
   (view_mem.go:43-45, view_bytes.go:30-35, view_fs.go:48-57,96-120, open.go:50-104). *)
Fixpoint view_open (v : view) : list act :=
  match v with
  | VMem _ _ => []
  | VBytes _ => []
  | VFile f _ v => within Ex (LState f) (Get (Of (LState f)) :: view_open v ++ [Put (Of (LState f))])
  | VRange _ v => view_open v ++ h_stat v
  end.

(* memView.Close, bytesView.Close, fsView.Close, rangedView.Close (view_fs.go:63-65,135-137). *)
Fixpoint view_close (v : view) : list act :=
  match v with VRange _ v => view_close v | _ => [] end.

(* fileHandle.isClosed (handle.go:60-64). *)
Definition is_closed (f h : nat) : list act := within Ex (LHandle f h) [Get (Of (LHandle f h))].

Section Handles.
Variable closed : nat -> nat -> bool.

(* fileHandle.Close around the Close of the handle inside (handle.go:45-58). *)
Definition fh_close (f h : nat) (inner : list act) : list act :=
  within Ex (LHandle f h)
    (Get (Of (LHandle f h)) ::
     (if closed f h then []
      else Put (Of (LHandle f h)) ::
           within Ex (LState f) [Get (Of (LState f)); Put (Of (LState f))] ++ inner)).

(* A call of fileHandle that asks isClosed, then the handle inside (handle.go:66-138). *)
Definition fh_call (f h : nat) (inner : list act) : list act :=
  is_closed f h ++ (if closed f h then [] else inner).

Fixpoint h_close (v : view) : list act :=
  match v with
  | VMem _ _ => []
  | VBytes _ => []
  | VFile f h v => fh_close f h (h_close v)
  | VRange _ v => h_close v
  end.

(* ReadAt: memHandle, bytes.Reader, fileHandle, io.SectionReader (view_mem_buf.go:179-191,
   view_bytes.go:75-77, handle.go:76-84, view_fs.go:170-172). *)
Fixpoint h_read_at (v : view) : list act :=
  match v with
  | VMem _ b => within Sh (LBuf b) [Get (Of (LBuf b))]
  | VBytes _ => []
  | VFile f h v => fh_call f h (h_read_at v)
  | VRange _ v => h_read_at v
  end.

(* Read: memHandle, bytes.Reader, fileHandle, io.SectionReader (view_mem_buf.go:162-177,
   view_bytes.go:71-73, handle.go:66-74, view_fs.go:166-168). *)
Fixpoint h_read (v : view) : list act :=
  match v with
  | VMem m b => within Ex (LCursor m) (Get (Of (LCursor m)) :: within Sh (LBuf b) [Get (Of (LBuf b))] ++ [Put (Of (LCursor m))])
  | VBytes m => [Get (Bare m); Put (Bare m)]
  | VFile f h v => fh_call f h (h_read v)
  | VRange m v => Get (Bare m) :: h_read_at v ++ [Put (Bare m)]
  end.

(* Seek (view_mem_buf.go:229-254, view_bytes.go:79-94, handle.go:126-131, view_fs.go:174-176). *)
Fixpoint h_seek (from_end : bool) (v : view) : list act :=
  match v with
  | VMem m b => within Ex (LCursor m) (Get (Of (LCursor m)) :: (if from_end then within Sh (LBuf b) [Get (Of (LBuf b))] else []) ++ [Put (Of (LCursor m))])
  | VBytes m => [Get (Bare m); Put (Bare m)]
  | VFile f h v => fh_call f h (h_seek from_end v)
  | VRange m _ => [Get (Bare m); Put (Bare m)]
  end.

(* memBuf.writeAt and truncate (view_mem_buf.go:67-104); the other views refuse to write. *)
Definition buf_write (b : nat) : list act := within Ex (LBuf b) [Get (Of (LBuf b)); Put (Of (LBuf b))].
Definition h_write_at (v : view) : list act := match v with VMem _ b => buf_write b | _ => [] end.

(* memHandle.Write, WriteString (view_mem_buf.go:193-208,225-227): app is O_APPEND. *)
Definition h_write (app empty : bool) (v : view) : list act :=
  match v with
  | VMem m b =>
      within Ex (LCursor m)
        ((if app then within Sh (LBuf b) [Get (Of (LBuf b))] ++ [Put (Of (LCursor m))] else []) ++
         Get (Of (LCursor m)) :: (if empty then [] else buf_write b) ++ [Put (Of (LCursor m))])
  | _ => []
  end.

(* ---- calls ---- *)

Inductive node := NNone | NDir | NFile (v : view).

(* What OpenFile comes upon: nothing it can open, a directory, or a file with view v, made by
   this call or not; trunc says whether it is truncated and whether that works. *)
Inductive opened := OFail | ODir | OFile (fresh : bool) (v : view) (trunc : option bool).

Inductive call :=
(* synthfs Root *)
| SStat (f : nat) (n : node)
| SLook (f : nat)
| SOpen (f : nat) (o : opened)
| SChange (f : nat)
| SDrop (f : nat) (vs : list view)
| SAddFile (f : nat) (v : view) (old : node) (cb : list call) (takes : bool)
| SAddFS (f : nat) (src : list call)
(* synthfs handles *)
| FClose (f h : nat) (v : view)
| FRead (f h : nat) (v : view)
| FReadAt (f h : nat) (v : view)
| FSeek (f h : nat) (v : view) (from_end : bool)
| FWrite (f h : nat) (v : view) (app empty : bool)
| FWriteAt (f h : nat) (v : view)
| FSync (f h : nat)
| FStat (f : nat) (v : view)
| DStat (f : nat)
| DClose (f h : nat)
| DSeek (f h : nat) (to_end : bool)
| DRead (f h : nat) (entries : nat)
(* overlayfs Fs; the lists are the calls it makes on its layers *)
| OLook (o : nat) (ls : list call)
| OOpen (o : nat) (ls : list call)
| OCreate (o : nat) (ls ls' : list call) (opens : bool)
| OChange (o : nat) (guard : bool) (ls : list call)
| OClose (o : nat) (ls : list call)
(* overlayfs handles *)
| TIo (ls : list call)
| TClose (o d : nat) (first : bool) (ls : list call)
| MLook (o d : nat) (ls : list call)
| MClose (o d : nat) (again first : bool) (ls : list call)
| MRead (o d : nat) (loaded : bool) (ls infos : list call)
| MChange (o d : nat) (ls1 ls2 ls3 : list call)
(* tarfs handles *)
| XClose (t : nat)
| XLook (t : nat)
| XRead (t : nat)
| XDir (t : nat).

Definition st_get (f : nat) := Get (Of (LState f)).
Definition st_put (f : nat) := Put (Of (LState f)).
Definition node_stat (n : node) : list act := match n with NFile v => view_stat v | _ => [] end.
Definition node_close (n : node) : list act := match n with NFile v => view_close v | _ => [] end.
Definition track (o : nat) : list act := within Ex (LTrack o) [Get (Of (LTrack o)); Put (Of (LTrack o))].

(* trackedFile.Close after the inner Close: once.Do(release) (overlayfs/file.go:98-103). *)
Definition once_release (o d : nat) (first : bool) : list act :=
  within Ex (LOnce o d) (Get (Of (LOnce o d)) :: if first then track o ++ [Put (Of (LOnce o d))] else []).

(* checkClosed of tarfs (entfile.go:42-49, entdir.go:199-206). *)
Definition tar_check (t : nat) : list act := within Ex (LTar t) [Get (Of (LTar t))].

Fixpoint trace (c : call) : list act :=
  let all := flat_map trace in
  match c with
  (* Stat, Lstat (inspect.go:12-31) *)
  | SStat f n => within Sh (LState f) (st_get f :: node_stat n)
  (* ReadLink, OpenRoot (inspect.go:34-46, root.go:54-70) *)
  | SLook f => within Sh (LState f) [st_get f]
  (* OpenFile, openFileNode (open.go:20-104). The handle is not yet anyone else's, so its own
     mutex is not contended; Close of it takes state.mu again. *)
  | SOpen f o =>
      within Ex (LState f)
        (st_get f ::
         match o with
         | OFail => []
         | ODir => [st_put f]
         | OFile fresh v tr =>
             (if fresh then [st_put f] else []) ++ view_open v ++ [st_put f] ++
             match tr with
             | None => []
             | Some true => h_write_at v
             | Some false => h_write_at v ++ within Ex (LState f) [st_get f; st_put f] ++ h_close v
             end
         end)
  (* Chmod, Chown, Lchown, Chtimes, Mkdir, MkdirAll, Symlink, Link (chmod.go, mkdir.go,
     link.go), Chmod and Chown of handles (handle.go:152-165, handle_dir.go:187-200) *)
  | SChange f => within Ex (LState f) [st_get f; st_put f]
  (* Remove, RemoveAll, Rename, with the views they close (remove.go:10-85, rename.go:11-48) *)
  | SDrop f vs => within Ex (LState f) (st_get f :: flat_map view_close vs ++ [st_put f])
  (* AddFile with its callback (add.go:30-83) *)
  | SAddFile f v old cb takes =>
      view_stat v ++
      within Ex (LState f)
        (st_get f :: st_put f :: node_stat old ++ all cb ++
         if takes then node_close old ++ [st_put f] else [])
  (* AddFS: src are the calls on the walked file system and of the callback (add.go:95-282) *)
  | SAddFS f src => within Ex (LState f) (st_get f :: all src ++ [st_put f])
  | FClose f h v => fh_close f h (h_close v)
  | FRead f h v => fh_call f h (h_read v)
  | FReadAt f h v => fh_call f h (h_read_at v)
  | FSeek f h v e => fh_call f h (h_seek e v)
  | FWrite f h v app empty => fh_call f h (h_write app empty v)
  (* WriteAt, Truncate (handle.go:96-124) *)
  | FWriteAt f h v => fh_call f h (h_write_at v)
  (* Sync (handle.go:133-138): no handle inside does anything *)
  | FSync f h => fh_call f h []
  (* Stat (handle.go:140-150) *)
  | FStat f v => within Sh (LState f) (st_get f :: view_stat v)
  (* dirHandle.Stat (handle_dir.go:49-53) *)
  | DStat f => within Sh (LState f) [st_get f]
  (* dirHandle.Close (handle_dir.go:34-47) *)
  | DClose f h => fh_close f h []
  (* dirHandle.Seek (handle_dir.go:81-117) *)
  | DSeek f h to_end =>
      within Ex (LHandle f h)
        ((if to_end then within Sh (LState f) [st_get f] else []) ++ [Put (Of (LHandle f h))])
  (* ReadDir, Readdir, Readdirnames over readEntries (handle_dir.go:122-185): the nodes are
     looked into after state.mu is released *)
  | DRead f h k =>
      within Ex (LHandle f h)
        (Get (Of (LHandle f h)) ::
         (if closed f h then []
          else within Sh (LState f) [st_get f; Get (Of (LHandle f h)); Put (Of (LHandle f h))] ++
               repeat (st_get f) k))
  (* Stat, Lstat, ReadLink, OpenRoot (fs.go:149-188,238-253) *)
  | OLook o ls => within Sh (LOver o) (Get (Of (LOver o)) :: all ls)
  (* OpenFile for reading (fs.go:201-230,258-262) *)
  | OOpen o ls => within Sh (LOver o) (Get (Of (LOver o)) :: all ls ++ track o)
  (* openWrite (open.go:21-75) *)
  | OCreate o ls ls' opens =>
      within Ex (LOver o)
        (Get (Of (LOver o)) :: all ls ++ Put (Of (LOver o)) :: all ls' ++ if opens then track o else [])
  (* Remove, RemoveAll with the open-handle guard; Rename, Link, Symlink, Mkdir, MkdirAll, Chmod, Chown,
     Lchown, Chtimes (remove.go, rename.go, link.go, mkdir.go, chmod.go, write.go:103-117) *)
  | OChange o guard ls =>
      within Ex (LOver o)
        (Get (Of (LOver o)) ::
         (if guard then within Ex (LTrack o) [Get (Of (LTrack o))] else []) ++ all ls ++ [Put (Of (LOver o))])
  (* Close (fs.go:134-146) *)
  | OClose o ls => within Ex (LOver o) (Get (Of (LOver o)) :: all ls)
  (* trackedFile: everything but Close and Name is the wrapped handle's (file.go:79-103) *)
  | TIo ls => all ls
  | TClose o d first ls => all ls ++ once_release o d first
  (* mergedDir.Fd, Stat (file.go:133-144) *)
  | MLook o d ls => within Ex (LDir o d) (Get (Of (LDir o d)) :: all ls)
  (* mergedDir.Close below trackedFile.Close (file.go:98-103,150-159) *)
  | MClose o d again first ls =>
      within Ex (LDir o d) (Get (Of (LDir o d)) :: if again then [] else Put (Of (LDir o d)) :: all ls) ++
      once_release o d first
  (* mergedDir.ReadDir, Readdir, Readdirnames, Seek over load and readEntries (file.go:168-288) *)
  | MRead o d loaded ls infos =>
      within Ex (LDir o d)
        (Get (Of (LDir o d)) ::
         (if loaded then [] else within Sh (LOver o) (Get (Of (LOver o)) :: all ls ++ [Put (Of (LDir o d))])) ++
         Put (Of (LDir o d)) :: all infos)
  (* mergedDir.mutate: mutateResolved, then openTopDir (file.go:335-356, write.go:119-144) *)
  | MChange o d ls1 ls2 ls3 =>
      within Ex (LDir o d)
        (Get (Of (LDir o d)) ::
         within Ex (LOver o) (Get (Of (LOver o)) :: all ls1 ++ [Put (Of (LOver o))]) ++
         within Sh (LOver o) (Get (Of (LOver o)) :: all ls2) ++ all ls3 ++ [Put (Of (LDir o d))])
  (* openFile.Close, openDir.Close (entfile.go:100-106, entdir.go:270-276) *)
  | XClose t => within Ex (LTar t) [Put (Of (LTar t))]
  (* Stat, ReadAt of tarfs (entfile.go:55-60,76-85, entdir.go:212-231) *)
  | XLook t => tar_check t
  (* openFile.Read, Seek (entfile.go:62-74,87-98) *)
  | XRead t => tar_check t ++ within Ex (LTarRead t) [Get (Of (LTarRead t)); Put (Of (LTarRead t))]
  (* openDir.ReadDir, Seek (entdir.go:233-306) *)
  | XDir t => within Ex (LTar t) [Get (Of (LTar t)); Put (Of (LTar t))]
  end.

End Handles.

(* What one goroutine does: its calls, one after another, each with the handles it finds
   closed. *)
Definition program (cs : list ((nat -> nat -> bool) * call)) : list act :=
  flat_map (fun c => trace (fst c) (snd c)) cs.
