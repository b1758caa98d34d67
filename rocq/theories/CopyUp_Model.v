(* Model of the copy-up of overlayfs, call by call (vroot-adapter/overlayfs: copyup.go,
   datasource.go, fs.go New): the top's own fs with its staging and its content tree. Every
   call takes an answer of the backend; when the answers run out the process has died. Paths
   are component lists, innermost first; the names are resolved, so no component above one is
   a symlink. *)
From Verif Require Import Common ContentRange_Model TempName_Model.
From Verif Require Export Overlay_Model.
Open Scope nat_scope.

(* What a name of the top's fs holds: permission bits, modification time, bytes. *)
Inductive item :=
  | IDir (mode : N) (mtime : Z)
  | IFile (mode : N) (mtime : Z) (data : list byte)
  | ILink (target : name)
  | ISpecial (mode : N).
Definition files := list (path * item).
Fixpoint get (f : files) (p : path) : option item :=
  match f with [] => None | (q, x) :: r => if path_eqb p q then Some x else get r p end.
Definition put (f : files) (p : path) (x : item) : files := (p, x) :: filter (fun e => negb (path_eqb p (fst e))) f.
Definition del (f : files) (p : path) : files := filter (fun e => negb (path_eqb p (fst e))) f.
Definition del_all (f : files) (p : path) : files := filter (fun e => negb (within p (fst e))) f.
Definition a_dir (f : files) (p : path) : bool :=
  match p with [] => true | _ => match get f p with Some (IDir _ _) => true | _ => false end end.
Definition entries (f : files) (p : path) : list name :=
  flat_map (fun e => match fst e with c :: q => if path_eqb p q then [c] else [] | [] => [] end) f.

(* [k_next] is the policy's counter; [k_loose] the files whose bytes no Sync has followed. *)
Record world := { k_fs : files; k_next : N; k_loose : list path }.
Definition set_fs (f : files) (w : world) : world := {| k_fs := f; k_next := k_next w; k_loose := k_loose w |}.

(* The backend's answer to one call: it does what was asked ([k] bytes at most, where bytes
   are moved), it refuses and changes nothing, or it does it and reports an error. *)
Inductive answer := Done (k : nat) | Refused | Late (k : nat).
Inductive res (A : Type) := Val (a : A) | Err | Died.
Arguments Val {A} a. Arguments Err {A}. Arguments Died {A}.
Definition M (A : Type) := world -> list answer -> world * list answer * res A.

Definition ret {A} (a : A) : M A := fun w s => (w, s, Val a).
Definition fail {A} : M A := fun w s => (w, s, Err).
Definition bind {A B} (m : M A) (k : A -> M B) : M B := fun w s =>
  match m w s with
  | (w', s', Val a) => k a w' s'
  | (w', s', Err) => (w', s', Err)
  | (w', s', Died) => (w', s', Died)
  end.
Notation "x <- m ;; k" := (bind m (fun x => k)) (at level 61, m at next level, right associativity).
Notation "m ;;; k" := (bind m (fun _ => k)) (at level 61, right associativity).
(* An error that is dropped. *)
Definition ignore (m : M unit) : M unit := fun w s =>
  match m w s with (w', s', Err) => (w', s', Val tt) | r => r end.
(* m, and when it fails c, whose own error is dropped; a deferred clean-up. *)
Definition or_clean {A} (m : M A) (c : M unit) : M A := fun w s =>
  match m w s with
  | (w', s', Err) => match c w' s' with (w2, s2, Died) => (w2, s2, Died) | (w2, s2, _) => (w2, s2, Err) end
  | r => r
  end.
(* One call: [op] is what it does when it can be done. *)
Definition call (op : world -> option world) : M unit := fun w s =>
  match s with
  | [] => (w, [], Died)
  | Refused :: s' => (w, s', Err)
  | Done _ :: s' => match op w with Some w' => (w', s', Val tt) | None => (w, s', Err) end
  | Late _ :: s' => match op w with Some w' => (w', s', Err) | None => (w, s', Err) end
  end.
(* A call that reads. *)
Definition ask {A} (v : world -> A) : M A := fun w s =>
  match s with [] => (w, [], Died) | Done _ :: s' => (w, s', Val (v w)) | _ :: s' => (w, s', Err) end.
Definition is_ok (m : M unit) : M bool := fun w s =>
  match m w s with
  | (w', s', Val _) => (w', s', Val true)
  | (w', s', Err) => (w', s', Val false)
  | (w', s', Died) => (w', s', Died)
  end.

(* The layer the copy-up reads: Lstat and, through symlinks, Stat's mode and time. *)
Record source := { s_lstat : path -> option item; s_stat : path -> option (N * Z) }.

Section CopyUp.
(* The process umask, the time of the writes, and where the names "work" and "merged" lead. *)
Variable umask : N.
Variable now : Z.
Variable stage content : path.

(* ContentPath, StagingPath (datasource.go:134-155). *)
Definition content_path (p : path) : path := p ++ content.
Definition s_tmp : name := [116; 109; 112; 45]%N.
Definition staging_path (n : N) : path := (s_tmp ++ fmt_uint n) :: stage.

(* The calls on the top's fs. *)
Definition made (m : N) : N := N.ldiff m umask.
Definition f_mkdir (p : path) (m : N) (w : world) : option world :=
  match get (k_fs w) p with
  | Some _ => None
  | None => if a_dir (k_fs w) (tl p) then Some (set_fs (put (k_fs w) p (IDir (made m) now)) w) else None
  end.
Definition f_symlink (t : name) (p : path) (w : world) : option world :=
  match get (k_fs w) p with
  | Some _ => None
  | None => if a_dir (k_fs w) (tl p) then Some (set_fs (put (k_fs w) p (ILink t)) w) else None
  end.
(* OpenFile with O_RDWR, O_CREATE and O_EXCL. *)
Definition f_create (p : path) (m : N) (w : world) : option world :=
  match get (k_fs w) p with
  | Some _ => None
  | None =>
      if a_dir (k_fs w) (tl p) then
        Some {| k_fs := put (k_fs w) p (IFile (made m) now []); k_next := k_next w; k_loose := p :: k_loose w |}
      else None
  end.
(* Bytes written at an offset of an open file. *)
Definition splice (old : list byte) (pos : nat) (bs : list byte) : list byte :=
  firstn pos old ++ bs ++ skipn (pos + length bs) old.
Definition f_write (p : path) (pos : nat) (bs : list byte) (w : world) : world :=
  match get (k_fs w) p with
  | Some (IFile m _ old) => set_fs (put (k_fs w) p (IFile m now (splice old pos bs))) w
  | _ => w
  end.
Definition f_chmod (p : path) (m : N) (w : world) : option world :=
  match get (k_fs w) p with
  | Some (IDir _ t) => Some (set_fs (put (k_fs w) p (IDir m t)) w)
  | Some (IFile _ t d) => Some (set_fs (put (k_fs w) p (IFile m t d)) w)
  | _ => None
  end.
Definition f_chtimes (p : path) (t : Z) (w : world) : option world :=
  match get (k_fs w) p with
  | Some (IDir m _) => Some (set_fs (put (k_fs w) p (IDir m t)) w)
  | Some (IFile m _ d) => Some (set_fs (put (k_fs w) p (IFile m t d)) w)
  | _ => None
  end.
(* Rename of a file, over nothing or over another file. *)
Definition renamed (o n p : path) : path := if path_eqb o p then n else p.
Definition f_rename (o n : path) (w : world) : option world :=
  match get (k_fs w) o, get (k_fs w) n with
  | Some (IFile m t d), Some (IDir _ _) => None
  | Some (IFile m t d), _ =>
      if a_dir (k_fs w) (tl n) then
        Some {| k_fs := put (del (k_fs w) o) n (IFile m t d); k_next := k_next w; k_loose := map (renamed o n) (k_loose w) |}
      else None
  | _, _ => None
  end.
Definition f_remove (p : path) (w : world) : option world :=
  match get (k_fs w) p with
  | Some (IFile _ _ _) => Some (set_fs (del (k_fs w) p) w)
  | _ => None
  end.
Definition nothing (w : world) : option world := Some w.

(* copyAttrs (copyup.go:217-220). *)
Definition copy_attrs (p : path) (m : N) (t : Z) : M unit :=
  ignore (call (f_chmod p (perm m))) ;;; ignore (call (f_chtimes p t)).

(* reflinkFile (reflink_linux.go:23-29): the whole content at once, or some of it and no. *)
Definition reflink (p : path) (d : list byte) : M bool := fun w s =>
  match s with
  | [] => (w, [], Died)
  | Done _ :: s' => (f_write p 0 d w, s', Val true)
  | Refused :: s' => (w, s', Val false)
  | Late k :: s' => (f_write p 0 (firstn k d) w, s', Val false)
  end.
(* copyData, io.CopyBuffer (copyup.go:238-243): reads and writes until a read finds the end. *)
Fixpoint copy_data (p : path) (d : list byte) (pos : nat) (w : world) (s : list answer) : world * list answer * res unit :=
  match s with
  | [] => (w, [], Died)
  | Refused :: s' => (w, s', Err)
  | Late k :: s' => (f_write p pos (firstn k (skipn pos d)) w, s', Err)
  | Done k :: s' =>
      if length d <=? pos then (w, s', Val tt)
      else
        let bs := firstn (S k) (skipn pos d) in
        copy_data p d (pos + length bs) (f_write p pos bs w) s'
  end.
Definition count : M N := fun w s =>
  let n := ((k_next w + 1) mod 18446744073709551616)%N in
  ({| k_fs := k_fs w; k_next := n; k_loose := k_loose w |}, s, Val n).

(* copyRegular (copyup.go:122-163). *)
Definition copy_regular (p : path) (m : N) (t : Z) (d : list byte) : M unit :=
  call nothing ;;;
  n <- count ;;
  call (f_create (staging_path n) (perm m)) ;;;
  or_clean
    (whole <- reflink (staging_path n) d ;;
     (if whole then ret tt else or_clean (copy_data (staging_path n) d 0) (call nothing)) ;;;
     call nothing ;;;
     copy_attrs (staging_path n) m t ;;;
     call (f_rename (staging_path n) (content_path p)))
    (call (f_remove (staging_path n))).

(* materializeParents (copyup.go:172-206). *)
Fixpoint materialize_parents (src : source) (p : path) : M unit :=
  match p with
  | [] => ret tt
  | _ :: q =>
      materialize_parents src q ;;;
      here <- ask (fun w => get (k_fs w) (content_path p)) ;;
      match here with
      | Some _ => ret tt
      | None =>
          described <- is_ok (call (fun w => match s_stat src p with Some _ => Some w | None => None end)) ;;
          match described, s_stat src p with
          | true, Some (m, t) => call (f_mkdir (content_path p) (perm m)) ;;; copy_attrs (content_path p) m t
          | _, _ => call (f_mkdir (content_path p) 511%N)
          end
      end
  end.

(* CopyUp (copyup.go:77-118). *)
Definition copy_up (src : source) (p : path) : M unit :=
  match p with
  | [] => fail
  | _ =>
      x <- ask (fun _ => s_lstat src p) ;;
      match x with
      | None => fail
      | Some (ISpecial _) => fail
      | Some (IDir m t) =>
          materialize_parents src (tl p) ;;; call (f_mkdir (content_path p) (perm m)) ;;; copy_attrs (content_path p) m t
      | Some (ILink tgt) =>
          materialize_parents src (tl p) ;;; call nothing ;;; call (f_symlink tgt (content_path p))
      | Some (IFile m t d) => materialize_parents src (tl p) ;;; copy_regular p m t d
      end
  end.

(* sweepWork (datasource.go:179-196). *)
Definition f_remove_all (p : path) (w : world) : option world := Some (set_fs (del_all (k_fs w) p) w).
Fixpoint sweep_each (ns : list name) : M unit :=
  match ns with [] => ret tt | n :: r => call (f_remove_all (n :: stage)) ;;; sweep_each r end.
Definition sweep_work : M unit := ns <- ask (fun w => entries (k_fs w) stage) ;; sweep_each ns.

(* The gate every write passes (write.go:48-72): what the top holds is left alone. *)
Definition held (p : path) (w : world) : bool :=
  match p with [] => true | _ => match get (k_fs w) (content_path p) with Some _ => true | None => false end end.
(* The copy-ups of one overlay, each ended before the next begins; between them the
   overlay's other operations. *)
Inductive act := Copy (src : source) (p : path) (s : list answer) | Other (g : files -> files).
Fixpoint acts (w : world) (l : list act) : world :=
  match l with
  | [] => w
  | Copy src p s :: r =>
      if held p w then acts w r
      else match copy_up src p w s with (w', _, Died) => w' | (w', _, _) => acts w' r end
  | Other g :: r => acts (set_fs (g (k_fs w)) w) r
  end.
End CopyUp.

(* ensureCanonical (datasource.go:201-219) on the root of a fs, with what Stat makes of a
   symlink there, and New (fs.go:90-118) with a policy of its own. *)
Definition s_merged : name := [109; 101; 114; 103; 101; 100]%N.
Definition s_work : name := [119; 111; 114; 107]%N.
Definition leads (f : files) (n : name) : option path :=
  match get f [n] with
  | Some (IDir _ _) => Some [n]
  | Some (ILink t) => match get f [t] with Some (IDir _ _) => Some [t] | _ => None end
  | _ => None
  end.
Definition ensure_dir (umask : N) (now : Z) (n : name) : M unit :=
  there <- ask (fun w => leads (k_fs w) n) ;;
  match there with Some _ => ret tt | None => call (f_mkdir umask now [n] 511%N) end.
Definition ensure_canonical (umask : N) (now : Z) : M unit :=
  ensure_dir umask now s_merged ;;; ensure_dir umask now s_work.
Definition start : M unit := fun w s => ({| k_fs := k_fs w; k_next := 0; k_loose := k_loose w |}, s, Val tt).
Definition new (umask : N) (now : Z) : M unit :=
  ensure_canonical umask now ;;; start ;;;
  fun w s => match leads (k_fs w) s_work with Some d => sweep_work d w s | None => ret tt w s end.

(* What the loss of power may leave of a file no Sync has followed: a beginning of it. *)
Definition cut_item (n : nat) (x : item) : item := match x with IFile m t d => IFile m t (firstn n d) | x => x end.
Definition power_loss (n : nat) (w : world) : files :=
  map (fun e => (fst e, if memp (fst e) (k_loose w) then cut_item n (snd e) else snd e)) (k_fs w).
