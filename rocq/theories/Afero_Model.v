(* Model of the synthetic file system of aferofs/synth (fs.go, fs_link.go, dir.go, dirent.go,
   file.go, fd.go, impl_inmem.go): a tree of directories whose files are views. *)
From Verif Require Import Common ContentRange_Model PathLex_Model.
From Verif Require IoBridge_Model.
Open Scope nat_scope.

Notation name := (list byte) (only parsing).

(* fs.FileMode: ModeDir, ModeType, ModePerm. *)
Definition m_dir : N := 2147483648%N.
Definition m_type : N := 2401763328%N.
Definition m_perm : N := 511%N.
Definition perm_of (m : N) : N := N.land m m_perm.

(* A dirent (dirent.go:11-18): a file (virtualFileData: its mode, its view) or a directory
   with its entries in insertion order (dir.go:10-22). [direntMap] refers to the same entries
   by name. *)
Inductive node := File (mode : N) (view : nat) | Dir (mode : N) (ents : list (name * node)).

Fixpoint assoc (l : list (name * node)) (c : name) : option node :=
  match l with [] => None | (k, x) :: r => if bytes_eqb k c then Some x else assoc r c end.
Fixpoint drop_name (l : list (name * node)) (c : name) : list (name * node) :=
  match l with [] => [] | (k, x) :: r => if bytes_eqb k c then r else (k, x) :: drop_name r c end.
Fixpoint replace_at (l : list (name * node)) (c : name) (y : node) : list (name * node) :=
  match l with [] => [] | (k, x) :: r => if bytes_eqb k c then (k, y) :: r else (k, x) :: replace_at r c y end.

(* dir.lookup (dir.go:37-45). *)
Definition child (d : node) (c : name) : option node := match d with Dir _ es => assoc es c | File _ _ => None end.
(* dir.AddDirent (:114-124) and dir.RemoveName (:126-135). *)
Definition add_child (c : name) (x : node) (d : node) : node :=
  match d with Dir m es => Dir m (drop_name es c ++ [(c, x)]) | File _ _ => d end.
Definition remove_child (c : name) (d : node) : node :=
  match d with Dir m es => Dir m (drop_name es c) | File _ _ => d end.
(* A change of the object at a path. *)
Fixpoint update (d : node) (p : list name) (f : node -> node) : node :=
  match p with
  | [] => f d
  | c :: r =>
      match d with
      | Dir m es => match assoc es c with Some x => Dir m (replace_at es c (update x r f)) | None => d end
      | File _ _ => d
      end
  end.

Definition mode_of (d : node) : N := match d with File m _ => m | Dir m _ => m end.
Definition is_dir (d : node) : bool := match d with Dir _ _ => true | File _ _ => false end.
Definition count (d : node) : nat := match d with Dir _ es => length es | File _ _ => 0 end.
(* hasPerm (dirent.go:103-113). *)
Definition has_perm (d : node) (k : N) : bool := N.eqb (N.land (N.shiftr (perm_of (mode_of d)) 6) k) k.

Inductive aerr :=
  | EInval | ENameTooLong | ENoEnt | ENotDir | EAcces | EExist | EPerm | EIsDir | ERofs | ENotEmpty | EBusy
  | EBadf | EClosedWith | EView.

(* A FileView as far as the tree uses it: what its Stat says at first (None: it has no file
   yet, so the mode stays 0), whether it only reads, its bytes, whether Close fails. *)
Record view := { v_mode : option N; v_ro : bool; v_data : list byte; v_close_fails : bool }.

(* The file system: umask, whether there is an allocator (of in-memory files), the root, the
   views it was given or allocated, and a log of the Close calls made on them. *)
Record afs := { a_umask : N; a_alloc : bool; a_root : node; a_views : list view; a_closed : list nat }.

Definition set_root (s : afs) (r : node) : afs :=
  {| a_umask := a_umask s; a_alloc := a_alloc s; a_root := r; a_views := a_views s; a_closed := a_closed s |}.
Definition add_view (s : afs) (v : view) : afs :=
  {| a_umask := a_umask s; a_alloc := a_alloc s; a_root := a_root s; a_views := a_views s ++ [v]; a_closed := a_closed s |}.
Definition log_close (s : afs) (l : list nat) : afs :=
  {| a_umask := a_umask s; a_alloc := a_alloc s; a_root := a_root s; a_views := a_views s; a_closed := a_closed s ++ l |}.

(* newFsys (fs.go:41-52). *)
Definition new_fs (umask : N) (alloc : bool) : afs :=
  {| a_umask := perm_of umask; a_alloc := alloc; a_root := Dir (N.lor m_dir m_perm) []; a_views := []; a_closed := [] |}.
(* newDirData's mode (dir.go:26) after maskPerm (fs.go:62-64). *)
Definition dir_mode (s : afs) (perm : N) : N := N.lor m_dir (N.ldiff (perm_of perm) (a_umask s)).

(* validatePath (fs.go:86-97). *)
Definition validate (p : name) : option aerr :=
  if negb (IoBridge_Model.fs_valid_path p) then Some EInval
  else if 255 <? length (base p) then Some ENameTooLong
  else None.
Definition comps (p : name) : list name := if is_dot p then [] else split_sep p.

(* IsSearchableDir (dirent.go:36-47). *)
Definition searchable (d : option node) : option aerr :=
  match d with
  | None => Some ENoEnt
  | Some d => if negb (is_dir d) then Some ENotDir else if negb (has_perm d 1) then Some EAcces else None
  end.
(* The loop of findParent (fs.go:121-132). *)
Fixpoint descend (d : node) (ps : list name) : aerr + node :=
  match ps with
  | [] => inr d
  | c :: r =>
      match searchable (child d c) with
      | Some e => inl e
      | None => match child d c with Some x => descend x r | None => inl ENoEnt end
      end
  end.
(* findParent (fs.go:99-133): the parent's path and the parent. *)
Definition find_parent (s : afs) (p : name) : aerr + (list name * node) :=
  match validate p with
  | Some e => inl e
  | None =>
      if is_dot p then inr ([], a_root s)
      else
        match searchable (Some (a_root s)) with
        | Some e => inl e
        | None =>
            match descend (a_root s) (removelast (comps p)) with
            | inl e => inl e
            | inr d => inr (removelast (comps p), d)
            end
        end
  end.
(* find (fs.go:135-149). *)
Definition find (s : afs) (p : name) : aerr + node :=
  match find_parent s p with
  | inl e => inl e
  | inr (_, d) =>
      if is_dot (base p) then inr d
      else match child d (base p) with Some x => inr x | None => inl ENoEnt end
  end.
(* findWritableDir (fs.go:151-163). *)
Definition find_writable_dir (s : afs) (p : name) : aerr + node :=
  match find s p with
  | inl e => inl e
  | inr d => if negb (is_dir d) then inl ENotDir else if negb (has_perm d 2) then inl EAcces else inr d
  end.

(* Chmod (fs.go:185-193; dir.go:93-97, file.go:141-145). *)
Definition set_mode (m : N) (d : node) : node :=
  let m := N.land m (N.lor m_type m_perm) in
  match d with File _ v => File m v | Dir _ es => Dir m es end.
Definition chmod (s : afs) (p : name) (m : N) : afs * option aerr :=
  match find s p with
  | inl e => (s, Some e)
  | inr _ => (set_root s (update (a_root s) (comps p) (set_mode m)), None)
  end.

(* Stat's mode (fs.go:564-570): a directory always says it is one (dir.go:82-91). *)
Definition stat_mode (d : node) : N := match d with Dir m _ => N.lor m_dir (perm_of m) | File m _ => m end.
Definition stat (s : afs) (p : name) : aerr + N :=
  match find s p with inl e => inl e | inr d => inr (stat_mode d) end.

(* mkdir (fs.go:226-254). *)
Definition mkdir (s : afs) (p : name) (perm : N) : afs * option aerr :=
  match find_writable_dir s (dir p) with
  | inl e => (s, Some e)
  | inr d =>
      if is_dot (base p) then (s, Some EExist)
      else match child d (base p) with
           | Some _ => (s, Some EExist)
           | None =>
               if negb (has_perm d 1) then (s, Some EAcces)
               else if negb (has_perm d 2) then (s, Some EPerm)
               else (set_root s (update (a_root s) (comps (dir p)) (add_child (base p) (Dir (dir_mode s perm) []))), None)
           end
  end.

(* mkdirAll's loop (fs.go:283-311); [m] is the mode of the directories it makes. *)
Fixpoint mk_all (m : N) (d : node) (cs : list name) : node * option aerr :=
  match cs with
  | [] => (d, None)
  | c :: r =>
      let x := match child d c with Some x => x | None => Dir m [] end in
      let d1 := match child d c with Some _ => d | None => add_child c x d end in
      match searchable (Some x) with
      | Some e => (d1, Some e)
      | None => let (x', e) := mk_all m x r in (update d1 [c] (fun _ => x'), e)
      end
  end.
(* mkdirAll (fs.go:261-314). *)
Definition mkdir_all (s : afs) (p : name) (perm : N) : afs * option aerr :=
  match validate p with
  | Some e => (s, Some e)
  | None =>
      if is_dot p then (s, None)
      else
        match searchable (Some (a_root s)) with
        | Some e => (s, Some e)
        | None => let (r, e) := mk_all (dir_mode s perm) (a_root s) (comps p) in (set_root s r, e)
        end
  end.

(* OpenFile's flags; the access mode 3 is left out. *)
Inductive access := RdOnly | WrOnly | RdWr.
Record oreq := { o_acc : access; o_create : bool; o_excl : bool; o_trunc : bool; o_append : bool }.
(* flagPerm, flagWritable (flag.go). *)
Definition flag_perm (a : access) : N := match a with RdWr => 6%N | WrOnly => 2%N | RdOnly => 4%N end.
Definition flag_writable (a : access) : bool := match a with RdOnly => false | _ => true end.
(* Open of a view: memFileData.Open (impl_inmem.go:43-45), fsFileView.Open (impl_fslink.go:50-59). *)
Definition view_opens (v : view) (q : oreq) : option aerr :=
  if v_ro v && (flag_writable (o_acc q) || o_append q || o_create q || o_trunc q) then Some ERofs else None.
(* Truncate(0) of a view. *)
Definition cut_view (v : view) : view := {| v_mode := v_mode v; v_ro := v_ro v; v_data := []; v_close_fails := v_close_fails v |}.
Fixpoint put_nth {A} (l : list A) (i : nat) (x : A) : list A :=
  match l, i with [], _ => [] | _ :: r, O => x :: r | y :: r, S i => y :: put_nth r i x end.
Definition set_views (s : afs) (vs : list view) : afs :=
  {| a_umask := a_umask s; a_alloc := a_alloc s; a_root := a_root s; a_views := vs; a_closed := a_closed s |}.
Inductive opened := ODir | OFile (v : nat).
(* newOpenHandle (fd.go:12-24). *)
Definition open_handle (s : afs) (q : oreq) (d : node) : aerr + opened :=
  match d with
  | Dir _ _ => inr ODir
  | File _ i =>
      match nth_error (a_views s) i with
      | None => inl EView
      | Some v => match view_opens v q with Some e => inl e | None => inr (OFile i) end
      end
  end.
(* MemFileAllocator.Allocate (impl_inmem.go:24-29) and newFileDirent (dirent.go:27-33). *)
Definition mem_view (perm : N) : view := {| v_mode := Some (perm_of perm); v_ro := false; v_data := []; v_close_fails := false |}.
Definition file_node (v : view) (i : nat) : node := File (match v_mode v with Some m => m | None => 0%N end) i.

(* openFile (fs.go:328-392). *)
Definition open_file (s : afs) (p : name) (q : oreq) (perm : N) : afs * (aerr + opened) :=
  match find_parent s p with
  | inl e => (s, inl e)
  | inr (pp, d) =>
      if is_dot (base p) then (s, open_handle s q (a_root s))
      else
        match child d (base p) with
        | Some x =>
            if o_excl q then (s, inl EExist)
            else if negb (has_perm x (flag_perm (o_acc q))) then (s, inl EAcces)
            else if is_dir x && (flag_writable (o_acc q) || o_trunc q) then (s, inl EIsDir)
            else if o_trunc q then
              match x with
              | Dir _ _ => (s, inl EIsDir)
              | File _ i =>
                  match nth_error (a_views s) i with
                  | None => (s, inl EView)
                  | Some v =>
                      if v_ro v then (s, inl ERofs)
                      else let s1 := set_views s (put_nth (a_views s) i (cut_view v)) in (s1, open_handle s1 q x)
                  end
              end
            else (s, open_handle s q x)
        | None =>
            if negb (o_create q) then (s, inl ENoEnt)
            else if negb (has_perm d 3) then (s, inl EAcces)
            else if negb (a_alloc s) then (s, inl ERofs)
            else
              let v := mem_view perm in
              let i := length (a_views s) in
              let s1 := add_view s v in
              (set_root s1 (update (a_root s1) pp (add_child (base p) (file_node v i))), inr (OFile i))
        end
  end.

(* notifyClose (dirent.go:186-193, dir.go:47-53): the Close calls, and whether it is an error
   to the caller, which for a directory it never is. *)
Fixpoint closes (d : node) : list nat :=
  match d with File _ i => [i] | Dir _ es => flat_map (fun e => closes (snd e)) es end.
Definition close_fails (s : afs) (d : node) : bool :=
  match d with
  | File _ i => match nth_error (a_views s) i with Some v => v_close_fails v | None => false end
  | Dir _ _ => false
  end.

(* removeFromParent (fs.go:406-428), on the parent [d] at [pp]. *)
Definition remove_from (s : afs) (pp : list name) (d : node) (c : name) : afs * option aerr :=
  if is_dot c then (s, Some EPerm)
  else if negb (has_perm d 3) then (s, Some EAcces)
  else
    match child d c with
    | None => (s, Some ENoEnt)
    | Some x =>
        if is_dir x && (0 <? count x) then (s, Some ENotEmpty)
        else
          (log_close (set_root s (update (a_root s) pp (remove_child c))) (closes x),
           if close_fails s x then Some EClosedWith else None)
    end.
(* Remove (fs.go:394-404). *)
Definition remove (s : afs) (p : name) : afs * option aerr :=
  match find_parent s p with
  | inl e => (s, Some e)
  | inr (pp, d) => remove_from s pp d (base p)
  end.

(* removeAllFrom on a directory that has entries (fs.go:459-475): every entry in turn, and a
   directory among them stays when it had entries. The entries left, the views closed. *)
Fixpoint purge (d : node) : node * list nat * option aerr :=
  match d with
  | File _ _ => (d, [], None)
  | Dir m es =>
      if negb (has_perm d 3) then (d, [], Some EAcces)
      else
        let '(es', cl, e) :=
          (fix each (es : list (name * node)) : list (name * node) * list nat * option aerr :=
             match es with
             | [] => ([], [], None)
             | (c, x) :: r =>
                 if is_dir x && (0 <? count x) then
                   let '(x', cl, e) := purge x in
                   match e with
                   | Some e => ((c, x') :: r, cl, Some e)
                   | None => let '(r', cl', e') := each r in ((c, x') :: r', cl ++ cl', e')
                   end
                 else let '(r', cl', e') := each r in (r', closes x ++ cl', e')
             end) es in
        (Dir m es', cl, e)
  end.
(* removeAll (fs.go:435-462). *)
Definition remove_all (s : afs) (p : name) : afs * option aerr :=
  match validate p with
  | Some e => (s, Some e)
  | None =>
      if is_dot p then (s, Some EAcces)
      else
        match remove s p with
        | (s1, None) | (s1, Some ENoEnt) => (s1, None)
        | (s1, Some _) =>
            match find_parent s1 p with
            | inl e => (s1, Some e)
            | inr (pp, d) =>
                match remove_from s1 pp d (base p) with
                | (s2, None) | (s2, Some ENoEnt) | (s2, Some EClosedWith) => (s2, None)
                | (s2, Some ENotEmpty) =>
                    match child d (base p) with
                    | None => (s2, None)
                    | Some x =>
                        let '(x', cl, e) := purge x in
                        (log_close (set_root s2 (update (a_root s2) (pp ++ [base p]) (fun _ => x'))) cl, e)
                    end
                | (s2, e) => (s2, e)
                end
            end
        end
  end.

(* strings.HasPrefix(newname+"/", oldname+"/"). *)
Definition inside (o n : name) : bool := bytes_eqb (firstn (S (length o)) (n ++ [sep])) (o ++ [sep]).
(* findDirent within rename (fs.go:510-526); the target is None where there is none. *)
Definition find_dirent (s : afs) (p : name) : aerr + (list name * node * option node) :=
  match find_parent s p with
  | inl e => inl e
  | inr (pp, d) => if negb (has_perm d 2) then inl EAcces else inr (pp, d, child d (base p))
  end.
(* What stands at the new name is in the way (fs.go:542-552). *)
Definition bad_target (x : node) (y : option node) : option aerr :=
  match y with
  | None => None
  | Some y =>
      if negb (is_dir x) && is_dir y then Some EIsDir
      else if is_dir x && negb (is_dir y) then Some ENotDir
      else if is_dir x && is_dir y && (0 <? count y) then Some ENotEmpty
      else None
  end.
(* rename (fs.go:482-562). A dirent keeps its name (dirent.go:10-13), AddDirent goes by it and
   never says that it replaced something (dir.go:123). *)
Definition rename (s : afs) (o n : name) : afs * option aerr :=
  match validate o, validate n with
  | Some e, _ => (s, Some e)
  | _, Some e => (s, Some e)
  | None, None =>
      if bytes_eqb o n then (s, None)
      else if is_dot o || is_dot n then (s, Some EBusy)
      else if inside o n then (s, Some EInval)
      else
        match find_dirent s o with
        | inl e => (s, Some e)
        | inr (_, _, None) => (s, Some ENoEnt)
        | inr (op, _, Some x) =>
            match find_dirent s n with
            | inl e => (s, Some e)
            | inr (np, _, y) =>
                if is_dir x && negb (has_perm x 2) then (s, Some EAcces)
                else
                  match bad_target x y with
                  | Some e => (s, Some e)
                  | None =>
                      let r1 := update (a_root s) op (remove_child (base o)) in
                      (set_root s (update r1 np (add_child (base o) x)), None)
                  end
            end
        end
  end.

(* addFile (fs_link.go:28-58) under AddFile (:19-26); the new file's view has number
   [length (a_views s)]. *)
Definition add_file (s : afs) (p : name) (v : view) : afs * option aerr :=
  match validate p with
  | Some e => (s, Some e)
  | None =>
      let i := length (a_views s) in
      let s0 := add_view s v in
      if match v_mode v with Some m => negb (N.eqb (N.land m m_dir) 0) | None => false end then (s0, Some EIsDir)
      else
        match last (split_sep p) [] with
        | [] => (s0, Some EInval)
        | b =>
            match mkdir_all s0 (dir p) m_perm with
            | (s1, Some e) => (s1, Some e)
            | (s1, None) =>
                match find s1 (dir p) with
                | inl e => (s1, Some e)
                | inr d =>
                    match searchable (Some d) with
                    | Some e => (s1, Some e)
                    | None =>
                        if negb (has_perm d 2) then (s1, Some EAcces)
                        else
                          let s2 := match child d b with Some x => log_close s1 (closes x) | None => s1 end in
                          (set_root s2 (update (a_root s2) (comps (dir p)) (add_child (base p) (file_node v i))), None)
                    end
                end
            end
        end
  end.

(* Reallocate (fs_link.go:63-104) with the in-memory allocator. *)
Definition reallocate (s : afs) (p : name) : afs * option aerr :=
  match find s p with
  | inl e => (s, Some e)
  | inr (Dir _ _) => (s, Some EBadf)
  | inr (File m i) =>
      match nth_error (a_views s) i with
      | None => (s, Some EView)
      | Some v =>
          let nv := {| v_mode := Some m_perm; v_ro := false; v_data := v_data v; v_close_fails := false |} in
          match add_file s p nv with
          | (s1, Some e) => (s1, Some e)
          | (s1, None) =>
              (log_close (set_root s1 (update (a_root s1) (comps p) (set_mode m))) [i],
               if v_close_fails v then Some EClosedWith else None)
          end
      end
  end.

(* The calls of a history. *)
Inductive aop :=
  | AChmod (p : name) (m : N) | AMkdir (p : name) (m : N) | AMkdirAll (p : name) (m : N)
  | AOpen (p : name) (q : oreq) (m : N) | ARemove (p : name) | ARemoveAll (p : name)
  | ARename (o n : name) | AAddFile (p : name) (v : view) | ARealloc (p : name).
Definition astep (s : afs) (o : aop) : afs :=
  match o with
  | AChmod p m => fst (chmod s p m)
  | AMkdir p m => fst (mkdir s p m)
  | AMkdirAll p m => fst (mkdir_all s p m)
  | AOpen p q m => fst (open_file s p q m)
  | ARemove p => fst (remove s p)
  | ARemoveAll p => fst (remove_all s p)
  | ARename o n => fst (rename s o n)
  | AAddFile p v => fst (add_file s p v)
  | ARealloc p => fst (reallocate s p)
  end.
Definition arun (s : afs) (l : list aop) : afs := fold_left astep l s.
