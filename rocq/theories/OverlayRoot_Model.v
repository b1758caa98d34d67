(* Model of the overlay's entry points (vroot-adapter/overlayfs: resolve.go, fs.go, open.go,
   write.go, mkdir.go, remove.go, rename.go, link.go): how a caller's name becomes the
   merged-view name an operation works on. Merged-view names are texts relative to the
   overlay's root, "" for the root itself. *)
From Verif Require Import Common ContentRange_Model PathLex_Model Resolve_Model.
From Verif Require Masks_Model.
Open Scope nat_scope.

Notation child_name := Masks_Model.child_name.
Notation parent_name := Masks_Model.parent_name.

Definition enoent : nat := 2.
Definition eexist : nat := 17.
Definition enotdir : nat := 20.
Definition eisdir : nat := 21.
Definition einval : nat := 22.
Definition escapes : nat := 1000.

(* What state.lookup answers for a merged-view name (merged.go:34-77), with the target the
   holding layer's ReadLink reports; it stands still during a call. *)
Inductive mst := MErr (code : nat) | MDir | MFile | MLink (target : list byte).
Definition merged := list byte -> mst.

(* Fs.name (resolve.go:17-26). *)
Definition ov_name (base p : list byte) : option (list byte) :=
  let c := clean p in
  if negb (is_local c) then None
  else if bytes_eqb c [dot] then Some base
  else Some (child_name base c).

(* resolver.Lstat (resolve.go:40-50). *)
Definition ov_lstat (base : list byte) (m : merged) (p : list byte) : lst :=
  match ov_name base p with
  | None => LErr escapes
  | Some n => match m n with MErr c => LErr c | MLink _ => LLink | MDir | MFile => LOther end
  end.
(* resolver.ReadLink (resolve.go:52-62). *)
Definition ov_readlink (base : list byte) (m : merged) (p : list byte) : rdl :=
  match ov_name base p with
  | None => RErr escapes
  | Some n => match m n with MErr c => RErr c | MLink t => RTarget t | MDir | MFile => RErr einval end
  end.
Definition resolver (base : list byte) (m : merged) : linkfs := LinkFs (ov_lstat base m) (ov_readlink base m).

Inductive nres := NOk (full : list byte) | NErr (e : rerr) | NFuel.

(* Fs.resolve (resolve.go:71-77). *)
Definition ov_resolve (base : list byte) (m : merged) (name : list byte) (skip : bool) : nres :=
  match resolve_path (resolver base m) name skip with
  | ROk p _ => match ov_name base p with Some n => NOk n | None => NErr ErrEscapes end
  | RFail _ e => NErr e
  | RFuel => NFuel
  end.

(* Fs.locate (resolve.go:83-93). *)
Definition locate (base : list byte) (m : merged) (name : list byte) (skip : bool) : nres :=
  match ov_resolve base m name skip with
  | NOk n => match m n with MErr c => NErr (ErrSys c) | _ => NOk n end
  | r => r
  end.

(* Fs.OpenRoot (fs.go:238-254): the sub-root's base. *)
Definition open_root (base : list byte) (m : merged) (name : list byte) : nres :=
  match locate base m name false with
  | NOk n => match m n with MDir => NOk n | _ => NErr (ErrSys enotdir) end
  | r => r
  end.

Definition not_exist (e : rerr) : bool := match e with ErrSys c => Nat.eqb c enoent | _ => false end.

(* mkdirAllName (mkdir.go:104-129); the elements of head innermost first. *)
Fixpoint peel (base : list byte) (m : merged) (head : list (list byte)) (rest : list byte) : nres :=
  match head with
  | [] => NErr (ErrSys enoent)
  | c :: up =>
      match ov_resolve base m (join_sep (rev head)) true with
      | NOk r => NOk (child_name r rest)
      | NErr e =>
          if not_exist e then match up with [] => NErr e | _ => peel base m up (child_name c rest) end
          else NErr e
      | NFuel => NFuel
      end
  end.
Definition mkdir_all_name (base : list byte) (m : merged) (name : list byte) : nres :=
  let c := clean name in
  if bytes_eqb c [dot] then NOk base
  else if negb (is_local c) then NErr ErrEscapes
  else peel base m (rev (split_sep c)) [].

(* ancestry (write.go:158-165): a name and what is above it, shallowest first. *)
Definition ancestry (full : list byte) : list (list byte) :=
  match full with
  | [] => []
  | _ => map (fun k => join_sep (firstn k (split_sep full))) (seq 1 (length (split_sep full)))
  end.
(* The merged view once [n] has been made (mkdirOne, mkdir.go:49-58): the new directory is
   opaque, so nothing shows below it. *)
Definition made_dir (n : list byte) (m : merged) : merged := fun x =>
  if bytes_eqb x n then MDir else if bytes_eqb (firstn (S (length n)) x) (n ++ [sep]) then MErr enoent else m x.
(* mkdirAll's loop (mkdir.go:78-95): the directories made, and the failure. [fails] is what
   ensureParent and mkdirOne answer, level by level. *)
Fixpoint mk_loop (m : merged) (fails : list (option rerr)) (names : list (list byte)) : list (list byte) * option rerr :=
  match names with
  | [] => ([], None)
  | n :: r =>
      match m n with
      | MDir => mk_loop m fails r
      | MErr c =>
          if Nat.eqb c enoent then
            match hd None fails with
            | Some e => ([], Some e)
            | None => let (made, e) := mk_loop (made_dir n m) (tl fails) r in (n :: made, e)
            end
          else ([], Some (ErrSys c))
      | _ => ([], Some (ErrSys enotdir))
      end
  end.
Definition mkdir_all (base : list byte) (m : merged) (fails : list (option rerr)) (name : list byte) : list (list byte) * option rerr :=
  match mkdir_all_name base m name with
  | NOk full => mk_loop m fails (ancestry full)
  | NErr e => ([], Some e)
  | NFuel => ([], Some ErrLoop)
  end.

(* namesSelf (write.go:152-154) and the check on the overlay's own root (remove.go:32-34). *)
Definition names_self (name : list byte) : bool := bytes_eqb (clean name) [dot].
Definition structural (base : list byte) (m : merged) (name : list byte) : nres :=
  if names_self name then NErr (ErrSys einval)
  else match ov_resolve base m name true with
       | NOk [] => NErr (ErrSys einval)
       | r => r
       end.

(* openWrite (open.go:21-77) up to the top's OpenFile: the name opened in the top, and
   whether nothing stood there. *)
Definition write_name (base : list byte) (m : merged) (name : list byte) (creating : bool) : nres :=
  match ov_resolve base m name false with
  | NErr e => if creating && not_exist e then ov_resolve base m name true else NErr e
  | r => r
  end.
Inductive wopen := WRefused (e : rerr) | WOpen (full : list byte) (fresh : bool).
Definition open_write (base : list byte) (m : merged) (name : list byte) (creating excl : bool) : wopen :=
  match write_name base m name creating with
  | NErr e => WRefused e
  | NFuel => WRefused ErrLoop
  | NOk full =>
      match m full with
      | MDir => WRefused (ErrSys eisdir)
      | MFile | MLink _ => if creating && excl then WRefused (ErrSys eexist) else WOpen full false
      | MErr c =>
          if negb (Nat.eqb c enoent) then WRefused (ErrSys c)
          else if negb creating then WRefused (ErrSys enoent)
          else match m (parent_name full) with
               | MDir => WOpen full true
               | MErr c => WRefused (ErrSys c)
               | _ => WRefused (ErrSys enotdir)
               end
      end
  end.

(* The entry points. QRead: Stat, Open, OpenRoot (skip false), Lstat, ReadLink (true); QChange:
   Chmod, Chown, Chtimes (false), Lchown (true) through mutateTop (write.go:104-116). *)
Inductive call :=
| QRead (skip : bool) (name : list byte)
| QChange (skip : bool) (name : list byte)
| QWrite (creating excl : bool) (name : list byte)
| QMkdir (name : list byte)
| QMkdirAll (name : list byte)
| QRemove (all : bool) (name : list byte)
| QLink (old new : list byte)
| QSymlink (target new : list byte)
| QRename (old new : list byte).

(* The merged-view names a call works on. *)
Definition names_of (base : list byte) (m : merged) (q : call) : list nres :=
  match q with
  | QRead skip n => [locate base m n skip]
  | QChange skip n => [ov_resolve base m n skip]
  | QWrite creating _ n => [write_name base m n creating]
  | QMkdir n => [ov_resolve base m n true]
  | QMkdirAll n => [mkdir_all_name base m n]
  | QRemove _ n => [structural base m n]
  | QLink o n => [ov_resolve base m o true; ov_resolve base m n true]
  | QSymlink _ n => [ov_resolve base m n true]
  | QRename o n => [structural base m o; structural base m n]
  end.

(* Sub-roots of sub-roots. *)
Fixpoint open_roots (base : list byte) (ms : list (merged * list byte)) : nres :=
  match ms with
  | [] => NOk base
  | (m, name) :: r => match open_root base m name with NOk b => open_roots b r | e => e end
  end.

(* The top's path of a merged-view name (DataSource.ContentPath): below its "merged"
   directory. *)
Definition content : list byte := [109; 101; 114; 103; 101; 100]%N.
Definition top_path (full : list byte) : list (list byte) := content :: match full with [] => [] | _ => split_sep full end.
