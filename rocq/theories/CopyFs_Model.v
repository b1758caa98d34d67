(* Model of fsutil/copy_fs.go: CopyAll and CopyPath. The source is a finite tree; the
   destination holds an entry per cleaned path text and does not follow symlinks. *)
From Verif Require Import Common ContentRange_Model PathLex_Model TempName_Model HeadTail_Model.
Open Scope nat_scope.

(* A source tree; modes are numbers. *)
Inductive snode :=
| SDir (mode : N) (ch : list (list byte * snode))
| SFile (mode : N) (data : list byte)
| SLink (mode : N) (target : list byte)
| SOther (mode : N).

Inductive dent := DDir (mode : N) | DFile (data : list byte) (mode : N) | DLink (target : list byte).

Definition world := names dent.

(* The calls that can fail. *)
Inductive cop := CpStat | CpMkdir | CpChmod | CpOpenSrc | CpOpenDst | CpReadLink | CpSymlink.

(* What the outside does: which calls fail, where a file's copy stops early, where ReadDir
   fails after some entries and whether IgnoreErr accepts that; plus the option's mask and
   whether both sides support symlinks. *)
Record cenv := CEnv {
  ce_fails : cop -> list byte -> bool;
  ce_short : list byte -> option nat;
  ce_readdir : list byte -> option (nat * bool);
  ce_mask : N -> N;
  ce_links : bool
}.

Inductive cres := COk | CErr.

Definition is_dir_ent (w : world) (p : list byte) : bool :=
  match w p with Some (DDir _) => true | _ => false end.

(* Mkdir: an existing name is reported as ErrExist, which both callers accept. *)
Definition d_mkdir (e : cenv) (w : world) (p : list byte) : cres * world :=
  if ce_fails e CpMkdir p then (CErr, w)
  else match w p with
       | Some _ => (COk, w)
       | None => if is_dir_ent w (dir p) then (COk, name_set w p (Some (DDir 511))) else (CErr, w)
       end.

Definition d_chmod (e : cenv) (w : world) (p : list byte) (m : N) : cres * world :=
  if ce_fails e CpChmod p then (CErr, w)
  else match w p with
       | Some (DDir _) => (COk, name_set w p (Some (DDir m)))
       | Some (DFile b _) => (COk, name_set w p (Some (DFile b m)))
       | _ => (CErr, w)
       end.

(* OpenFile(O_WRONLY|O_CREATE|O_TRUNC, perm). *)
Definition d_create (e : cenv) (w : world) (p : list byte) (perm : N) : cres * world :=
  if ce_fails e CpOpenDst p then (CErr, w)
  else match w p with
       | Some (DFile _ m) => (COk, name_set w p (Some (DFile [] m)))
       | Some _ => (CErr, w)
       | None => if is_dir_ent w (dir p) then (COk, name_set w p (Some (DFile [] perm))) else (CErr, w)
       end.

Definition d_write (w : world) (p : list byte) (data : list byte) : world :=
  match w p with Some (DFile b m) => name_set w p (Some (DFile (b ++ data) m)) | _ => w end.

Definition d_symlink (e : cenv) (w : world) (p target : list byte) : cres * world :=
  if ce_fails e CpSymlink p then (CErr, w)
  else match w p with
       | Some _ => (CErr, w)
       | None => if is_dir_ent w (dir p) then (COk, name_set w p (Some (DLink target))) else (CErr, w)
       end.

(* copyEntry (copy_fs.go:173-250). *)
Definition copy_entry (e : cenv) (w : world) (p : list byte) (n : snode) : cres * world :=
  match n with
  | SDir m _ =>
      let '(r, w1) := d_mkdir e w p in
      match r with CErr => (CErr, w1) | COk => d_chmod e w1 p (ce_mask e m) end
  | SFile m data =>
      if ce_fails e CpOpenSrc p then (CErr, w)
      else
        let '(r, w1) := d_create e w p (ce_mask e m) in
        match r with
        | CErr => (CErr, w1)
        | COk =>
            match ce_short e p with
            | Some k => (CErr, d_write w1 p (firstn k data))
            | None => (COk, d_write w1 p data)
            end
        end
  | SLink m target =>
      if ce_links e then
        if ce_fails e CpReadLink p then (CErr, w) else d_symlink e w p target
      else (COk, w)
  | SOther _ => (COk, w)
  end.

(* path.Join(root, path) for the walked path with elements [p] (:81). *)
Definition walk_path (p : list (list byte)) : list byte := match p with [] => [dot] | _ => join_sep p end.
Definition dst_path (root : list byte) (p : list (list byte)) : list byte := join2 root (walk_path p).

(* fs.WalkDir with the function of CopyAll (:57-84). *)
Fixpoint copy_tree (e : cenv) (root : list byte) (n : snode) (p : list (list byte)) (w : world) : cres * world :=
  let d := dst_path root p in
  if ce_fails e CpStat d then (CErr, w)
  else
    let '(r, w1) := copy_entry e w d n in
    match r with
    | CErr => (CErr, w1)
    | COk =>
        match n with
        | SDir _ ch =>
            match (match ce_readdir e d with
                   | None => Some (length ch)
                   | Some (k, ignored) => if ignored then Some k else None
                   end) with
            | None => (CErr, w1)
            | Some k =>
                (fix go (ch : list (list byte * snode)) (k : nat) (w : world) {struct ch} : cres * world :=
                   match ch, k with
                   | (name, n) :: ch, S k =>
                       let '(r, w1) := copy_tree e root n (p ++ [name]) w in
                       match r with CErr => (CErr, w1) | COk => go ch k w1 end
                   | _, _ => (COk, w)
                   end) ch k w1
            end
        | _ => (COk, w1)
        end
    end.

Definition copy_all (e : cenv) (root : list byte) (n : snode) (w : world) : cres * world := copy_tree e root n [] w.

(* ---- CopyPath ---- *)

Fixpoint find_child (c : list byte) (ch : list (list byte * snode)) : option snode :=
  match ch with
  | [] => None
  | (name, n) :: ch => if bytes_eqb name c then Some n else find_child c ch
  end.
Fixpoint node_at (n : snode) (p : list (list byte)) : option snode :=
  match p with
  | [] => Some n
  | c :: p =>
      match n with
      | SDir _ ch => match find_child c ch with Some n' => node_at n' p | None => None end
      | _ => None
      end
  end.

(* Stat or Lstat of the source: a name that is not fs.ValidPath is refused. *)
Definition src_stat (src : snode) (path : list byte) : option snode :=
  if bytes_eqb path [dot] then Some src
  else if is_local path && bytes_eqb (clean path) path then node_at src (split_sep path)
  else None.

(* Byte-wise string order, and sort.Strings of distinct keys. *)
Fixpoint str_ltb (a b : list byte) : bool :=
  match a, b with
  | _, [] => false
  | [], _ :: _ => true
  | x :: a, y :: b => (x <? y)%N || ((x =? y)%N && str_ltb a b)
  end.
Fixpoint insert_str (x : list byte) (l : list (list byte)) : list (list byte) :=
  match l with
  | [] => [x]
  | y :: r => if bytes_eqb x y then l else if str_ltb x y then x :: l else y :: insert_str x r
  end.
Definition sorted_set (l : list (list byte)) : list (list byte) := fold_right insert_str [] l.

(* filepath.Rel(base, targ) of two cleaned relative paths; None is an error. *)
Fixpoint drop_common (b t : list (list byte)) : list (list byte) * list (list byte) :=
  match b, t with
  | x :: b', y :: t' => if bytes_eqb x y then drop_common b' t' else (b, t)
  | _, _ => (b, t)
  end.
Definition rel_comps (b t : list (list byte)) : option (list (list byte)) :=
  let '(b', t') := drop_common b t in
  if existsb is_dotdot b' then None else Some (repeat [dot; dot] (length b') ++ t').
Definition elems (p : list byte) : list (list byte) := if is_dot p then [] else split_sep p.
Definition rel_path (b t : list byte) : option (list byte) :=
  option_map (fun l => match l with [] => [dot] | _ => join_sep l end) (rel_comps (elems b) (elems t)).

(* The first loop of CopyPath (:120-134): sources and directories. *)
Fixpoint gather_paths (e : cenv) (src : snode) (root : list byte) (paths : list (list byte))
    : option (list (list byte * snode) * list (list byte)) :=
  match paths with
  | [] => Some ([], [])
  | path :: rest =>
      let path := clean path in
      if ce_fails e CpStat path then None
      else
        match src_stat src path with
        | None => None
        | Some n =>
            let parent := dir (join2 root path) in
            let ds := if is_dot parent then Some [] else path_from_head [] parent in
            match ds, gather_paths e src root rest with
            | Some ds, Some (ss, ds') => Some ((path, n) :: ss, ds ++ ds')
            | _, _ => None
            end
        end
  end.

Definition smode (n : snode) : N := match n with SDir m _ | SFile m _ | SLink m _ | SOther m => m end.

(* The directories (:137-158). *)
Fixpoint make_dirs (e : cenv) (src : snode) (root : list byte) (ds : list (list byte)) (w : world) : cres * world :=
  match ds with
  | [] => (COk, w)
  | d :: ds =>
      if is_dot d then make_dirs e src root ds w
      else
        let '(r, w1) := d_mkdir e w d in
        match r with
        | CErr => (CErr, w1)
        | COk =>
            match rel_path root d with
            | None => make_dirs e src root ds w1
            | Some rel =>
                if is_dot rel then make_dirs e src root ds w1
                else
                  match src_stat src rel with
                  | None => (CErr, w1)
                  | Some n =>
                      let '(r, w2) := d_chmod e w1 d (ce_mask e (smode n)) in
                      match r with CErr => (CErr, w2) | COk => make_dirs e src root ds w2 end
                  end
            end
        end
  end.

(* The files (:161-167). *)
Fixpoint copy_sources (e : cenv) (root : list byte) (ss : list (list byte * snode)) (w : world) : cres * world :=
  match ss with
  | [] => (COk, w)
  | (path, n) :: ss =>
      let '(r, w1) := copy_entry e w (join2 root path) n in
      match r with CErr => (CErr, w1) | COk => copy_sources e root ss w1 end
  end.

(* CopyPath (:88-170). *)
Definition copy_path (e : cenv) (src : snode) (root : list byte) (paths : list (list byte)) (w : world) : cres * world :=
  let root := clean root in
  if rooted root then (CErr, w)
  else
    match gather_paths e src root paths with
    | None => (CErr, w)
    | Some (ss, ds) =>
        let '(r, w1) := make_dirs e src root (sorted_set ds) w in
        match r with CErr => (CErr, w1) | COk => copy_sources e root ss w1 end
    end.
