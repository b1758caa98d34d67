(* Model of synthfs's tree (vroot/synthfs: tree.go, node.go, root.go, mkdir.go, link.go,
   open.go, remove.go, rename.go, chmod.go). Nodes live in a heap and are named by numbers
   (pointers); every Root method holds the state lock, so methods are single steps. *)
From Verif Require Import Common ContentRange_Model PathLex_Model.
Open Scope nat_scope.

(* metadata (node.go:30-37). *)
Record meta := { m_name : list byte; m_mode : N; m_ref : nat }.
(* dir, file, symlink (node.go:48-65): entries in insertion order. *)
Inductive node :=
| NDir (m : meta) (parent : option nat) (ents : list (list byte * nat))
| NFile (m : meta) (view : nat)
| NLink (m : meta) (target : list byte).

(* Views are numbered too; [tag v] says what view v shows, [closed v] how often it was closed. *)
Record heap := { nodes : nat -> option node; next : nat; closed : nat -> nat; next_view : nat; tag : nat -> N }.

Inductive serr := EEscapes | ENotExist | ELoop | ENotDir | EInval | EExist | ENotEmpty | ESharing | EBadf | EOther.
Inductive sres (A : Type) := Ok (a : A) | Err (e : serr).
Arguments Ok {A} a. Arguments Err {A} e.

Definition setf {A} (f : nat -> A) (i : nat) (x : A) : nat -> A := fun j => if Nat.eqb j i then x else f j.
Definition set_node (h : heap) (n : nat) (x : node) : heap :=
  {| nodes := setf (nodes h) n (Some x); next := next h; closed := closed h; next_view := next_view h; tag := tag h |}.
Definition close_view (h : heap) (v : nat) : heap :=
  {| nodes := nodes h; next := next h; closed := setf (closed h) v (S (closed h v)); next_view := next_view h; tag := tag h |}.

Definition meta_of (x : node) : meta := match x with NDir m _ _ | NFile m _ | NLink m _ => m end.
Definition with_meta (x : node) (m : meta) : node :=
  match x with NDir _ p es => NDir m p es | NFile _ v => NFile m v | NLink _ t => NLink m t end.
Definition is_dirnode (x : node) : bool := match x with NDir _ _ _ => true | _ => false end.

(* map lookups by name. *)
Fixpoint assoc (nm : list byte) (es : list (list byte * nat)) : option nat :=
  match es with
  | [] => None
  | (k, n) :: r => if bytes_eqb nm k then Some n else assoc nm r
  end.
Definition drop_name (nm : list byte) (es : list (list byte * nat)) : list (list byte * nat) :=
  filter (fun e => negb (bytes_eqb nm (fst e))) es.

(* dir.lookup (node.go:89-95). *)
Definition lookup (h : heap) (d : nat) (nm : list byte) : option nat :=
  match nodes h d with Some (NDir _ _ es) => assoc nm es | _ => None end.
(* dir.addEntry, removeEntry (node.go:99-118). *)
Definition add_entry (h : heap) (d : nat) (nm : list byte) (n : nat) : heap :=
  match nodes h d with Some (NDir m p es) => set_node h d (NDir m p (drop_name nm es ++ [(nm, n)])) | _ => h end.
Definition remove_entry (h : heap) (d : nat) (nm : list byte) : heap :=
  match nodes h d with Some (NDir m p es) => set_node h d (NDir m p (drop_name nm es)) | _ => h end.
Definition entries (h : heap) (d : nat) : list (list byte * nat) :=
  match nodes h d with Some (NDir _ _ es) => es | _ => [] end.
Definition parent_of (h : heap) (d : nat) : option nat := match nodes h d with Some (NDir _ p _) => p | _ => None end.

(* A new node. *)
Definition alloc (h : heap) (x : node) : heap * nat :=
  ({| nodes := setf (nodes h) (next h) (Some x); next := S (next h); closed := closed h; next_view := next_view h; tag := tag h |}, next h).
(* Allocate it and enter it below d. *)
Definition enter_new (h : heap) (d : nat) (nm : list byte) (x : node) : heap * nat :=
  let '(h1, n) := alloc h x in (add_entry h1 d nm n, n).

(* A new view showing t. *)
Definition fresh_view (h : heap) (t : N) : heap * nat :=
  ({| nodes := nodes h; next := next h; closed := closed h; next_view := S (next_view h); tag := setf (tag h) (next_view h) t |}, next_view h).
(* A new file showing t below d. *)
Definition enter_file (h : heap) (d : nat) (nm : list byte) (mode t : N) : heap * nat :=
  let '(h1, v) := fresh_view h t in
  enter_new h1 d nm (NFile {| m_name := nm; m_mode := mode; m_ref := 0 |} v).

(* normalize (tree.go:31-40): the elements of the path. *)
Definition normalize (name : list byte) : sres (list (list byte)) :=
  let p := clean name in
  if is_dot p then Ok [] else if is_local p then Ok (split_sep p) else Err EEscapes.

Definition nothing_left (l : list (list byte)) : bool := match l with [] => true | [c] => is_empty c | _ => false end.

(* A resolved node, with the directory and name it was found by (tree.go:45-49). *)
Record found := { f_node : nat; f_at : option (nat * list byte) }.

(* The loop of resolve (tree.go:76-132), over the elements of [rest]; [hops] links may still
   be followed. *)
Fixpoint walk_comps (h : heap) (boundary : nat) (follow : bool) (hops : nat) : nat -> list (list byte) -> sres found :=
  fix go (cur : nat) (comps : list (list byte)) : sres found :=
    match comps with
    | [] => Ok {| f_node := cur; f_at := None |}
    | c :: rest =>
        if is_empty c || is_dot c then go cur rest
        else if is_dotdot c then
          if Nat.eqb cur boundary then Err EEscapes
          else match parent_of h cur with None => Err EEscapes | Some p => go p rest end
        else
          match lookup h cur c with
          | None => Err ENotExist
          | Some n =>
              let last := nothing_left rest in
              match nodes h n with
              | Some (NLink _ target) =>
                  if negb last || follow then
                    match hops with
                    | O => Err ELoop
                    | S k => if rooted target then Err EEscapes
                             else walk_comps h boundary follow k cur (if last then split_sep target else split_sep target ++ rest)
                    end
                  else Ok {| f_node := n; f_at := Some (cur, c) |}
              | Some (NDir _ _ _) => if last then Ok {| f_node := n; f_at := Some (cur, c) |} else go n rest
              | _ => if last then Ok {| f_node := n; f_at := Some (cur, c) |} else Err ENotDir
              end
          end
    end.

Definition max_hops : nat := 40.

(* resolve (tree.go:58-133), findNode (root.go:75-77). *)
Definition resolve (h : heap) (boundary : nat) (name : list byte) (follow : bool) : sres found :=
  match normalize name with
  | Err e => Err e
  | Ok comps => walk_comps h boundary follow max_hops boundary comps
  end.

(* resolveParent (tree.go:138-164). *)
Definition resolve_parent (h : heap) (boundary : nat) (name : list byte) : sres (nat * list byte) :=
  match normalize name with
  | Err e => Err e
  | Ok [] => Err EInval
  | Ok comps =>
      match walk_comps h boundary true max_hops boundary (removelast comps) with
      | Err e => Err e
      | Ok f => match nodes h (f_node f) with
                | Some (NDir _ _ _) => Ok (f_node f, last comps [])
                | _ => Err ENotDir
                end
      end
  end.

Definition new_meta (nm : list byte) (mode : N) : meta := {| m_name := nm; m_mode := mode; m_ref := 0 |}.
Definition new_dir (nm : list byte) (mode : N) (parent : nat) : node := NDir (new_meta nm mode) (Some parent) [].

(* mkdirLocked (mkdir.go:47-61); modes are passed masked. *)
Definition mkdir (h : heap) (b : nat) (name : list byte) (mode : N) : heap * sres unit :=
  match resolve_parent h b name with
  | Err e => (h, Err e)
  | Ok (d, base) =>
      if is_empty base || is_dot base || is_dotdot base then (h, Err EInval)
      else match lookup h d base with
           | Some _ => (h, Err EExist)
           | None => (fst (enter_new h d base (new_dir base mode d)), Ok tt)
           end
  end.

(* PathFromHead over cleaned elements: every non-empty initial part. *)
Fixpoint heads (pre l : list (list byte)) : list (list (list byte)) :=
  match l with [] => [] | c :: r => (pre ++ [c]) :: heads (pre ++ [c]) r end.

(* MkdirAll (mkdir.go:18-44). *)
Fixpoint mkdir_all_loop (h : heap) (b : nat) (ps : list (list (list byte))) (mode : N) : heap * sres unit :=
  match ps with
  | [] => (h, Ok tt)
  | p :: ps =>
      match mkdir h b (join_sep p) mode with
      | (h1, Ok _) => mkdir_all_loop h1 b ps mode
      | (h1, Err EExist) =>
          match resolve h1 b (join_sep p) true with
          | Err e => (h1, Err e)
          | Ok f => match nodes h1 (f_node f) with
                    | Some (NDir _ _ _) => mkdir_all_loop h1 b ps mode
                    | _ => (h1, Err ENotEmpty)
                    end
          end
      | (h1, Err e) => (h1, Err e)
      end
  end.
Definition mkdir_all (h : heap) (b : nat) (name : list byte) (mode : N) : heap * sres unit :=
  match normalize name with
  | Err e => (h, Err e)
  | Ok comps => mkdir_all_loop h b (heads [] comps) mode
  end.

(* Symlink (link.go:12-31). *)
Definition symlink (h : heap) (b : nat) (target name : list byte) (mode : N) : heap * sres unit :=
  match resolve_parent h b name with
  | Err e => (h, Err e)
  | Ok (d, base) =>
      match lookup h d base with
      | Some _ => (h, Err EExist)
      | None => (fst (enter_new h d base (NLink (new_meta base mode) target)), Ok tt)
      end
  end.

(* Link (link.go:33-66). *)
Definition link (h : heap) (b : nat) (oldname newname : list byte) : heap * sres unit :=
  match resolve h b oldname true with
  | Err e => (h, Err e)
  | Ok f =>
      match nodes h (f_node f) with
      | Some (NFile m v) =>
          match resolve_parent h b newname with
          | Err e => (h, Err e)
          | Ok (d, base) =>
              match lookup h d base with
              | Some _ => (h, Err EExist)
              | None => (fst (enter_new h d base (NFile (new_meta base (m_mode m)) v)), Ok tt)
              end
          end
      | _ => (h, Err EInval)
      end
  end.

(* Closing the view of a replaced or removed file. *)
Definition close_if_file (h : heap) (n : nat) : heap :=
  match nodes h n with Some (NFile _ v) => close_view h v | _ => h end.
Definition holds_something (h : heap) (n : nat) : bool :=
  match nodes h n with Some (NDir _ _ (_ :: _)) => true | _ => false end.

(* Remove (remove.go:10-32); [busy_check] is DisableOpenFileRemoval. *)
Definition remove (busy_check : bool) (h : heap) (b : nat) (name : list byte) : heap * sres unit :=
  match resolve_parent h b name with
  | Err e => (h, Err e)
  | Ok (d, base) =>
      match lookup h d base with
      | None => (h, Err ENotExist)
      | Some n =>
          if holds_something h n then (h, Err ENotEmpty)
          else if busy_check && match nodes h n with Some x => Nat.ltb 0 (m_ref (meta_of x)) | None => false end then (h, Err ESharing)
          else (close_if_file (remove_entry h d base) n, Ok tt)
      end
  end.

(* removeSubtree (remove.go:69-82). Fuel bounds the depth: None when it runs out. *)
Fixpoint remove_subtree (fuel : nat) (h : heap) (n : nat) : option heap :=
  match fuel with
  | O => None
  | S f =>
      match nodes h n with
      | Some (NDir _ _ es) =>
          match fold_left (fun oh e => match oh with None => None | Some h1 => remove_subtree f h1 (snd e) end) es (Some h) with
          | None => None
          | Some h1 =>
              Some (match nodes h1 n with
                    | Some (NDir m p _) => set_node h1 n (NDir m p [])
                    | _ => h1
                    end)
          end
      | Some (NFile _ v) => Some (close_view h v)
      | _ => Some h
      end
  end.

Definition ends_with_dot (name : list byte) : bool :=
  match rev name with
  | [c] => N.eqb c dot
  | c :: s :: _ => N.eqb c dot && N.eqb s sep
  | [] => false
  end.

(* RemoveAll (remove.go:34-65). None: it never returns. *)
Definition remove_all (fuel : nat) (h : heap) (b : nat) (name : list byte) : option (heap * sres unit) :=
  if ends_with_dot name then Some (h, Err EInval)
  else match normalize name with
  | Err e => Some (h, Err e)
  | Ok [] => Some (h, Err EInval)
  | Ok _ =>
      match resolve_parent h b name with
      | Err e => Some (h, Err e)
      | Ok (d, base) =>
          match lookup h d base with
          | None => Some (h, Ok tt)
          | Some n => match remove_subtree fuel h n with
                      | None => None
                      | Some h1 => Some (remove_entry h1 d base, Ok tt)
                      end
          end
      end
  end.

(* target.meta().name = newBase; d.parent = newParent (rename.go:41-44). *)
Definition retitle (h : heap) (n d : nat) (nm : list byte) : heap :=
  match nodes h n with
  | Some x =>
      let m := {| m_name := nm; m_mode := m_mode (meta_of x); m_ref := m_ref (meta_of x) |} in
      set_node h n (match x with NDir _ _ es => NDir m (Some d) es | _ => with_meta x m end)
  | None => h
  end.

(* Rename (rename.go:11-47). *)
Definition rename (h : heap) (b : nat) (oldname newname : list byte) : heap * sres unit :=
  match resolve_parent h b oldname with
  | Err e => (h, Err e)
  | Ok (od, obase) =>
      match lookup h od obase with
      | None => (h, Err ENotExist)
      | Some n =>
          match resolve_parent h b newname with
          | Err e => (h, Err e)
          | Ok (nd, nbase) =>
              let go h1 := (add_entry (retitle (remove_entry h1 od obase) n nd nbase) nd nbase n, Ok tt) in
              match lookup h nd nbase with
              | None => go h
              | Some x =>
                  if holds_something h x then (h, Err ENotEmpty)
                  else go (close_if_file (remove_entry h nd nbase) x)
              end
          end
      end
  end.

(* OpenFile (open.go:20-83): the node opened, its reference count raised. [opens]: whether the
   view opens; truncation is through the handle and does not touch the tree. *)
Definition bump (h : heap) (n : nat) : heap :=
  match nodes h n with
  | Some x => set_node h n (with_meta x {| m_name := m_name (meta_of x); m_mode := m_mode (meta_of x); m_ref := S (m_ref (meta_of x)) |})
  | None => h
  end.
Definition drop_ref (h : heap) (n : nat) : heap :=
  match nodes h n with
  | Some x => set_node h n (with_meta x {| m_name := m_name (meta_of x); m_mode := m_mode (meta_of x); m_ref := pred (m_ref (meta_of x)) |})
  | None => h
  end.
Record oreq := { o_create : bool; o_excl : bool; o_write : bool; o_mode : N; o_tag : N; o_opens : bool; o_allocs : bool }.
Definition open_node (h : heap) (n : nat) (q : oreq) : heap * sres nat :=
  if o_opens q then (bump h n, Ok n) else (h, Err EOther).
Definition open_existing (h : heap) (b : nat) (name : list byte) (q : oreq) : heap * sres nat :=
  match resolve h b name true with
  | Err e => (h, Err e)
  | Ok f =>
      match nodes h (f_node f) with
      | Some (NDir _ _ _) => if o_write q then (h, Err EBadf) else (bump h (f_node f), Ok (f_node f))
      | Some (NFile _ _) => open_node h (f_node f) q
      | _ => (h, Err EBadf)
      end
  end.
Definition open_file (h : heap) (b : nat) (name : list byte) (q : oreq) : heap * sres nat :=
  if o_create q then
    match resolve_parent h b name with
    | Err e => (h, Err e)
    | Ok (d, base) =>
        match lookup h d base with
        | Some _ => if o_excl q then (h, Err EExist) else open_existing h b name q
        | None =>
            if negb (o_allocs q) then (h, Err EOther)
            else
              let '(h1, n) := enter_file h d base (o_mode q) (o_tag q) in
              open_node h1 n q
        end
    end
  else open_existing h b name q.

(* Chmod, Lchown, Chtimes (chmod.go): set what the modelled metadata holds of it. *)
Definition chmod (h : heap) (b : nat) (name : list byte) (follow : bool) (mode : N) : heap * sres unit :=
  match resolve h b name follow with
  | Err e => (h, Err e)
  | Ok f => match nodes h (f_node f) with
            | Some x => (set_node h (f_node f) (with_meta x {| m_name := m_name (meta_of x); m_mode := mode; m_ref := m_ref (meta_of x) |}), Ok tt)
            | None => (h, Ok tt)
            end
  end.

(* OpenRoot (root.go:54-72). *)
Definition open_root (h : heap) (b : nat) (name : list byte) : sres nat :=
  match resolve h b name true with
  | Err e => Err e
  | Ok f => match nodes h (f_node f) with Some (NDir _ _ _) => Ok (f_node f) | _ => Err ENotDir end
  end.

(* NewRoot (root.go:31-35). *)
Definition new_heap (mode : N) : heap :=
  {| nodes := fun n => if Nat.eqb n 0 then Some (NDir (new_meta [] mode) None []) else None; next := 1; closed := fun _ => 0; next_view := 0; tag := fun _ => 0%N |}.

(* ensureParents (add.go:287-327). *)
Fixpoint ensure_loop (h : heap) (b : nat) (ps : list (list (list byte))) (mode : N) (parent : nat) : heap * sres nat :=
  match ps with
  | [] => (h, Ok parent)
  | p :: ps =>
      match resolve h b (join_sep p) true with
      | Ok f => match nodes h (f_node f) with
                | Some (NDir _ _ _) => ensure_loop h b ps mode (f_node f)
                | _ => (h, Err ENotDir)
                end
      | Err ENotExist =>
          match resolve_parent h b (join_sep p) with
          | Err e => (h, Err e)
          | Ok (d, base) => let '(h1, n) := enter_new h d base (new_dir base mode d) in ensure_loop h1 b ps mode n
          end
      | Err e => (h, Err e)
      end
  end.
Definition ensure_parents (h : heap) (b : nat) (name : list byte) (mode : N) : heap * sres (nat * list byte) :=
  match normalize name with
  | Err e => (h, Err e)
  | Ok [] => (h, Err EInval)
  | Ok comps =>
      match ensure_loop h b (heads [] (removelast comps)) mode b with
      | (h1, Err e) => (h1, Err e)
      | (h1, Ok d) => (h1, Ok (d, last comps []))
      end
  end.

(* AddFunc (add_decision.go): the path, whether the incoming entry is a directory, and the
   same of an existing entry; None is an error. *)
Inductive decision := Skip | Keep | Override.
Definition addfunc := list (list byte) -> bool -> option bool -> option decision.
Definition merge_overwrite : addfunc := fun _ inc ex =>
  match ex with None => Some Override | Some e => if inc && e then Some Keep else Some Override end.
Definition merge_keep : addfunc := fun _ inc ex => match ex with None => Some Override | Some _ => Some Keep end.
Definition fail_on_conflict : addfunc := fun _ inc ex =>
  match ex with None => Some Override | Some e => if inc && e then Some Keep else None end.

Definition existing_dir (h : heap) (n : nat) : bool := match nodes h n with Some x => is_dirnode x | None => false end.

(* What Override does to an existing leaf or directory when a file or link comes in. *)
Definition displace (h : heap) (d : nat) (base : list byte) (ex : option nat) : heap :=
  match ex with Some x => close_if_file (remove_entry h d base) x | None => h end.

(* AddFile (add.go:30-84), for a view showing t; [stats]: its Stat works. *)
Definition add_file (h : heap) (b : nat) (name : list byte) (t mode scaffold : N) (stats : bool) (cb : addfunc) : heap * sres unit :=
  if negb stats then (h, Err EOther)
  else match ensure_parents h b name scaffold, normalize name with
  | (h1, Ok (d, base)), Ok comps =>
      let ex := lookup h1 d base in
      match cb comps false (option_map (existing_dir h1) ex) with
      | None => (h1, Err EOther)
      | Some Skip | Some Keep => (h1, Ok tt)
      | Some Override => (fst (enter_file (displace h1 d base ex) d base mode t), Ok tt)
      end
  | (h1, Err e), _ => (h1, Err e)
  | (h1, _), Err e => (h1, Err e)
  end.

(* The source of AddFS: directories, files and links, any of which may fail to be looked at
   (SFail), listed, opened or read. *)
Inductive source :=
| SDir (mode : N) (children : list (list byte * source)) (lists : bool)
| SFile (mode t : N) (opens : bool)
| SLink (mode : N) (target : list byte) (reads : bool)
| SFail.
Definition source_dir (s : source) : bool := match s with SDir _ _ _ => true | _ => false end.

(* materializeDir (add.go:239-258). *)
Definition materialize_dir (h : heap) (dst : nat) (base : list byte) (mode : N) (ex : option nat) (override : bool) : option (heap * nat) :=
  match ex with
  | Some x =>
      if existing_dir h x && negb override then Some (h, x)
      else
        let h1 := remove_entry h dst base in
        match (if override then remove_subtree (S (next h1)) h1 x else Some h1) with
        | None => None
        | Some h2 => Some (enter_new h2 dst base (new_dir base mode dst))
        end
  | None => Some (enter_new h dst base (new_dir base mode dst))
  end.

(* descend (add.go:262-282), over what addFSWalk does with one entry. *)
Definition descend (walk : source -> heap -> nat -> list byte -> list (list byte) -> option (heap * sres unit))
  (d : nat) (path : list (list byte)) : list (list byte * source) -> heap -> option (heap * sres unit) :=
  fix go (cs : list (list byte * source)) (h : heap) : option (heap * sres unit) :=
    match cs with
    | [] => Some (h, Ok tt)
    | (nm, c) :: cs =>
        match walk c h d nm (path ++ [nm]) with
        | Some (h2, Ok _) => go cs h2
        | o => o
        end
    end.

(* addFSWalk (add.go:126-233). None: it never returns. *)
Fixpoint add_walk (cb : addfunc) (s : source) (h : heap) (dst : nat) (base : list byte) (path : list (list byte)) {struct s} : option (heap * sres unit) :=
  let ex := lookup h dst base in
  match s with
  | SFail => Some (h, Err EOther)
  | SDir mode children lists =>
      match cb path true (option_map (existing_dir h) ex) with
      | None => Some (h, Err EOther)
      | Some Skip => Some (h, Ok tt)
      | Some dec =>
          match materialize_dir h dst base mode ex (match dec with Override => true | _ => false end) with
          | None => None
          | Some (h1, d) => if lists then descend (add_walk cb) d path children h1 else Some (h1, Err EOther)
          end
      end
  | SLink mode target reads =>
      match cb path false (option_map (existing_dir h) ex) with
      | None => Some (h, Err EOther)
      | Some Skip => Some (h, Ok tt)
      | Some dec =>
          if negb reads then Some (h, Err EOther)
          else match dec, ex with
          | Keep, Some _ => Some (h, Ok tt)
          | _, _ => Some (fst (enter_new (displace h dst base ex) dst base (NLink (new_meta base mode) target)), Ok tt)
          end
      end
  | SFile mode t opens =>
      match cb path false (option_map (existing_dir h) ex) with
      | None => Some (h, Err EOther)
      | Some Skip => Some (h, Ok tt)
      | Some dec =>
          if negb opens then Some (h, Err EOther)
          else match dec, ex with
          | Keep, Some _ => let '(h1, v) := fresh_view h t in Some (close_view h1 v, Ok tt)
          | _, _ => Some (fst (enter_file (displace h dst base ex) dst base mode t), Ok tt)
          end
      end
  end.

(* AddFS (add.go:95-120). *)
Definition add_fs (h : heap) (b : nat) (name : list byte) (s : source) (scaffold : N) (cb : addfunc) : option (heap * sres unit) :=
  match normalize name with
  | Err e => Some (h, Err e)
  | Ok [] =>
      match s with
      | SDir _ children true => descend (add_walk cb) b [] children h
      | _ => Some (h, Err EOther)
      end
  | Ok comps =>
      match ensure_parents h b name scaffold with
      | (h1, Err e) => Some (h1, Err e)
      | (h1, Ok (d, base)) => add_walk cb s h1 d base comps
      end
  end.

(* A history: calls through any of the roots opened so far, and handles being closed. *)
Inductive sop :=
| OMkdir (i : nat) (name : list byte) (mode : N)
| OMkdirAll (i : nat) (name : list byte) (mode : N)
| OSymlink (i : nat) (target name : list byte) (mode : N)
| OLink (i : nat) (old new : list byte)
| ORemove (i : nat) (name : list byte)
| ORemoveAll (i : nat) (name : list byte)
| ORename (i : nat) (old new : list byte)
| OOpen (i : nat) (name : list byte) (q : oreq)
| OCloseHandle (n : nat)
| OChmod (i : nat) (name : list byte) (follow : bool) (mode : N)
| OOpenRoot (i : nat) (name : list byte)
| OAddFile (i : nat) (name : list byte) (t mode scaffold : N) (stats : bool) (cb : addfunc)
| OAddFS (i : nat) (name : list byte) (s : source) (scaffold : N) (cb : addfunc).

Record sstate := { st_heap : heap; st_roots : list nat }.
Definition with_heap (st : sstate) (h : heap) : sstate := {| st_heap := h; st_roots := st_roots st |}.
Definition new_state (mode : N) : sstate := {| st_heap := new_heap mode; st_roots := [0] |}.
Definition lift {A} (st : sstate) (r : option (heap * A)) : option (sstate * A) :=
  match r with Some (h, a) => Some (with_heap st h, a) | None => None end.
Definition ignore {A} (r : heap * sres A) : heap * sres unit :=
  (fst r, match snd r with Ok _ => Ok tt | Err e => Err e end).

(* Removal recurses at most [S (next h)] deep; None is recursion that does not end. *)
Definition step (busy_check : bool) (st : sstate) (o : sop) : option (sstate * sres unit) :=
  let h := st_heap st in
  let at_root i (f : nat -> option (heap * sres unit)) := match nth_error (st_roots st) i with Some b => lift st (f b) | None => Some (st, Err EInval) end in
  match o with
  | OMkdir i name mode => at_root i (fun b => Some (mkdir h b name mode))
  | OMkdirAll i name mode => at_root i (fun b => Some (mkdir_all h b name mode))
  | OSymlink i target name mode => at_root i (fun b => Some (symlink h b target name mode))
  | OLink i old new => at_root i (fun b => Some (link h b old new))
  | ORemove i name => at_root i (fun b => Some (remove busy_check h b name))
  | ORemoveAll i name => at_root i (fun b => remove_all (S (next h)) h b name)
  | ORename i old new => at_root i (fun b => Some (rename h b old new))
  | OOpen i name q => at_root i (fun b => Some (ignore (open_file h b name q)))
  | OCloseHandle n => Some (with_heap st (drop_ref h n), Ok tt)
  | OChmod i name follow mode => at_root i (fun b => Some (chmod h b name follow mode))
  | OOpenRoot i name =>
      match nth_error (st_roots st) i with
      | Some b => match open_root h b name with
                  | Ok d => Some ({| st_heap := h; st_roots := st_roots st ++ [d] |}, Ok tt)
                  | Err e => Some (st, Err e)
                  end
      | None => Some (st, Err EInval)
      end
  | OAddFile i name t mode scaffold stats cb => at_root i (fun b => Some (add_file h b name t mode scaffold stats cb))
  | OAddFS i name s scaffold cb => at_root i (fun b => add_fs h b name s scaffold cb)
  end.

Fixpoint run (busy_check : bool) (st : sstate) (os : list sop) : option sstate :=
  match os with
  | [] => Some st
  | o :: os => match step busy_check st o with Some (st1, _) => run busy_check st1 os | None => None end
  end.
