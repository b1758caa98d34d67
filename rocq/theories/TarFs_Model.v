(* Model of tarfs/fs.go, entdir.go, enthardlink.go and entsymlink.go: the tree built from an
   archive, lookups and links. *)
From Verif Require Import Common ContentRange_Model PathLex_Model CopyFs_Model.
Open Scope nat_scope.

(* tar.Header: TReg stands for TypeReg, TypeRegA and TypeGNUSparse, TDev for devices and
   fifos, TOther for all other type flags. *)
Inductive ttype := TReg | TDir | TSym | TLink | TDev | TOther.
Record hdr := Hdr { h_name : list byte; h_type : ttype; h_link : list byte; h_id : N }.

(* direntry. A directory's [ordered] slice holds pointers: [OLive c] points at the entry
   that files[c] holds now, [OStale h] at one that was replaced (h is its header). *)
Inductive oref := OLive (c : list byte) | OStale (h : option hdr).
Inductive tnode :=
| NDir (h : option hdr) (files : list (list byte * tnode)) (ordered : list oref)
| NFile (h : hdr)
| NSym (h : hdr)
| NHard (h : hdr).

(* header(). *)
Definition header (n : tnode) : option hdr :=
  match n with NDir h _ _ => h | NFile h | NSym h | NHard h => Some h end.

Fixpoint get (c : list byte) (files : list (list byte * tnode)) : option tnode :=
  match files with
  | [] => None
  | (x, n) :: files => if bytes_eqb x c then Some n else get c files
  end.
Fixpoint put (c : list byte) (n : tnode) (files : list (list byte * tnode)) : list (list byte * tnode) :=
  match files with
  | [] => [(c, n)]
  | (x, m) :: files => if bytes_eqb x c then (x, n) :: files else (x, m) :: put c n files
  end.

(* files[c] = another entry: earlier pointers to the old one stay in ordered. *)
Definition stale (c : list byte) (old : option tnode) (ordered : list oref) : list oref :=
  match old with
  | None => ordered
  | Some o => map (fun r => match r with OLive x => if bytes_eqb x c then OStale (header o) else r | _ => r end) ordered
  end.

Definition leaf (h : hdr) : tnode :=
  match h_type h with TSym => NSym h | TLink => NHard h | _ => NFile h end.

(* addChild (entdir.go:35-107), on the elements of the name. *)
Fixpoint add_child (comps : list (list byte)) (h : hdr) (d : tnode) : tnode :=
  match d with
  | NDir dh files ordered =>
      match comps with
      | [] => d
      | [c] =>
          match h_type h with
          | TDir =>
              match get c files with
              | Some (NDir _ f o) => NDir dh (put c (NDir (Some h) f o) files) ordered
              | Some old => NDir dh (put c (NDir (Some h) [] []) files) (stale c (Some old) ordered)
              | None => NDir dh (put c (NDir (Some h) [] []) files) (ordered ++ [OLive c])
              end
          | _ => NDir dh (put c (leaf h) files) (stale c (get c files) ordered ++ [OLive c])
          end
      | c :: rest =>
          match get c files with
          | Some (NDir ch f o) => NDir dh (put c (add_child rest h (NDir ch f o)) files) ordered
          | old => NDir dh (put c (add_child rest h (NDir None [] [])) files) (stale c old ordered ++ [OLive c])
          end
      end
  | _ => d
  end.

(* FsOption (fs.go:27-35). *)
Record topt := TOpt { o_dev : bool; o_sym : bool; o_rooted : bool }.

(* tryCollectHeaderOffsets (headers.go:12-25): the last entry of each cleaned name. *)
Fixpoint collect (arch : list hdr) (key : list byte) : option hdr :=
  match arch with
  | [] => None
  | h :: arch => match collect arch key with Some x => Some x | None => if bytes_eqb (clean (h_name h)) key then Some h else None end
  end.

(* The filter of New (fs.go:70-90). *)
Definition accepted (o : topt) (key : list byte) (h : hdr) : bool :=
  negb (match key with a :: b :: _ => (a =? dot)%N && (b =? dot)%N | _ => false end) &&
  match h_type h with TReg | TDir | TLink => true | TSym => o_sym o | TDev => o_dev o | TOther => false end.

(* The sorted keys with their headers that reach addChild. *)
Definition entries (o : topt) (arch : list hdr) : list (list (list byte) * hdr) :=
  flat_map (fun key => match collect arch key with
                       | Some h => if accepted o key h && negb (is_dot key) then [(split_sep key, h)] else []
                       | None => []
                       end)
           (sorted_set (map (fun h => clean (h_name h)) arch)).

Definition default_root : hdr := Hdr [dot; sep] TDir [] 0.

(* New (fs.go:37-99). *)
Definition tar_new (o : topt) (arch : list hdr) : tnode :=
  let root := match collect arch [dot] with Some h => h | None => default_root end in
  fold_left (fun t e => add_child (fst e) (snd e) t) (entries o arch) (NDir (Some root) [] []).

(* The entry at a path of elements. *)
Fixpoint tfind (t : tnode) (p : list (list byte)) : option tnode :=
  match p with
  | [] => Some t
  | c :: p => match t with
              | NDir _ files _ => match get c files with Some n => tfind n p | None => None end
              | _ => None
              end
  end.

(* ReadDir(-1) on a fresh handle (entdir.go:294-319): the headers listed, None when a nil
   header is dereferenced. *)
Definition oref_header (files : list (list byte * tnode)) (r : oref) : option hdr :=
  match r with OLive c => match get c files with Some n => header n | None => None end | OStale h => h end.
Fixpoint all_some {A} (l : list (option A)) : option (list A) :=
  match l with
  | [] => Some []
  | Some x :: l => match all_some l with Some r => Some (x :: r) | None => None end
  | None :: _ => None
  end.
Definition list_dir (d : tnode) : option (list hdr) :=
  match d with
  | NDir _ files ordered => all_some (map (oref_header files) (firstn (length files) ordered))
  | _ => None
  end.

(* ---- links ---- *)

(* Elements taken by repeated strings.Cut at the separator until nothing is left. *)
Definition text_comps (s : list byte) : list (list byte) :=
  match rev (split_sep s) with [] :: r => rev r | _ => split_sep s end.

Inductive terr := ENotExist | EEscape | ELoop | ENotDir | EInvalid.
(* A directory is named by its path from the root, so its parent pointer is the shorter path. *)
Inductive tres := ROk (p : list (list byte)) | RErr (e : terr) | RFuel.

Definition path_eqb (a b : list (list byte)) : bool :=
  if list_eq_dec (list_eq_dec N.eq_dec) a b then true else false.

(* openChildResolve (:116-195). [cur] is currentDir, [ent] currentDirent, [budget] the
   symlinks still allowed, [fuel] bounds the steps and the nesting of hard links. *)
Fixpoint resolve_loop (fuel : nat) (t : tnode) (rooted_ : bool) (sub : list (list byte)) (skip : bool)
    (cur ent rest : list (list byte)) (budget : nat) : tres :=
  match rest with
  | [] => ROk ent
  | c :: rest =>
      match fuel with
      | O => RFuel
      | S fuel =>
          let last := match rest with [] => true | _ => false end in
          if is_dot c then ROk cur
          else if is_dotdot c then
            if rooted_ && (path_eqb cur [] || path_eqb cur sub) then RErr EEscape
            else if path_eqb cur [] then RErr ENotExist
            else resolve_loop fuel t rooted_ sub skip (removelast cur) ent rest budget
          else
            let here := cur ++ [c] in
            match tfind t here with
            | None => RErr ENotExist
            | Some n =>
                match n with
                | NSym h =>
                    if negb last || negb skip then
                      match budget with
                      | O => RErr ELoop
                      | S budget =>
                          let target := clean (h_link h) in
                          if rooted target then RErr EEscape
                          else resolve_loop fuel t rooted_ sub skip cur here (text_comps target ++ rest) budget
                      end
                    else ROk here
                | NDir _ _ _ => if last then ROk here else resolve_loop fuel t rooted_ sub skip here here rest budget
                | NHard h =>
                    if last then ROk here
                    else
                      match (if is_dot (clean (h_link h)) then ROk []
                             else resolve_loop fuel t rooted_ sub false [] [] (text_comps (clean (h_link h))) 40) with
                      | ROk q =>
                          match tfind t q with
                          | Some (NDir _ _ _) => resolve_loop fuel t rooted_ sub skip q here rest budget
                          | _ => RErr ENotDir
                          end
                      | r => r
                      end
                | NFile _ => if last then ROk here else RErr ENotDir
                end
            end
      end
  end.

(* openChild (:109-114). *)
Definition open_child (fuel : nat) (t : tnode) (rooted_ : bool) (sub start : list (list byte)) (name : list byte) (skip : bool) : tres :=
  if is_dot name then ROk start else resolve_loop fuel t rooted_ sub skip start start (text_comps name) 40.

(* fs.ValidPath. *)
Definition valid_path (name : list byte) : bool :=
  is_dot name || forallb (fun c => negb (is_empty c || is_dot c || is_dotdot c)) (split_sep name).

(* What findFile (fs.go:106-128) returns: an entry, or a hard link laid over its target. *)
Inductive found := FEnt (p : list (list byte)) (n : tnode) | FOver (h : hdr) (n : tnode) | FErr (e : terr) | FFuel.

Definition find_file (fuel : nat) (t : tnode) (rooted_ : bool) (sub : list (list byte)) (name : list byte) (skip : bool) : found :=
  if negb (valid_path name) then FErr EInvalid
  else
    match open_child fuel t rooted_ sub sub name skip with
    | RErr e => FErr e
    | RFuel => FFuel
    | ROk p =>
        match tfind t p with
        | None => FErr ENotExist
        | Some (NHard h) =>
            match open_child fuel t rooted_ sub [] (clean (h_link h)) false with
            | RErr e => FErr e
            | RFuel => FFuel
            | ROk q => match tfind t q with Some n => FOver h n | None => FErr ENotExist end
            end
        | Some n => FEnt p n
        end
    end.

(* Open (:130-136): what is read, and the header Stat reports. *)
Inductive opened := OpFile (data info : hdr) | OpDir (d : tnode) (info : option hdr) | OpErr (e : terr) | OpPanic | OpFuel.
Definition tar_open (fuel : nat) (t : tnode) (rooted_ : bool) (sub : list (list byte)) (name : list byte) : opened :=
  match find_file fuel t rooted_ sub name false with
  | FErr e => OpErr e
  | FFuel => OpFuel
  | FEnt _ (NFile h) => OpFile h h
  | FEnt _ (NDir h f o) => OpDir (NDir h f o) h
  | FEnt _ _ => OpPanic
  | FOver i (NFile h) => OpFile h i
  | FOver i (NDir h f o) => OpDir (NDir h f o) (Some i)
  | FOver _ _ => OpPanic
  end.

(* Lstat (:146-152); [None] of the inner option is a nil header, which panics. *)
Inductive lstated := LsInfo (h : hdr) | LsErr (e : terr) | LsPanic | LsFuel.
Definition tar_lstat (fuel : nat) (t : tnode) (rooted_ : bool) (sub : list (list byte)) (name : list byte) : lstated :=
  match find_file fuel t rooted_ sub name true with
  | FErr e => LsErr e
  | FFuel => LsFuel
  | FEnt _ n => match header n with Some h => LsInfo h | None => LsPanic end
  | FOver h _ => LsInfo h
  end.
