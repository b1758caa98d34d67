(* Building an overlay (vroot-adapter/overlayfs/datasource.go, metadatastore_sqlite.go:20-158,
   state.go:60-94, fs.go:85-145): the layout of a data source, its store, stacking the layers,
   emptying "work/", and Close.

   A layer's fs is its root directory. A link matters only where "merged" and "work" are looked up,
   in the root, so a link leads to another entry of the root. Each call on the backend, on SQLite
   and on a store takes one fault from a list; when the list is empty nothing fails. *)
From Verif Require Import Common ContentRange_Model.
From Verif Require Masks_Model.
Open Scope nat_scope.

(* The errors told apart here. *)
Inductive err :=
  | ENotExist | EExist | EROFS | EPermission | ENotDir | ELoop
  | ENotCanonical            (* datasource.go:16 *)
  | ETopReadOnly             (* fs.go:21 *)
  | EInvalidLower (i : nat)  (* fs.ErrInvalid, state.go:69 *)
  | ESchema                  (* no version, another version, a table of another shape *)
  | EOther (code : nat)
  | EJoin (a b : err).       (* errors.Join *)
Definition err_eqb (a b : err) : bool :=
  match a, b with
  | ENotExist, ENotExist | EExist, EExist | EROFS, EROFS | EPermission, EPermission | ENotDir, ENotDir
  | ELoop, ELoop | ENotCanonical, ENotCanonical | ETopReadOnly, ETopReadOnly | ESchema, ESchema => true
  | EInvalidLower i, EInvalidLower j | EOther i, EOther j => Nat.eqb i j
  | _, _ => false
  end.
(* errors.Is *)
Fixpoint is (t e : err) : bool := match e with EJoin a b => is t a || is t b | _ => err_eqb t e end.
(* errors.Join of two, nil dropped. *)
Definition join (a b : option err) : option err :=
  match a, b with Some x, Some y => Some (EJoin x y) | Some x, None | None, Some x => Some x | None, None => None end.

Definition faults := list (option err).
Definition now (fs : faults) : option err := match fs with f :: _ => f | [] => None end.
Definition later (fs : faults) : faults := match fs with _ :: r => r | [] => [] end.

(* A layer's fs. *)
Definition name := list byte.
Inductive node := Dir (es : list (name * node)) | File (content : list byte) | Link (to : name).
Definition root := list (name * node).
Definition merged : name := [109; 101; 114; 103; 101; 100]%N.
Definition work : name := [119; 111; 114; 107]%N.
Fixpoint entry (n : name) (r : root) : option node :=
  match r with [] => None | (m, x) :: r' => if bytes_eqb n m then Some x else entry n r' end.
Fixpoint put (n : name) (x : node) (r : root) : root :=
  match r with [] => [] | (m, y) :: r' => if bytes_eqb n m then (m, x) :: r' else (m, y) :: put n x r' end.
Definition del (n : name) (r : root) : root := filter (fun e => negb (bytes_eqb n (fst e))) r.
(* Following links; more of them than the root has entries go round in a circle. *)
Fixpoint follow (fuel : nat) (r : root) (n : name) : err + (name * node) :=
  match entry n r with
  | None => inl ENotExist
  | Some (Link t) => match fuel with O => inl ELoop | S f => follow f r t end
  | Some x => inr (n, x)
  end.
Definition stat (r : root) (n : name) : err + (name * node) := follow (length r) r n.
(* Mkdir of a name in the root; [frozen]: the backend refuses writes. *)
Definition mkdir (frozen : bool) (r : root) (n : name) : root * option err :=
  if frozen then (r, Some EROFS)
  else match entry n r with Some _ => (r, Some EExist) | None => (r ++ [(n, Dir [])], None) end.
(* RemoveAll of an entry of a directory of the root; what is missing is removed already. *)
Definition remove_all (frozen : bool) (r : root) (d e : name) : root * option err :=
  if frozen then (r, Some EROFS)
  else match stat r d with
  | inl ENotExist => (r, None)
  | inl x => (r, Some x)
  | inr (k, Dir es) => (put k (Dir (del e es)) r, None)
  | inr _ => (r, Some ENotDir)
  end.

(* ensureCanonical (datasource.go:198-218), one name of its loop and the loop. *)
Definition ensure_one (frozen : bool) (r : root) (fs : faults) (n : name) : root * faults * option err :=
  let answer := match now fs with Some e => inl e | None => stat r n end in
  let fs1 := later fs in
  match answer with
  | inr (_, Dir _) => (r, fs1, None)
  | inr _ => (r, fs1, Some ENotCanonical)
  | inl e =>
      if is ENotExist e then
        match now fs1 with
        | Some e => (r, later fs1, Some e)
        | None => let (r', e') := mkdir frozen r n in (r', later fs1, e')
        end
      else (r, fs1, Some e)
  end.
Fixpoint ensure_each (frozen : bool) (r : root) (fs : faults) (ns : list name) : root * faults * option err :=
  match ns with
  | [] => (r, fs, None)
  | n :: ns' =>
      match ensure_one frozen r fs n with
      | (r', fs', None) => ensure_each frozen r' fs' ns'
      | x => x
      end
  end.
Definition ensure_canonical (frozen : bool) (r : root) (fs : faults) : root * faults * option err :=
  ensure_each frozen r fs [merged; work].

(* The database: the table node and whether it has a column parent, the index on it, the table
   schema_info and whether it has its two columns, and the names of other tables. *)
Record db := Db { db_node : option (bool * Masks_Model.table); db_index : bool;
                  db_info : option (bool * list (list byte * list byte)); db_other : list name }.
Definition no_tables : db := Db None false None [].
Definition k_version : list byte := [118; 101; 114; 115; 105; 111; 110]%N.
Definition schema_version : list byte := [49]%N.
Fixpoint value_of (k : list byte) (kvs : list (list byte * list byte)) : option (list byte) :=
  match kvs with [] => None | (k', v) :: r => if bytes_eqb k k' then Some v else value_of k r end.
(* The statements of initSchema (metadatastore_sqlite.go:23-38, 108-122). *)
Definition ddl_node (d : db) : db + err :=
  match db_node d with None => inl (Db (Some (true, [])) (db_index d) (db_info d) (db_other d)) | Some _ => inl d end.
Definition ddl_index (d : db) : db + err :=
  if db_index d then inl d
  else match db_node d with
  | Some (true, _) => inl (Db (db_node d) true (db_info d) (db_other d))
  | _ => inr ESchema
  end.
Definition ddl_info (d : db) : db + err :=
  match db_info d with None => inl (Db (db_node d) (db_index d) (Some (true, [])) (db_other d)) | Some _ => inl d end.
Definition insert_version (d : db) : db + err :=
  match db_info d with
  | Some (true, kvs) =>
      match value_of k_version kvs with
      | Some _ => inl d
      | None => inl (Db (db_node d) (db_index d) (Some (true, kvs ++ [(k_version, schema_version)])) (db_other d))
      end
  | _ => inr ESchema
  end.
(* checkSchemaVersion (metadatastore_sqlite.go:90-100). *)
Definition check_version (d : db) : db + err :=
  match db_info d with
  | Some (true, kvs) =>
      match value_of k_version kvs with
      | Some v => if bytes_eqb v schema_version then inl d else inr ESchema
      | None => inr ESchema
      end
  | _ => inr ESchema
  end.
Fixpoint statements (d : db) (fs : faults) (ss : list (db -> db + err)) : faults * (db + err) :=
  match ss with
  | [] => (fs, inl d)
  | s :: ss' =>
      match now fs with
      | Some e => (later fs, inr e)
      | None => match s d with inl d' => statements d' (later fs) ss' | inr e => (later fs, inr e) end
      end
  end.
(* initSchema (metadatastore_sqlite.go:102-128): one transaction. A failing Commit may have landed. *)
Definition init_schema (landed : bool) (d : db) (fs : faults) : db * faults * option err :=
  match now fs with
  | Some e => (d, later fs, Some e)
  | None =>
      match statements d (later fs) [ddl_node; ddl_index; ddl_info; insert_version; check_version] with
      | (fs', inr e) => (d, later fs', join (Some e) (now fs'))
      | (fs', inl d') =>
          match now fs' with
          | None => (d', later fs', None)
          | Some e => ((if landed then d' else d), later fs', Some e)
          end
      end
  end.

(* What stands at "meta.sqlite3". *)
Inductive dbfile := NotADatabase | Database (d : db).
(* sqlvfs.Open (internal/sqlvfs/open.go:29-33) creates what is absent; OpenReadOnly (open.go:43-45)
   does not. *)
Definition open_writable (frozen : bool) (f : option dbfile) (fs : faults) : faults * (db + err) :=
  match now fs with
  | Some e => (later fs, inr e)
  | None => (later fs,
      if frozen then inr EROFS
      else match f with None => inl no_tables | Some (Database d) => inl d | Some NotADatabase => inr (EOther 0) end)
  end.
Definition open_frozen (f : option dbfile) (fs : faults) : faults * (db + err) :=
  match now fs with
  | Some e => (later fs, inr e)
  | None => (later fs, match f with None => inr ENotExist | Some (Database d) => inl d | Some NotADatabase => inr (EOther 0) end)
  end.
(* NewMetadataStoreSQLite (metadatastore_sqlite.go:56-69); the close of a database whose schema was
   refused takes a fault too. *)
Definition store_writable (landed frozen : bool) (f : option dbfile) (fs : faults) : option dbfile * faults * (db + err) :=
  match open_writable frozen f fs with
  | (fs1, inr e) => (f, fs1, inr e)
  | (fs1, inl d) =>
      match init_schema landed d fs1 with
      | (d', fs2, None) => (Some (Database d'), fs2, inl d')
      | (d', fs2, Some e) => (Some (Database d'), later fs2, inr (match now fs2 with Some x => EJoin e x | None => e end))
      end
  end.
(* newMetadataStoreSQLiteReadOnly (metadatastore_sqlite.go:76-88). *)
Definition store_frozen (f : option dbfile) (fs : faults) : faults * (db + err) :=
  match open_frozen f fs with
  | (fs1, inr e) => (fs1, inr e)
  | (fs1, inl d) =>
      match statements d fs1 [check_version] with
      | (fs2, inl _) => (fs2, inl d)
      | (fs2, inr e) => (later fs2, inr (match now fs2 with Some x => EJoin e x | None => e end))
      end
  end.
(* openStore (datasource.go:224-237). *)
Definition open_store (landed frozen : bool) (f : option dbfile) (fs : faults) : option dbfile * faults * ((db * bool) + err) :=
  match store_writable landed frozen f fs with
  | (f', fs1, inl d) => (f', fs1, inl (d, false))
  | (f', fs1, inr e) =>
      if is EROFS e || is EPermission e then
        match store_frozen f' fs1 with
        | (fs2, inl d) => (f', fs2, inl (d, true))
        | (fs2, inr e') => (f', fs2, inr (EJoin e e'))
        end
      else (f', fs1, inr e)
  end.

(* DataSource (datasource.go:52-60); the store is the database it answers from, and the two counts
   are how often the store and the fs were closed. *)
Record source := Source { so_root : root; so_frozen : bool; so_canonical : bool; so_store : option db; so_read_only : bool;
                          so_store_closed : nat; so_fs_closed : nat }.
(* NewDataSource, NewDataSourceCanonical (datasource.go:64-89). *)
Definition new_plain (frozen : bool) (r : root) : source := Source r frozen false None false 0 0.
Definition new_canonical (landed frozen : bool) (r : root) (f : option dbfile) (fs : faults)
  : root * option dbfile * faults * (source + err) :=
  match ensure_canonical frozen r fs with
  | (r', fs1, Some e) => (r', f, fs1, inr e)
  | (r', fs1, None) =>
      match open_store landed frozen f fs1 with
      | (f', fs2, inr e) => (r', f', fs2, inr e)
      | (f', fs2, inl (d, ro)) => (r', f', fs2, inl (Source r' frozen true (Some d) ro 0 0))
      end
  end.

(* MetadataStore.Load (metadatastore_sqlite.go:131-157). *)
Definition load (d : db) (fs : faults) : faults * ((list name * list name) + err) :=
  match now fs with
  | Some e => (later fs, inr e)
  | None => (later fs, match db_node d with Some (_, t) => inl (Masks_Model.load t) | None => inr ESchema end)
  end.
Definition no_marks : Masks_Model.mask := {| Masks_Model.m_wh := []; Masks_Model.m_op := [] |}.
(* newOverlayState (state.go:60-94): the checks, then one mask per layer. *)
Fixpoint first_nil {A} (i : nat) (l : list (option A)) : option nat :=
  match l with [] => None | None :: _ => Some i | Some _ :: r => first_nil (S i) r end.
Fixpoint somes {A} (l : list (option A)) : list A :=
  match l with [] => [] | None :: r => somes r | Some x :: r => x :: somes r end.
Fixpoint seed_each (ls : list source) (fs : faults) : faults * (list Masks_Model.mask + err) :=
  match ls with
  | [] => (fs, inl [])
  | s :: r =>
      match so_store s with
      | None => match seed_each r fs with (fs', inl ms) => (fs', inl (no_marks :: ms)) | x => x end
      | Some d =>
          match load d fs with
          | (fs', inr e) => (fs', inr e)
          | (fs', inl (ws, os)) =>
              match seed_each r fs' with
              | (fs2, inl ms) => (fs2, inl ({| Masks_Model.m_wh := Masks_Model.seed ws; Masks_Model.m_op := Masks_Model.seed os |} :: ms))
              | x => x
              end
          end
      end
  end.
Definition new_state (top : option source) (lowers : list (option source)) (fs : faults) : faults * ((list source * list Masks_Model.mask) + err) :=
  match top with
  | None => (fs, inr ENotCanonical)
  | Some t =>
      if negb (so_canonical t) || match so_store t with None => true | Some _ => false end then (fs, inr ENotCanonical)
      else match first_nil 0 lowers with
      | Some i => (fs, inr (EInvalidLower i))
      | None =>
          let ls := t :: somes lowers in
          match seed_each ls fs with
          | (fs', inl ms) => (fs', inl (ls, ms))
          | (fs', inr e) => (fs', inr e)
          end
      end
  end.
(* sweepWork (datasource.go:179-196). *)
Fixpoint sweep_each (frozen : bool) (r : root) (fs : faults) (es : list name) : root * faults * option err :=
  match es with
  | [] => (r, fs, None)
  | e :: es' =>
      match now fs with
      | Some x => (r, later fs, Some x)
      | None =>
          match remove_all frozen r work e with
          | (r', None) => sweep_each frozen r' (later fs) es'
          | (r', Some x) => (r', later fs, Some x)
          end
      end
  end.
Definition sweep_work (s : source) (fs : faults) : root * faults * option err :=
  if negb (so_canonical s) then (so_root s, fs, None)
  else
    let answer := match now fs with Some e => inl e | None => stat (so_root s) work end in
    match answer with
    | inl e => (so_root s, later fs, if is ENotExist e then None else Some e)
    | inr (_, Dir es) => sweep_each (so_frozen s) (so_root s) (later fs) (map fst es)
    | inr _ => (so_root s, later fs, Some ENotDir)
    end.
Definition with_root (s : source) (r : root) : source :=
  Source r (so_frozen s) (so_canonical s) (so_store s) (so_read_only s) (so_store_closed s) (so_fs_closed s).

(* Fs (fs.go:49-66), as far as building and closing it goes. *)
Record overlay := Overlay { ov_layers : list source; ov_masks : list Masks_Model.mask; ov_owner : bool }.
(* New (fs.go:90-114). The layers after it come back beside the answer. *)
Definition new_overlay (top : option source) (lowers : list (option source)) (fs : faults) : list (option source) * (overlay + err) :=
  match new_state top lowers fs with
  | (_, inr e) => (top :: lowers, inr e)
  | (fs1, inl (ls, ms)) =>
      match top with
      | None => (top :: lowers, inr ENotCanonical)
      | Some t =>
          if so_read_only t then (top :: lowers, inr ETopReadOnly)
          else match sweep_work t fs1 with
          | (r, _, Some e) => (Some (with_root t r) :: lowers, inr e)
          | (r, _, None) => (Some (with_root t r) :: lowers, inl (Overlay (with_root t r :: somes lowers) ms true))
          end
      end
  end.
(* Fs.OpenRoot (fs.go): a view shares the layers and does not own them. *)
Definition sub_view (o : overlay) : overlay := Overlay (ov_layers o) (ov_masks o) false.
(* DataSource.Close (datasource.go:107-113). *)
Definition close_source (s : source) (fs : faults) : source * faults * option err :=
  match so_store s with
  | None => (Source (so_root s) (so_frozen s) (so_canonical s) (so_store s) (so_read_only s) (so_store_closed s) (S (so_fs_closed s)),
             later fs, now fs)
  | Some _ => (Source (so_root s) (so_frozen s) (so_canonical s) (so_store s) (so_read_only s) (S (so_store_closed s)) (S (so_fs_closed s)),
               later (later fs), join (now fs) (now (later fs)))
  end.
(* Close (fs.go:134-145). *)
Fixpoint close_each (ls : list source) (fs : faults) : list source * faults * option err :=
  match ls with
  | [] => ([], fs, None)
  | s :: r =>
      let '(s', fs1, e) := close_source s fs in
      let '(r', fs2, e') := close_each r fs1 in
      (s' :: r', fs2, join e e')
  end.
Definition close_overlay (o : overlay) (fs : faults) : list source * option err :=
  if ov_owner o then let '(ls, _, e) := close_each (ov_layers o) fs in (ls, e) else (ov_layers o, None).
