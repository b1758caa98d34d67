(* What building an overlay has to do, said of entries, tables and marks (C86). *)
From Verif Require Import Common ContentRange_Model Stack_Model.
From Verif Require Masks_Model.
Open Scope nat_scope.

(* Nothing fails. *)
Definition quiet (fs : faults) : Prop := Forall (eq None) fs.
(* None of the failures says that something is missing. *)
Fixpoint says_missing (e : err) : Prop := match e with ENotExist => True | EJoin a b => says_missing a \/ says_missing b | _ => False end.
Definition nothing_missing (fs : faults) : Prop := forall e, In (Some e) fs -> ~ says_missing e.

(* Where a name of a layer's root leads. *)
Inductive leads (r : root) : name -> node -> Prop :=
  | leads_here n x : In (n, x) r -> (forall t, x <> Link t) -> leads r n x
  | leads_on n t x : In (n, Link t) r -> leads r t x -> leads r n x.
Definition absent (r : root) (n : name) : Prop := forall x, ~ In (n, x) r.
Definition proper_root (r : root) : Prop := NoDup (map fst r).
Definition a_directory (r : root) (n : name) : Prop := exists es, leads r n (Dir es).
Definition a_file (r : root) (n : name) : Prop := exists c, leads r n (File c).
(* Everything of [r] stays and only empty directories are added, under names that were free. *)
Definition grown (r r' : root) (ns : list name) : Prop :=
  proper_root r' /\
  exists more, r' = r ++ more /\ forall n x, In (n, x) more -> x = Dir [] /\ In n ns /\ absent r n.
(* "merged", "work" *)
Definition the_two : list name := [[109; 101; 114; 103; 101; 100]; [119; 111; 114; 107]]%N.
Definition the_work : name := [119; 111; 114; 107]%N.

(* A database whose version row says [v]: "version" is a key of schema_info. *)
Definition key : list byte := [118; 101; 114; 115; 105; 111; 110]%N.
Definition one : list byte := [49]%N.
Definition says (d : db) (v : list byte) : Prop := exists kvs, db_info d = Some (true, kvs) /\ In (key, v) kvs.
Definition proper_db (d : db) : Prop := forall b kvs, db_info d = Some (b, kvs) -> NoDup (map fst kvs).
Definition rows (d : db) : Masks_Model.table := match db_node d with Some (_, t) => t | None => [] end.
(* The schema this package writes. *)
Definition ours (d : db) : Prop := db_node d <> None /\ db_index d = true /\ says d one.
(* [d'] is [d] with the schema: what was recorded in [d] is still recorded, and nothing else is. *)
Definition finished (d d' : db) : Prop :=
  rows d' = rows d /\ db_other d' = db_other d /\ says d' one /\ db_node d' <> None /\ db_index d' = true /\
  forall k v, k <> key ->
    ((exists b kvs, db_info d' = Some (b, kvs) /\ In (k, v) kvs) <-> (exists b kvs, db_info d = Some (b, kvs) /\ In (k, v) kvs)).

Definition proper_file (f : option dbfile) : Prop := forall d, f = Some (Database d) -> proper_db d.
(* What a store opened for writing makes of what stood there. *)
Definition brought_up (f : option dbfile) (d : db) : Prop :=
  match f with
  | None => rows d = [] /\ db_other d = [] /\ ours d
  | Some NotADatabase => False
  | Some (Database d0) => finished d0 d /\ (says d0 one \/ forall v, ~ says d0 v)
  end.

(* A layer the overlay can read: it keeps no marks, or its store has the table of them. *)
Definition readable (s : source) : Prop := match so_store s with None => True | Some d => db_node d <> None end.
(* What a top has to be. *)
Definition a_top (s : source) : Prop := so_canonical s = true /\ so_store s <> None.
(* The same source but for what its root holds. *)
Definition same_but_root (s s' : source) : Prop :=
  so_frozen s' = so_frozen s /\ so_canonical s' = so_canonical s /\ so_store s' = so_store s /\
  so_read_only s' = so_read_only s /\ so_store_closed s' = so_store_closed s /\ so_fs_closed s' = so_fs_closed s.
(* Only the directory [n] of the root may differ, and only by having lost entries. *)
Definition thinned (r r' : root) (n : name) : Prop :=
  (forall m x, m <> n -> (In (m, x) r' <-> In (m, x) r)) /\
  forall x', In (n, x') r' -> In (n, x') r \/ exists es es', In (n, Dir es) r /\ x' = Dir es' /\ forall e, In e es' -> In e es.

(* The marks of one layer. *)
Definition rows_clean (d : db) : Prop := forall x, In x (rows d) -> Masks_Model.clean_name (Masks_Model.r_path x) = Masks_Model.r_path x.
Definition marks_of (s : source) (m : Masks_Model.mask) : Prop :=
  match so_store s with
  | None => Masks_Model.m_wh m = [] /\ Masks_Model.m_op m = []
  | Some d => forall n,
      (In n (Masks_Model.m_wh m) <-> exists x, In x (rows d) /\ Masks_Model.r_path x = n /\ Masks_Model.r_wh x = true) /\
      (In n (Masks_Model.m_op m) <-> exists x, In x (rows d) /\ Masks_Model.r_path x = n /\ Masks_Model.r_op x = true)
  end.

(* Closed once more, store and fs. *)
Definition closed_once (s s' : source) : Prop :=
  so_root s' = so_root s /\ so_store s' = so_store s /\ so_fs_closed s' = S (so_fs_closed s) /\
  so_store_closed s' = match so_store s with None => so_store_closed s | Some _ => S (so_store_closed s) end.
(* How many calls closing them takes. *)
Definition close_calls (ls : list source) : nat :=
  fold_right (fun s k => (match so_store s with None => 1 | Some _ => 2 end) + k) 0 ls.
