(* The overlay's masking state over strings: the SQLite store (vroot-adapter/overlayfs/
   metadatastore.go, metadatastore_sqlite.go) and the maps in memory (state.go). SQLite's TEXT
   comparison (BINARY collation) and || are taken to be bytewise. *)
From Verif Require Import Common ContentRange_Model PathLex_Model TempName_Model Overlay_Model.
Open Scope nat_scope.

(* cleanName (metadatastore.go:56-58): Clean of a rooted name always starts with '/'. *)
Definition trim_prefix (pre s : list byte) : list byte := if has_prefix pre s then skipn (length pre) s else s.
Definition clean_name (n : list byte) : list byte := trim_prefix [sep] (clean (sep :: n)).
(* parentName (metadatastore.go:63-69): what stands before the last '/', or nothing. *)
Definition parent_name (n : list byte) : list byte := join_sep (removelast (split_sep n)).
(* childName (state.go:358-366). *)
Definition child_name (d n : list byte) : list byte :=
  match d, n with [], _ => n | _, [] => d | _, _ => d ++ sep :: n end.

(* The table node: path is its primary key; the parent column is never read. *)
Record row := { r_path : list byte; r_wh : bool; r_op : bool }.
Definition table := list row.
Definition at_name (n : list byte) (r : row) : bool := bytes_eqb n (r_path r).
Definition update (n : list byte) (f : row -> row) (t : table) : table := map (fun r => if at_name n r then f r else r) t.
Definition upsert (n : list byte) (fresh : row) (f : row -> row) (t : table) : table :=
  if existsb (at_name n) t then update n f t else t ++ [fresh].

(* deleteSubtree (metadatastore_sqlite.go): path >= name||'/' AND path < name||'0'. *)
Definition in_range (n p : list byte) : bool :=
  match n with
  | [] => negb (bytes_eqb p [])
  | _ => bytes_leb (n ++ [sep]) p && negb (bytes_leb (n ++ [48%N]) p)
  end.
Definition delete_subtree (n : list byte) (t : table) : table := filter (fun r => negb (in_range n (r_path r))) t.
(* clearMark's second statement. *)
Definition delete_bare (n : list byte) (t : table) : table :=
  filter (fun r => negb (at_name n r && negb (r_wh r) && negb (r_op r))) t.

(* SetWhiteout, ClearWhiteout, SetOpaque, ClearOpaque (metadatastore_sqlite.go:163-207), each
   as the transaction it runs. *)
Definition st_set_wh (n0 : list byte) (t : table) : table :=
  let n := clean_name n0 in
  delete_subtree n (upsert n {| r_path := n; r_wh := true; r_op := false |} (fun r => {| r_path := r_path r; r_wh := true; r_op := false |}) t).
Definition st_clear_wh (n0 : list byte) (t : table) : table :=
  let n := clean_name n0 in delete_bare n (update n (fun r => {| r_path := r_path r; r_wh := false; r_op := r_op r |}) t).
Definition st_set_op (n0 : list byte) (t : table) : table :=
  let n := clean_name n0 in
  upsert n {| r_path := n; r_wh := false; r_op := true |} (fun r => {| r_path := r_path r; r_wh := r_wh r; r_op := true |}) t.
Definition st_clear_op (n0 : list byte) (t : table) : table :=
  let n := clean_name n0 in delete_bare n (update n (fun r => {| r_path := r_path r; r_wh := r_wh r; r_op := false |}) t).
(* Load (metadatastore_sqlite.go:132-160). *)
Definition load (t : table) : list (list byte) * list (list byte) :=
  (map r_path (filter r_wh t), map r_path (filter r_op t)).

(* A map[string]struct{}. *)
Definition memn (n : list byte) (l : list (list byte)) : bool := existsb (bytes_eqb n) l.
Definition add_name (n : list byte) (l : list (list byte)) : list (list byte) := if memn n l then l else n :: l.
Definition del_name (n : list byte) (l : list (list byte)) : list (list byte) := filter (fun m => negb (bytes_eqb n m)) l.

(* layerMask, seeded as newOverlayState does (state.go:48-51, 78-93). *)
Record mask := { m_wh : list (list byte); m_op : list (list byte) }.
Definition seed (names : list (list byte)) : list (list byte) := fold_left (fun l n => add_name (clean_name n) l) names [].
Definition new_mask (t : table) : mask := {| m_wh := seed (fst (load t)); m_op := seed (snd (load t)) |}.

(* The prefix test of maskedUnder and dropSubtree (state.go:165-169, 346-350). *)
Definition under (d n : list byte) : bool :=
  negb (bytes_eqb n d) && has_prefix (match d with [] => [] | _ => d ++ [sep] end) n.
Definition drop_subtree (n : list byte) (m : mask) : mask :=
  {| m_wh := filter (fun x => negb (under n x)) (m_wh m); m_op := filter (fun x => negb (under n x)) (m_op m) |}.

(* What the four mutators do to the maps (state.go:113-155). *)
Definition mk_set_wh (n : list byte) (m : mask) : mask :=
  drop_subtree n {| m_wh := add_name n (m_wh m); m_op := del_name n (m_op m) |}.
Definition mk_clear_wh (n : list byte) (m : mask) : mask := {| m_wh := del_name n (m_wh m); m_op := m_op m |}.
Definition mk_set_op (n : list byte) (m : mask) : mask := {| m_wh := m_wh m; m_op := add_name n (m_op m) |}.
Definition mk_clear_op (n : list byte) (m : mask) : mask := {| m_wh := m_wh m; m_op := del_name n (m_op m) |}.

(* A running overlay: the store's table and the maps. An action is given how many store
   transactions commit before one is reported failed; [None] is that failure, and [landed]
   says whether the failed transaction reached the disk all the same. *)
Record world := { disk : table; mem : mask }.
Definition act := world -> nat -> world * option nat.
Definition done : act := fun w k => (w, Some k).
Definition thn (a b : act) : act := fun w k => match a w k with (w', Some k') => b w' k' | r => r end.
Definition commit (landed : bool) (f : table -> table) (g : mask -> mask) : act := fun w k =>
  match k with
  | 0 => ({| disk := if landed then f (disk w) else disk w; mem := mem w |}, None)
  | S k' => ({| disk := f (disk w); mem := g (mem w) |}, Some k')
  end.

(* setWhiteout, clearWhiteout, setOpaque, clearOpaque (state.go:113-155). *)
Definition a_set_wh (b : bool) (n0 : list byte) : act := let n := clean_name n0 in commit b (st_set_wh n) (mk_set_wh n).
Definition a_clear_wh (b : bool) (n0 : list byte) : act := let n := clean_name n0 in commit b (st_clear_wh n) (mk_clear_wh n).
Definition a_set_op (b : bool) (n0 : list byte) : act := let n := clean_name n0 in commit b (st_set_op n) (mk_set_op n).
Definition a_clear_op (b : bool) (n0 : list byte) : act := let n := clean_name n0 in commit b (st_clear_op n) (mk_clear_op n).

(* marks and maskedUnder (state.go:100-105, 164-183). *)
Definition marks_of (m : mask) (n0 : list byte) : bool * bool := (memn (clean_name n0) (m_wh m), memn (clean_name n0) (m_op m)).
Definition names_under (d : list byte) (l : list (list byte)) : list (list byte) := isort bytes_leb (filter (under d) l).
Definition masked_under (m : mask) (d : list byte) : list (list byte) * list (list byte) := (names_under d (m_wh m), names_under d (m_op m)).

Fixpoint each (f : list byte -> act) (l : list (list byte)) : act :=
  match l with [] => done | n :: r => thn (f n) (each f r) end.

(* clearSubtree (state.go:192-212). *)
Definition a_clear_subtree (b : bool) (n0 : list byte) : act := fun w =>
  let n := clean_name n0 in
  let '(ws, os) := masked_under (mem w) n in
  thn (each (fun x w => if memn x (m_wh (mem w)) then a_clear_wh b x w else done w) (ws ++ [n]))
      (each (fun x w => if memn x (m_op (mem w)) then a_clear_op b x w else done w) (os ++ [n])) w.

(* renameSubtree (state.go:238-268). *)
Definition rebase_name (o n x : list byte) : list byte := child_name n (trim_prefix [sep] (trim_prefix o x)).
Definition a_rename_subtree (b : bool) (o0 n0 : list byte) : act := fun w =>
  let o := clean_name o0 in
  let n := clean_name n0 in
  let '(ws, os) := masked_under (mem w) o in
  thn (each (fun x => a_set_wh b (rebase_name o n x)) ws)
  (thn (each (fun x => a_set_op b (rebase_name o n x)) os)
  (thn (each (a_clear_wh b) ws) (each (a_clear_op b) os))) w.

(* What can happen to a running overlay: a mutator called with any name, or a restart, which
   keeps the table and builds the maps anew (state.go:76-93). *)
Inductive mcall :=
| MSetWh (n : list byte) | MClearWh (n : list byte) | MSetOp (n : list byte) | MClearOp (n : list byte)
| MClearSubtree (n : list byte) | MRenameSubtree (o n : list byte).
Inductive mevent := MCall (c : mcall) (commits : nat) (landed : bool) | MRestart.
Definition run_mcall (b : bool) (c : mcall) : act :=
  match c with
  | MSetWh n => a_set_wh b n
  | MClearWh n => a_clear_wh b n
  | MSetOp n => a_set_op b n
  | MClearOp n => a_clear_op b n
  | MClearSubtree n => a_clear_subtree b n
  | MRenameSubtree o n => a_rename_subtree b o n
  end.
(* An overlay opened over a table (state.go:76-93); a new store's is empty. *)
Definition opened (t : table) : world := {| disk := t; mem := new_mask t |}.
Definition mstep (w : world) (e : mevent) : world :=
  match e with MCall c k b => fst (run_mcall b c w k) | MRestart => opened (disk w) end.
Definition mrun (w : world) (es : list mevent) : world := fold_left mstep es w.

(* cutFrom over the layers' maps (state.go:287-306): the walk up by parentName. [fuel] bounds
   the walk; [None] is running out of it. *)
Definition nmarked (ms : list mask) (n : list byte) (self : bool) (i : nat) : bool :=
  match nth_error ms i with Some m => memn n (m_wh m) || (memn n (m_op m) && negb self) | None => false end.
Definition ncut_step (ms : list mask) (from cut : nat) (n : list byte) (self : bool) : nat :=
  match find (nmarked ms n self) (upto from cut) with Some i => i | None => cut end.
Fixpoint ncut_walk (fuel : nat) (ms : list mask) (from cut : nat) (n : list byte) (self : bool) : option nat :=
  match fuel with
  | 0 => None
  | S f =>
      let cut' := ncut_step ms from cut n self in
      match n with [] => Some cut' | _ => ncut_walk f ms from cut' (parent_name n) false end
  end.
Definition ncut_from (ms : list mask) (n : list byte) (from : nat) : option nat :=
  ncut_walk (S (length n)) ms from (length ms - 1) n true.
(* childCut and whiteoutAbove (state.go:311-332). *)
Definition nopaquei (ms : list mask) (n : list byte) (i : nat) : bool := match nth_error ms i with Some m => memn n (m_op m) | None => false end.
Definition nchild_cut (ms : list mask) (n : list byte) : option nat :=
  match ncut_from ms n 0 with
  | None => None
  | Some c => Some (match find (nopaquei ms n) (upto 0 c) with Some i => i | None => c end)
  end.
Definition nwhiteout_above (ms : list mask) (i : nat) (n : list byte) : bool := existsb (fun m => memn n (m_wh m)) (firstn i ms).
