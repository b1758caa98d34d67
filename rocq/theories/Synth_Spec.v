(* What synthfs's tree should look like, said without the code's parent pointers. *)
From Verif Require Import Common ContentRange_Model PathLex_Model PathLex_Proofs Synth_Model.
Open Scope nat_scope.

(* n is d or something listed below d. *)
Inductive reach (h : heap) (d : nat) : nat -> Prop :=
| reach_self : reach h d d
| reach_step : forall e nm n, reach h d e -> lookup h e nm = Some n -> reach h d n.

Definition is_dir_at (h : heap) (d : nat) : Prop := exists m p es, nodes h d = Some (NDir m p es).

(* The tree invariant: names unique per directory; every listed node exists and carries the
   name it is listed under; a listed directory's parent is the one listing it; nothing is
   listed twice. *)
Record tree_inv (h : heap) : Prop := {
  t_fresh : forall n, next h <= n -> nodes h n = None;
  t_keys : forall d m p es, nodes h d = Some (NDir m p es) -> NoDup (map fst es);
  t_ent : forall d nm n, lookup h d nm = Some n -> exists x, nodes h n = Some x /\ m_name (meta_of x) = nm /\ (is_dirnode x = true -> parent_of h n = Some d);
  t_once : forall d nm d' nm' n, lookup h d nm = Some n -> lookup h d' nm' = Some n -> d = d' /\ nm = nm' }.

(* No directory contains itself. *)
Definition acyclic (h : heap) : Prop := forall d nm e, lookup h d nm = Some e -> ~ reach h e d.

(* What a listing shows (handle_dir.go, node.go:122-130): the names the entries carry. *)
Definition listing (h : heap) (d : nat) : list (list byte) :=
  map (fun e => match nodes h (snd e) with Some x => m_name (meta_of x) | None => [] end) (entries h d).

Definition good_names (h : heap) : Prop := forall d nm n, lookup h d nm = Some n -> proper nm.

(* The node at a path of names below d, no links followed. *)
Fixpoint at_path (h : heap) (d : nat) (l : list (list byte)) : option nat :=
  match l with
  | [] => Some d
  | c :: r => match lookup h d c with Some e => at_path h e r | None => None end
  end.

(* What there is to see of a node besides its entries, its name and who holds it open. *)
Inductive look := LookDir (mode : N) | LookFile (mode : N) (view : nat) | LookLink (mode : N) (target : list byte).
Definition look_of (x : node) : look :=
  match x with
  | NDir m _ _ => LookDir (m_mode m)
  | NFile m v => LookFile (m_mode m) v
  | NLink m t => LookLink (m_mode m) t
  end.
Definition seen (h : heap) (n : nat) : option look := option_map look_of (nodes h n).
(* Every node that was there still shows the same. *)
Definition same_seen (h h' : heap) : Prop := forall n, nodes h n <> None -> seen h' n = seen h n.
(* The same by path. *)
Definition seen_at (h : heap) (d : nat) (l : list (list byte)) : option look :=
  match at_path h d l with Some n => seen h n | None => None end.

Definition prefix_of (a l : list (list byte)) : Prop := exists t, l = a ++ t.

(* Path resolution as POSIX has it, within a root b: [namei h b follow k cur l f] walks the
   elements l from cur and arrives at f after following k links. Going up is to the directory
   that lists the current one, and never above b. *)
Inductive namei (h : heap) (b : nat) (follow : bool) : nat -> nat -> list (list byte) -> found -> Prop :=
| nm_here : forall cur, namei h b follow 0 cur [] {| f_node := cur; f_at := None |}
| nm_skip : forall k cur c l f, c = [] \/ c = [dot] -> namei h b follow k cur l f -> namei h b follow k cur (c :: l) f
| nm_up : forall k cur d nm l f, cur <> b -> lookup h d nm = Some cur -> namei h b follow k d l f -> namei h b follow k cur ([dot; dot] :: l) f
| nm_link : forall k cur c l n m t f, c <> [] -> c <> [dot] -> c <> [dot; dot] -> lookup h cur c = Some n -> nodes h n = Some (NLink m t) -> rooted t = false ->
    (nothing_left l = false \/ follow = true) ->
    namei h b follow k cur (split_sep t ++ (if nothing_left l then [] else l)) f -> namei h b follow (S k) cur (c :: l) f
| nm_last : forall cur c l n x, c <> [] -> c <> [dot] -> c <> [dot; dot] -> lookup h cur c = Some n -> nodes h n = Some x -> nothing_left l = true ->
    (forall m t, x = NLink m t -> follow = false) ->
    namei h b follow 0 cur (c :: l) {| f_node := n; f_at := Some (cur, c) |}
| nm_down : forall k cur c l n m p es f, c <> [] -> c <> [dot] -> c <> [dot; dot] -> lookup h cur c = Some n -> nodes h n = Some (NDir m p es) -> nothing_left l = false ->
    namei h b follow k n l f -> namei h b follow k cur (c :: l) f.

(* A resolved node is inside b, and so is the place it was found at. *)
Definition found_in (h : heap) (b : nat) (f : found) : Prop :=
  reach h b (f_node f) /\ forall d nm, f_at f = Some (d, nm) -> reach h b d /\ lookup h d nm = Some (f_node f).

(* The directories and names of a rename, and the node it moves. *)
Definition rename_ends (h : heap) (b : nat) (old new : list byte) (od : nat) (ob : list byte) (n nd : nat) (nb : list byte) : Prop :=
  resolve_parent h b old = Ok (od, ob) /\ lookup h od ob = Some n /\ resolve_parent h b new = Ok (nd, nb).
(* The rename of a directory to a place inside itself. *)
Definition moves_below (h : heap) (b : nat) (old new : list byte) : Prop :=
  exists od ob n nd nb, rename_ends h b old new od ob n nd nb /\ reach h n nd.
Definition sane_op (st : sstate) (o : sop) : Prop :=
  match o with
  | ORename i old new => forall b, nth_error (st_roots st) i = Some b -> ~ moves_below (st_heap st) b old new
  | _ => True
  end.
(* A history without such renames. *)
Fixpoint sane (busy : bool) (st : sstate) (os : list sop) : Prop :=
  match os with
  | [] => True
  | o :: os => sane_op st o /\ match step busy st o with Some (st1, _) => sane busy st1 os | None => True end
  end.

(* Sources whose listings are those of a file system: proper names, each once. *)
Inductive source_ok : source -> Prop :=
| so_dir : forall mode cs lists, NoDup (map fst cs) -> Forall (fun c => proper (fst c) /\ source_ok (snd c)) cs -> source_ok (SDir mode cs lists)
| so_file : forall mode t opens, source_ok (SFile mode t opens)
| so_link : forall mode t reads, source_ok (SLink mode t reads)
| so_fail : source_ok SFail.
Definition source_op_ok (o : sop) : Prop := match o with OAddFS _ _ s _ _ => source_ok s | _ => True end.

(* Calls that name one entry. *)
Definition named_by (o : sop) : option (nat * list byte) :=
  match o with
  | OMkdir i n _ | OSymlink i _ n _ | OLink i _ n | ORemove i n | ORemoveAll i n | OOpen i n _ => Some (i, n)
  | _ => None
  end.
(* Seen from a, the two heaps show the same at path l. *)
Definition same_at (h h' : heap) (a : nat) (l : list (list byte)) : Prop := at_path h' a l = at_path h a l /\ seen_at h' a l = seen_at h a l.
(* Seen from a, everything that was there is still there. *)
Definition keeps_all (h h' : heap) (a : nat) : Prop := forall l, at_path h a l <> None -> same_at h h' a l.

(* The entry base of d is new in h' and shows k. *)
Definition entered (h h' : heap) (d : nat) (base : list byte) (k : look) : Prop :=
  lookup h d base = None /\ exists n, nodes h n = None /\ lookup h' d base = Some n /\ seen h' n = Some k /\ entries h' n = [].
(* What a call that succeeds does to the entry base of d it names. *)
Definition effect (h : heap) (b : nat) (o : sop) (h' : heap) (d : nat) (base : list byte) : Prop :=
  match o with
  | OMkdir _ _ mode => entered h h' d base (LookDir mode)
  | OSymlink _ t _ mode => entered h h' d base (LookLink mode t)
  | OLink _ old _ => exists f mode v, resolve h b old true = Ok f /\ seen h (f_node f) = Some (LookFile mode v) /\ entered h h' d base (LookFile mode v)
  | ORemove _ _ => lookup h' d base = None /\ exists n, lookup h d base = Some n /\ entries h n = []
  | ORemoveAll _ _ => lookup h' d base = None
  | OOpen _ _ q => if o_create q then
                     match lookup h d base with
                     | None => entered h h' d base (LookFile (o_mode q) (next_view h)) /\ tag h' (next_view h) = o_tag q
                     | Some n => o_excl q = false /\ lookup h' d base = Some n
                     end
                   else lookup h' d base = lookup h d base
  | _ => True
  end.

(* A call that fails changes nothing, but for a create whose new view cannot be opened. *)
Definition half_created (o : sop) : Prop := match o with OOpen _ _ q => o_create q = true /\ o_opens q = false | _ => False end.

Definition set_mode (mode : N) (k : look) : look :=
  match k with LookDir _ => LookDir mode | LookFile _ v => LookFile mode v | LookLink _ t => LookLink mode t end.

(* Seen from a: the entry ob of od, with everything below it, is now the entry nb of nd; what
   is neither below the one nor the other is as before. *)
Definition moved (h h' : heap) (a od : nat) (ob : list byte) (n nd : nat) (nb : list byte) : Prop :=
  (forall l, (forall lo, at_path h a lo = Some od -> ~ prefix_of (lo ++ [ob]) l) -> (forall ln, at_path h a ln = Some nd -> ~ prefix_of (ln ++ [nb]) l) -> same_at h h' a l) /\
  (forall q, at_path h' n q = at_path h n q /\ seen_at h' n q = seen_at h n q) /\
  (forall lo ln, at_path h a lo = Some od -> at_path h a ln = Some nd ->
    at_path h' a ln = Some nd /\ (forall q, at_path h' a (ln ++ nb :: q) = at_path h a (lo ++ ob :: q)) /\ (lo ++ [ob] <> ln ++ [nb] -> forall q, at_path h' a (lo ++ ob :: q) = None)).

(* Views. *)
Definition view_of (h : heap) (k : nat) : option nat := match nodes h k with Some (NFile _ v) => Some v | _ => None end.
Definition listed (h : heap) (k : nat) : Prop := exists d nm, lookup h d nm = Some k.
(* A file's view is open exactly while the file is listed ([strict]; otherwise a file listed
   nowhere may also have been left open), no two files share one, and none is closed twice. *)
Record views_ok (strict : bool) (h : heap) : Prop := {
  v_file : forall k v, view_of h k = Some v -> v < next_view h /\ ((listed h k /\ closed h v = 0) \/ (~ listed h k /\ (strict = true -> closed h v = 1)));
  v_inj : forall k k' v, view_of h k = Some v -> view_of h k' = Some v -> k = k';
  v_once : forall v, closed h v <= 1;
  v_new : forall v, next_view h <= v -> closed h v = 0 }.
(* Calls other than Link and a rename of a name to itself; for [strict] also no answer Keep
   about an incoming directory where a file or link is. *)
Definition view_op (strict : bool) (st : sstate) (o : sop) : Prop :=
  match o with
  | OLink _ _ _ => False
  | ORename i old new => forall b od ob n nd nb, nth_error (st_roots st) i = Some b -> rename_ends (st_heap st) b old new od ob n nd nb -> (od, ob) <> (nd, nb)
  | OAddFS _ _ _ _ cb => strict = true -> forall p, cb p true (Some false) <> Some Keep
  | _ => True
  end.
Fixpoint view_ops (strict busy : bool) (st : sstate) (os : list sop) : Prop :=
  match os with
  | [] => True
  | o :: os => view_op strict st o /\ match step busy st o with Some (st1, _) => view_ops strict busy st1 os | None => True end
  end.

(* Ingestion: the part of a source at a path, and a node showing it. *)
Fixpoint sassoc (nm : list byte) (cs : list (list byte * source)) : option source :=
  match cs with [] => None | (k, s) :: cs => if bytes_eqb nm k then Some s else sassoc nm cs end.
Fixpoint source_at (s : source) (q : list (list byte)) : option source :=
  match q with
  | [] => Some s
  | c :: q => match s with SDir _ cs _ => match sassoc c cs with Some s' => source_at s' q | None => None end | _ => None end
  end.
Definition shows (h : heap) (n : nat) (s : source) : Prop :=
  match s with
  | SDir _ _ _ => is_dir_at h n
  | SFile mode t _ => exists v, v < next_view h /\ seen h n = Some (LookFile mode v) /\ tag h v = t
  | SLink mode t _ => seen h n = Some (LookLink mode t)
  | SFail => False
  end.
(* AddFuncs that never ask to replace something; AddFuncs that let everything in, keeping only
   directories under directories. *)
Definition gentle (cb : addfunc) : Prop := forall p inc e, cb p inc (Some e) <> Some Override.
Definition placing (cb : addfunc) : Prop := forall p inc ex, cb p inc ex <> Some Skip /\ (cb p inc ex = Some Keep -> ex = None \/ (inc = true /\ ex = Some true)).
(* The entry c of e is the one that path l from d leads to. *)
Definition at_cell (h : heap) (d : nat) (l : list (list byte)) (e : nat) (c : list byte) : Prop := exists l', l = l' ++ [c] /\ at_path h d l' = Some e.
(* n, listed as c in e, is not a directory but the source has a directory there, for which the
   AddFunc answers Keep. *)
Definition lost_to (cb : addfunc) (path : list (list byte)) (s : source) (h : heap) (d : nat) (pre : list (list byte)) (e : nat) (c : list byte) (n : nat) : Prop :=
  existing_dir h n = false /\ exists q m cs ls, source_at s q = Some (SDir m cs ls) /\ at_cell h d (pre ++ q) e c /\ cb (path ++ q) true (Some false) = Some Keep.
(* Where AddFS puts its source: at a directory itself, or at an entry of it. *)
Definition mount (h : heap) (b : nat) (name : list byte) (scaffold : N) : heap * sres (nat * list (list byte)) :=
  match normalize name with
  | Err e => (h, Err e)
  | Ok [] => (h, Ok (b, []))
  | Ok _ => match ensure_parents h b name scaffold with (h1, Ok (d, base)) => (h1, Ok (d, [base])) | (h1, Err e) => (h1, Err e) end
  end.
Definition is_link (h : heap) (n : nat) : Prop := exists m t, nodes h n = Some (NLink m t).
Definition same_entries (h h' : heap) : Prop := forall e c n, lookup h e c = Some n -> lookup h' e c = Some n.
(* The entry c of e is the entry base of d, or lies below it. *)
Definition inside (h : heap) (d : nat) (base : list byte) (e : nat) (c : list byte) : Prop := (e = d /\ c = base) \/ exists y, lookup h d base = Some y /\ reach h y e.
(* At or below where a source is put. *)
Definition below (h : heap) (d : nat) (pre : list (list byte)) (e : nat) (c : list byte) : Prop :=
  match pre with [] => reach h d e | base :: _ => inside h d base e c end.
