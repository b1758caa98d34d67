(* Why a call on synthfs fails: what stands in the way of a path, and of each call. *)
From Verif Require Import Common ContentRange_Model PathLex_Model PathLex_Proofs OsFs_Spec Synth_Model Synth_Spec.
Open Scope nat_scope.

Definition ordinary (c : list byte) : Prop := c <> [] /\ c <> [dot] /\ c <> [dot; dot].
(* Nothing of the path is left (a trailing separator was cut off). *)
Definition at_end (l : list (list byte)) : Prop := l = [] \/ l = [[]].
Definition from_top (t : list byte) : Prop := exists r, t = sep :: r.
(* What is left to walk once a link is replaced by its target. *)
Definition then_ (t : list (list byte)) (l r : list (list byte)) : Prop := (at_end l /\ r = t) \/ (~ at_end l /\ r = t ++ l).

(* [stops h b follow k cur l e]: walking the elements l from the directory cur, within b and
   following at most k links, gets stuck, for the reason e. *)
Inductive stops (h : heap) (b : nat) (follow : bool) : nat -> nat -> list (list byte) -> serr -> Prop :=
| st_missing : forall k cur c l, ordinary c -> lookup h cur c = None -> stops h b follow k cur (c :: l) ENotExist
| st_file : forall k cur c l n m v, ordinary c -> lookup h cur c = Some n -> nodes h n = Some (NFile m v) -> ~ at_end l -> stops h b follow k cur (c :: l) ENotDir
| st_above : forall k l, stops h b follow k b ([dot; dot] :: l) EEscapes
| st_loop : forall cur c l n m t, ordinary c -> lookup h cur c = Some n -> nodes h n = Some (NLink m t) -> (~ at_end l \/ follow = true) -> stops h b follow 0 cur (c :: l) ELoop
| st_top : forall k cur c l n m t, ordinary c -> lookup h cur c = Some n -> nodes h n = Some (NLink m t) -> (~ at_end l \/ follow = true) -> from_top t ->
    stops h b follow (S k) cur (c :: l) EEscapes
| st_skip : forall k cur c l e, is_skip c -> stops h b follow k cur l e -> stops h b follow k cur (c :: l) e
| st_up : forall k cur d nm l e, cur <> b -> lookup h d nm = Some cur -> stops h b follow k d l e -> stops h b follow k cur ([dot; dot] :: l) e
| st_link : forall k cur c l n m t r e, ordinary c -> lookup h cur c = Some n -> nodes h n = Some (NLink m t) -> (~ at_end l \/ follow = true) -> ~ from_top t ->
    then_ (split_sep t) l r -> stops h b follow k cur r e -> stops h b follow (S k) cur (c :: l) e
| st_down : forall k cur c l n e, ordinary c -> lookup h cur c = Some n -> is_dir_at h n -> ~ at_end l -> stops h b follow k n l e -> stops h b follow k cur (c :: l) e.

(* The name leaves the root. *)
Definition leaves (name : list byte) : Prop := forall l, ~ means name l.
(* Walking the path l from b arrives at n, over at most 40 links. *)
Definition arrives (h : heap) (b : nat) (follow : bool) (l : list (list byte)) (n : nat) : Prop :=
  exists k f, k <= 40 /\ namei h b follow k b l f /\ f_node f = n.
Definition stuck (h : heap) (b : nat) (follow : bool) (l : list (list byte)) (e : serr) : Prop := stops h b follow 40 b l e.

(* What a name leads to, and why it leads nowhere. *)
Definition leads (h : heap) (b : nat) (follow : bool) (name : list byte) (n : nat) : Prop := exists l, means name l /\ arrives h b follow l n.
Definition lost (h : heap) (b : nat) (follow : bool) (name : list byte) (e : serr) : Prop :=
  (leaves name /\ e = EEscapes) \/ exists l, means name l /\ stuck h b follow l e.

(* The entry base of the directory d is what a name speaks of, and why there is no such place. *)
Definition place (h : heap) (b : nat) (name : list byte) (d : nat) (base : list byte) : Prop :=
  exists l, means name (l ++ [base]) /\ arrives h b true l d /\ is_dir_at h d.
Definition no_place (h : heap) (b : nat) (name : list byte) (e : serr) : Prop :=
  (leaves name /\ e = EEscapes) \/ (means name [] /\ e = EInval) \/
  exists l c, means name (l ++ [c]) /\ (stuck h b true l e \/ exists n, arrives h b true l n /\ ~ is_dir_at h n /\ e = ENotDir).

Definition is_file_at (h : heap) (n : nat) : Prop := exists m v, nodes h n = Some (NFile m v).
Definition held (h : heap) (n : nat) : Prop := exists x, nodes h n = Some x /\ 0 < m_ref (meta_of x).

(* The errors of the calls that make an entry. *)
Definition make_fault (h : heap) (b : nat) (name : list byte) (e : serr) : Prop :=
  no_place h b name e \/ exists d base n, place h b name d base /\ lookup h d base = Some n /\ e = EExist.
Definition link_fault (h : heap) (b : nat) (old new : list byte) (e : serr) : Prop :=
  lost h b true old e \/
  exists n, leads h b true old n /\ ((~ is_file_at h n /\ e = EInval) \/ (is_file_at h n /\ make_fault h b new e)).
Definition remove_fault (busy : bool) (h : heap) (b : nat) (name : list byte) (e : serr) : Prop :=
  no_place h b name e \/
  exists d base, place h b name d base /\
    ((lookup h d base = None /\ e = ENotExist) \/
     exists n, lookup h d base = Some n /\
       ((entries h n <> [] /\ e = ENotEmpty) \/ (entries h n = [] /\ busy = true /\ held h n /\ e = ESharing))).
Definition remove_all_fault (h : heap) (b : nat) (name : list byte) (e : serr) : Prop :=
  (last_is_dot name /\ e = EInval) \/ (~ last_is_dot name /\ no_place h b name e).
Definition rename_fault (h : heap) (b : nat) (old new : list byte) (e : serr) : Prop :=
  no_place h b old e \/
  exists d base, place h b old d base /\
    ((lookup h d base = None /\ e = ENotExist) \/
     (lookup h d base <> None /\
       (no_place h b new e \/ exists d2 base2 x, place h b new d2 base2 /\ lookup h d2 base2 = Some x /\ entries h x <> [] /\ e = ENotEmpty))).
Definition open_fault (h : heap) (b : nat) (name : list byte) (q : oreq) (e : serr) : Prop :=
  lost h b true name e \/
  exists n, leads h b true name n /\ ((is_dir_at h n /\ o_write q = true /\ e = EBadf) \/ (is_file_at h n /\ o_opens q = false /\ e = EOther)).
Definition create_fault (h : heap) (b : nat) (name : list byte) (q : oreq) (e : serr) : Prop :=
  no_place h b name e \/
  exists d base, place h b name d base /\
    ((lookup h d base <> None /\ ((o_excl q = true /\ e = EExist) \/ (o_excl q = false /\ open_fault h b name q e))) \/
     (lookup h d base = None /\ (o_allocs q = false \/ o_opens q = false) /\ e = EOther)).
Definition sub_root_fault (h : heap) (b : nat) (name : list byte) (e : serr) : Prop :=
  lost h b true name e \/ exists n, leads h b true name n /\ ~ is_dir_at h n /\ e = ENotDir.

(* All of p and of its beginnings are directories. *)
Definition all_dirs (h : heap) (b : nat) (p : list (list byte)) : Prop := forall a t, p = a ++ t -> exists d, arrives h b true a d /\ is_dir_at h d.
(* The first element of l that is not a directory is p ++ [c]. *)
Definition first_not_dir (h : heap) (b : nat) (l p : list (list byte)) (c : list byte) (r : list (list byte)) : Prop :=
  l = p ++ c :: r /\ all_dirs h b p /\ ~ all_dirs h b (p ++ [c]).
(* MkdirAll: an element is there and is not a directory, or is a link that leads nowhere. *)
Definition mkdir_all_fault (h : heap) (b : nat) (name : list byte) (e : serr) : Prop :=
  (leaves name /\ e = EEscapes) \/
  exists l p c r d n, means name l /\ first_not_dir h b l p c r /\ arrives h b true p d /\ lookup h d c = Some n /\
    (stuck h b true (p ++ [c]) e \/ exists x, arrives h b true (p ++ [c]) x /\ e = ENotEmpty).
(* AddFile and AddFS on the way to the parent: a file is in the way, or a link that goes round in
   circles or out of the root. (A link that dangles is replaced by a directory.) *)
Definition parents_fault (h : heap) (b : nat) (name : list byte) (e : serr) : Prop :=
  (leaves name /\ e = EEscapes) \/ (means name [] /\ e = EInval) \/
  exists l last p c r, means name (l ++ [last]) /\ first_not_dir h b l p c r /\
    ((stuck h b true (p ++ [c]) e /\ e <> ENotExist) \/ exists x, arrives h b true (p ++ [c]) x /\ e = ENotDir).
