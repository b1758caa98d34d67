(* What a file system is, for the statements about aferofs/synth: paths to entries. *)
From Coq Require Import Permutation.
From Verif Require Import Common PathLex_Model PathLex_Proofs Afero_Model.
From Verif Require IoBridge_Spec.
Open Scope nat_scope.

(* What a caller can see of an entry. *)
Inductive ent := FileEnt (mode : N) (view : nat) | DirEnt (mode : N).
Definition kind (d : node) : ent := match d with File m v => FileEnt m v | Dir m _ => DirEnt m end.

(* The entry at a path, found by its names from the root. *)
Definition same_name (c : name) (e : name * node) : bool := if list_eq_dec N.eq_dec (fst e) c then true else false.
Fixpoint entry_at (d : node) (p : list name) : option ent :=
  match p with
  | [] => Some (kind d)
  | c :: r =>
      match d with
      | Dir _ es => match List.find (same_name c) es with Some e => entry_at (snd e) r | None => None end
      | File _ _ => None
      end
  end.
Definition shows (s : afs) (p : list name) : option ent := entry_at (a_root s) p.

(* A path as the name given to a call: "." or its elements joined by slashes. *)
Fixpoint joined (p : list name) : name :=
  match p with [] => [] | [c] => c | c :: r => c ++ 47%N :: joined r end.
Definition spell (p : list name) : name := match p with [] => [46%N] | _ => joined p end.
Definition ordinary (p : list name) : Prop := Forall proper p.

(* A name a call accepts: text, the last element no longer than 255 bytes. *)
Definition acceptable (p : list name) : Prop := IoBridge_Spec.valid_text (spell p) /\ length (last p []) <= 255.

(* No directory has two entries of one name. *)
Inductive unique : node -> Prop :=
| U_file m v : unique (File m v)
| U_dir m es : NoDup (map fst es) -> (forall c x, In (c, x) es -> unique x) -> unique (Dir m es).

Definition reachable (s : afs) : Prop := exists umask alloc l, s = arun (new_fs umask alloc) l.

Definition below (p q : list name) : Prop := exists r, q = p ++ r.

(* The owner's permission bits. *)
Definition may_write (m : N) : Prop := N.testbit m 7 = true.
Definition may_search (m : N) : Prop := N.testbit m 6 = true.
(* Every directory on the way to p lets its entries be looked up. *)
Definition way_open (s : afs) (p : list name) : Prop :=
  forall q c r, p = q ++ c :: r -> exists m, shows s q = Some (DirEnt m) /\ may_search m.

(* The bits of [perm] that umask lets through. *)
Definition masked (umask perm m : N) : Prop :=
  forall i, N.testbit m i = (i <? 9)%N && N.testbit perm i && negb (N.testbit umask i) || (i =? 31)%N.

(* The views of a tree's files. *)
Fixpoint views_in (d : node) : list nat :=
  match d with File _ v => [v] | Dir _ es => flat_map (fun e => views_in (snd e)) es end.

(* A directory one may look entries up in and change. *)
Definition writable_parent (s : afs) (p : list name) : Prop := exists m, shows s p = Some (DirEnt m) /\ may_search m /\ may_write m.
(* The type and permission bits of m. *)
Definition typed (m m' : N) : Prop := forall i, N.testbit m' i = N.testbit m i && (N.testbit 2401763328 i || (i <? 9)%N).
Definition with_mode (m : N) (e : ent) : ent := match e with FileEnt _ v => FileEnt m v | DirEnt _ => DirEnt m end.
(* The owner's bits an open asks for. *)
Definition may_use (a : access) (m : N) : Prop :=
  match a with RdOnly => N.testbit m 8 = true | WrOnly => N.testbit m 7 = true | RdWr => N.testbit m 8 = true /\ N.testbit m 7 = true end.
(* A handle on that entry. *)
Definition opens_as (e : ent) (h : opened) : Prop := match e, h with FileEnt _ v, OFile w => v = w | DirEnt _, ODir => True | _, _ => False end.
Definition emptied (v v' : view) : Prop := v_data v' = [] /\ v_mode v' = v_mode v /\ v_ro v' = v_ro v /\ v_close_fails v' = v_close_fails v.
(* Nothing directly below. *)
Definition emptyish (s : afs) (p : list name) : Prop := forall c, shows s (p ++ [c]) = None.
(* A file whose view fails to close. *)
Definition closes_badly (s : afs) (p : list name) : Prop := exists m v w, shows s p = Some (FileEnt m v) /\ nth_error (a_views s) v = Some w /\ v_close_fails w = true.
(* One entry gone, its view closed, all else as before. *)
Definition removed (s s' : afs) (p : list name) : Prop :=
  (exists e, shows s p = Some e /\ a_closed s' = a_closed s ++ match e with FileEnt _ v => [v] | DirEnt _ => [] end) /\
  shows s' p = None /\ (forall q, q <> p -> shows s' q = shows s q) /\ a_views s' = a_views s.
(* Every view the tree still has, and every Close made. *)
Definition account (s : afs) : list nat := views_in (a_root s) ++ a_closed s.
(* Entries may be gone at p and below, nothing else changes, no view is forgotten. *)
Definition thinned (s s' : afs) (p : list name) : Prop :=
  (forall q, ~ below p q -> shows s' q = shows s q) /\
  (forall q, shows s' q = shows s q \/ shows s' q = None) /\
  a_views s' = a_views s /\ Permutation (account s') (account s).
(* What a rename may put something over. *)
Definition replaceable (s : afs) (o n : list name) : Prop :=
  shows s n = None \/
  (exists m v m' v', shows s o = Some (FileEnt m v) /\ shows s n = Some (FileEnt m' v')) \/
  (exists m m', shows s o = Some (DirEnt m) /\ shows s n = Some (DirEnt m') /\ emptyish s n).
(* Histories without Reallocate; steps other than Rename. *)
Definition calm (o : aop) : Prop := match o with ARealloc _ => False | _ => True end.
Definition keeps (o : aop) : Prop := match o with ARename _ _ => False | _ => True end.
