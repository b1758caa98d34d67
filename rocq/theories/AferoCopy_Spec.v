(* What it is to fill a tree from a source. *)
From Coq Require Import Permutation.
From Verif Require Import Common PathLex_Model PathLex_Proofs Afero_Model Afero_Spec AferoErr_Spec AferoCopy_Model.
Open Scope nat_scope.

(* No type bit is set. *)
Definition regular (m : N) : Prop := forall i, N.testbit 2401763328 i = true -> N.testbit m i = false.

(* What lies at a path of the source. *)
Definition same (c : name) (e : name * snode) : bool := if list_eq_dec N.eq_dec (fst e) c then true else false.
Fixpoint src_at (n : snode) (p : list name) : option snode :=
  match p with
  | [] => Some n
  | c :: r =>
      match n with
      | SDir _ es => match List.find (same c) es with Some e => src_at (snd e) r | None => None end
      | SLeaf _ _ _ => None
      end
  end.
(* A source's directories name each entry once, with names that may stand in a path. *)
Inductive neat : snode -> Prop :=
| N_leaf ty st data : neat (SLeaf ty st data)
| N_dir b es : NoDup (map fst es) -> (forall c x, In (c, x) es -> proper c /\ neat x) -> neat (SDir b es).

(* A regular file below the source's root, as the listing says; and as Stat confirms. *)
Definition listed_file (t : snode) (r : list name) : Prop :=
  r <> [] /\ exists ty st data, src_at t r = Some (SLeaf ty st data) /\ regular ty.
Definition offers (t : snode) (r : list name) (m : N) (data : list byte) : Prop :=
  r <> [] /\ (exists ty, src_at t r = Some (SLeaf ty (Some m) data) /\ regular ty) /\ regular m.
(* What keeps a source from being read through. *)
Definition unlisted (t : snode) : Prop := exists r es, src_at t r = Some (SDir false es).
Definition misstated (t : snode) : Prop := exists r, listed_file t r /\ forall m data, ~ offers t r m data.

(* The entry at p is a read-only file of these bytes and this mode, put there by the call. *)
Definition new_file (s s' : afs) (p : list name) (m : N) (data : list byte) : Prop :=
  exists i v, shows s' p = Some (FileEnt m i) /\ length (a_views s) <= i /\ nth_error (a_views s') i = Some v /\
    v_data v = data /\ v_ro v = true.
Definition apart (p q : list name) : Prop := ~ below p q /\ ~ below q p.

(* From s to s': each wanted path holds what is offered for it, with nothing below, or else, if
   the call failed, it and what is below it are as they were; directories above may be new; all
   else is as it was; what was replaced is closed once, no view is closed that is still in use. *)
Definition grafted (s s' : afs) (wanted : list name -> Prop) (offered : list name -> N -> list byte -> Prop) (ok : Prop) : Prop :=
  (forall p, wanted p ->
     (exists m data, offered p m data /\ new_file s s' p m data /\ forall b r, shows s' (p ++ b :: r) = None) \/
     ~ ok /\ forall q, below p q -> shows s' q = shows s q) /\
  (forall p q, wanted p -> below q p -> q <> p ->
     shows s' q = shows s q \/ shows s q = None /\ exists m, shows s' q = Some (DirEnt m) /\ masked (a_umask s) 511 m) /\
  (forall q, (forall p, wanted p -> apart p q) -> shows s' q = shows s q) /\
  (exists more, a_views s' = a_views s ++ more) /\
  exists k, Permutation (account s') (seq (length (a_views s)) k ++ account s) /\
    length (a_views s) + k <= length (a_views s') /\ (ok -> length (a_views s') = length (a_views s) + k).

(* What Copy wants below d, and what MapFsIter wants. *)
Definition wants (t : snode) (d p : list name) : Prop := exists r, p = d ++ r /\ listed_file t r.
Definition offered_below (t : snode) (d p : list name) (m : N) (data : list byte) : Prop := exists r, p = d ++ r /\ offers t r m data.
Definition named (l : list (name * list name)) (p : list name) : Prop := exists k, In (k, p) l.
Definition stated (src : name -> option snode) (k : name) (m : N) (data : list byte) : Prop :=
  exists ty, src k = Some (SLeaf ty (Some m) data) /\ regular m.
Definition offered_by (src : name -> option snode) (l : list (name * list name)) (p : list name) (m : N) (data : list byte) : Prop :=
  exists k, In (k, p) l /\ stated src k m data.

(* What AddFile of p would meet. *)
Definition meets (s : afs) (p : list name) (m : N) (data : list byte) (e : aerr) : Prop :=
  exists q c, p = q ++ [c] /\ add_file_fault s q {| v_mode := Some m; v_ro := true; v_data := data; v_close_fails := false |} e.
(* p and its directory have names a call accepts. *)
Definition callable (p : list name) : Prop := exists q c, p = q ++ [c] /\ acceptable q /\ acceptable p.
