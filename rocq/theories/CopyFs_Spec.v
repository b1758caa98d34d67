(* Specification of tree copies. *)
From Verif Require Import Common ContentRange_Model PathLex_Model PathLex_Proofs TempName_Model CopyFs_Model.
Open Scope nat_scope.

(* Entry names are ordinary and differ within a directory. *)
Fixpoint wf_tree (n : snode) : Prop :=
  match n with
  | SDir _ ch =>
      NoDup (map fst ch) /\
      (fix all (ch : list (list byte * snode)) : Prop :=
         match ch with [] => True | (c, n) :: ch => proper c /\ wf_tree n /\ all ch end) ch
  | _ => True
  end.

(* What the destination holds after copying [n] over [old]. An existing file keeps its mode. *)
Definition copied (e : cenv) (old : option dent) (n : snode) (new : option dent) : Prop :=
  match n with
  | SDir m _ => new = Some (DDir (ce_mask e m))
  | SFile m b => new = Some (DFile b (match old with Some (DFile _ m0) => m0 | _ => ce_mask e m end))
  | SLink _ t => if ce_links e then new = Some (DLink t) else new = old
  | SOther _ => new = old
  end.

(* Nothing but directories where the source has directories. *)
Definition dirs_free (root : list byte) (n : snode) (w : world) : Prop :=
  forall p m ch, node_at n p = Some (SDir m ch) ->
    w (dst_path root p) = None \/ exists m0, w (dst_path root p) = Some (DDir m0).

Definition never_ignored (e : cenv) : Prop := forall d k, ce_readdir e d <> Some (k, true).

(* The weaker form for a list of paths, in which an entry may come up twice. *)
Definition holds (e : cenv) (n : snode) (new : option dent) : Prop :=
  match n with
  | SDir m _ => new = Some (DDir (ce_mask e m))
  | SFile _ b => exists m, new = Some (DFile b m)
  | SLink _ t => ce_links e = true -> new = Some (DLink t)
  | SOther _ => True
  end.

(* Elements of the cleaned root. *)
Definition root_elems (root : list byte) : list (list byte) := clean_comps (rooted root) (split_sep root).

(* The destination of element list [c] below a relative root, or a directory above it. *)
Definition at_or_above (root : list byte) (c : list (list byte)) (q : list byte) : Prop :=
  exists k, 1 <= k /\ q = render false (firstn k (root_elems root ++ c)).
