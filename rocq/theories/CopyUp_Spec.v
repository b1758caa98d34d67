(* What a copy-up may leave behind, said without the calls it makes. *)
From Verif Require Import Common ContentRange_Model TempName_Model Overlay_Model Overlay_Spec CopyUp_Model.
Open Scope nat_scope.

(* y is x as brought into the top: all its bytes, never more permission than x gives. *)
Definition copy_of (umask : N) (now : Z) (x y : item) : Prop :=
  match x, y with
  | IDir m t, IDir m' t' => (m' = N.land m 511 \/ m' = N.ldiff (N.land m 511) umask) /\ (t' = t \/ t' = now)
  | IFile m t d, IFile m' t' d' => d' = d /\ (m' = N.land m 511 \/ m' = N.ldiff (N.land m 511) umask) /\ (t' = t \/ t' = now)
  | ILink a, ILink b => a = b
  | _, _ => False
  end.
(* The same, with permissions and time as they are at the source. *)
Definition exact_copy (x y : item) : Prop :=
  match x with
  | IDir m t => y = IDir (N.land m 511) t
  | IFile m t d => y = IFile (N.land m 511) t d
  | ILink a => y = ILink a
  | ISpecial _ => False
  end.

(* Neither directory lies in the other. *)
Definition apart (a b : path) : Prop := ~ under a b /\ ~ under b a.
(* A directory p passes through on the way down from the content root. *)
Definition passes (p q : path) : Prop := q <> [] /\ strictly_under q p.

(* f' has all that f has, and at most these more: [p] in the content tree, directories p
   passes through, and [tmp]. *)
Definition only_adds (content p tmp : path) (f f' : files) : Prop :=
  (forall q x, get f q = Some x -> get f' q = Some x) /\
  (forall q, q <> tmp -> get f q = None -> get f' q <> None ->
     q = p ++ content \/ exists a, passes p a /\ q = a ++ content /\ exists m t, get f' q = Some (IDir m t)).

Definition done (a : answer) : Prop := exists k, a = Done k.
Definition not_late (a : answer) : Prop := forall k, a <> Late k.

(* The content tree has directories, or nothing, where p passes through. *)
Definition clear_way (content p : path) (f : files) : Prop :=
  forall a, passes p a -> get f (a ++ content) = None \/ exists m t, get f (a ++ content) = Some (IDir m t).
Definition is_dir_in (f : files) (p : path) : Prop := p = [] \/ exists m t, get f p = Some (IDir m t).
(* Below d, entries stand in directories. *)
Definition standing (d : path) (f : files) : Prop := forall c q x, strictly_under d q -> get f (c :: q) = Some x -> is_dir_in f q.

(* What other operations of the overlay do to the staging directory: nothing. *)
Definition spares (stage : path) (g : files -> files) : Prop :=
  forall f q, under stage q -> get (g f) q = get f q.
Definition sparing (stage : path) (a : act) : Prop := match a with Copy _ _ _ => True | Other g => spares stage g end.
Definition copies (l : list act) : nat := length (filter (fun a => match a with Copy _ _ _ => true | Other _ => false end) l).
Definition emptied (f : files) (d : path) : Prop := forall q, strictly_under d q -> get f q = None.
(* The two directories of the layout are no symlinks. *)
Definition plain (f : files) : Prop := forall n t, n = s_merged \/ n = s_work -> get f [n] <> Some (ILink t).

(* The temporary the next copy-up of a regular file makes; the bytes it moves. *)
Definition next_tmp (stage : path) (w : world) : path :=
  ([116; 109; 112; 45]%N ++ fmt_uint ((k_next w + 1) mod 18446744073709551616)) :: stage.
Definition bytes_of (x : option item) : nat := match x with Some (IFile _ _ d) => length d | _ => 0 end.
