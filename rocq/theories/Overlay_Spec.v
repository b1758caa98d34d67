(* What a stack of layers shows, defined directory by directory and independently of the
   lookups of merged.go. *)
From Verif Require Import Common ContentRange_Model Overlay_Model.
Open Scope nat_scope.

(* What layer i holds and marks. *)
Definition at_ (ls : stack) (i : nat) (p : path) : option node :=
  match nth_error ls i with Some l => node_at (l_tree l) p | None => None end.
Definition whi (ls : stack) (i : nat) (p : path) : bool := match nth_error ls i with Some l => whb l p | None => false end.
Definition opi (ls : stack) (i : nat) (p : path) : bool := match nth_error ls i with Some l => opb l p | None => false end.
Definition dir_at (ls : stack) (i : nat) (p : path) : bool := match at_ ls i p with Some n => is_dir n | None => false end.
Definition nondir_at (ls : stack) (i : nat) (p : path) : bool := match at_ ls i p with Some n => negb (is_dir n) | None => false end.

(* Layer j contributes entries to the directory p: it has a directory there, it contributes
   to the parent, and no layer above it hides p, makes it opaque or fills its place. *)
Fixpoint merged (ls : stack) (from j : nat) (p : path) : bool :=
  (from <=? j) && dir_at ls j p &&
  forallb (fun k => negb (whi ls k p) && negb (opi ls k p) && negb (nondir_at ls k p)) (seq from (j - from)) &&
  match p with [] => true | _ :: q => merged ls from j q end.

(* Layer j shows the entry p of a directory it contributes to. *)
Definition offers (ls : stack) (from : nat) (p : path) (j : nat) : bool :=
  match p with
  | [] => (from =? j) && (j <? length ls)
  | _ :: q =>
      merged ls from j q && match at_ ls j p with Some _ => true | None => false end &&
      forallb (fun k => negb (whi ls k p)) (seq from (j - from))
  end.

(* The merged tree: the shallowest layer, from [from] down, that shows the name. *)
Definition view (ls : stack) (from : nat) (p : path) : option (nat * node) :=
  match find (offers ls from p) (seq from (length ls - from)) with
  | Some j => match at_ ls j p with Some n => Some (j, n) | None => None end
  | None => None
  end.
Definition visible (ls : stack) (p : path) : option node := option_map snd (view ls 0 p).
Definition visible_dir (ls : stack) (p : path) : Prop := exists m, visible ls p = Some (ODir m).

(* Trees in which every entry's parent is a directory. *)
Definition wf_tree (t : tree) : Prop := forall c p n, tget t (c :: p) = Some n -> exists m, node_at t p = Some (ODir m).
Definition wf (ls : stack) : Prop := ls <> [] /\ Forall (fun l => wf_tree (l_tree l)) ls.

(* q is p or a name below p. *)
Definition under (p q : path) : Prop := exists s, q = s ++ p.
Definition strictly_under (p q : path) : Prop := exists c s, q = c :: s ++ p.

(* A layer the lookup of p may reach holds a symlink where p needs a directory. *)
Definition linked (ls : stack) (from : nat) (p : path) : Prop :=
  exists i a tgt, from <= i <= cut_from ls p from /\ strictly_under a p /\ at_ ls i a = Some (OLink tgt).
Definition unlinked (ls : stack) (p : path) : Prop := ~ linked ls 0 p.

(* A backend that answers every Lstat on the way to p. *)
Definition answers (be : backend) (ls : stack) (p : path) : Prop :=
  forall i a, i < length ls -> under a p -> broken be i a = false.

(* The top's opaque marks stand on directories the top holds. *)
Definition held (ls : stack) : Prop := forall a, opi ls 0 a = true -> dir_at ls 0 a = true.
Definition inv (ls : stack) : Prop := wf ls /\ held ls.

(* No symlink hides behind a directory on the way to p, or the top holds p itself. *)
Definition plain_at (ls : stack) (p : path) : Prop := unlinked ls p \/ at_ ls 0 p <> None.
(* The same for p and every directory above it. *)
Definition clear_way (ls : stack) (p : path) : Prop := forall a, under a p -> plain_at ls a.

(* s' shows nothing from a lower layer that s does not show. *)
Definition no_resurface (s s' : stack) : Prop :=
  forall q j n, view s' 0 q = Some (S j, n) -> view s 0 q = Some (S j, n).

(* Every state a call leaves behind when it ends or is cut short. *)
Definition states (s : stack) (a : eff) : list stack := s :: states_of a.
Definition reaches (s : stack) (a : eff) (s' : stack) : Prop := In s' (states s a) \/ s' = end_of a.

(* What a copy-up may put in the top in place of what a lower shows. *)
Definition stands_for (n x : node) : Prop :=
  match n, x with ODir _, ODir _ => True | ODir _, _ => False | OSpecial _, _ => False | _, _ => x = copied n end.

(* One name before and after a call that may copy up: the same, or the top now holds a copy
   of what a lower showed. *)
Definition as_copied (e e' : option (nat * node)) : Prop :=
  e' = e \/ exists j n x, e = Some (S j, n) /\ e' = Some (0, x) /\ stands_for n x.
Definition same_or_copied (s s' : stack) (q : path) : Prop := as_copied (view s 0 q) (view s' 0 q).

(* The tree without p and everything below it; and a tree on the way there. *)
Definition gone (p : path) (s s' : stack) : Prop :=
  forall q, view s' 0 q = if within p q then None else view s 0 q.
Definition going (p : path) (s s' : stack) : Prop :=
  (forall q, ~ under p q -> view s' 0 q = view s 0 q) /\
  (forall q, under p q -> view s' 0 q = view s 0 q \/ view s' 0 q = None).

(* The tree is as before, except that names of W may have become the top's copies. *)
Definition copied_one (W : path -> Prop) (s s' : stack) (q : path) : Prop :=
  view s' 0 q = view s 0 q \/ (W q /\ as_copied (view s 0 q) (view s' 0 q)).
Definition copied_on (W : path -> Prop) (s s' : stack) : Prop := forall q, copied_one W s s' q.
(* p holds x in the top, the rest is as before. *)
Definition made (W : path -> Prop) (p : path) (x : node) (s s' : stack) : Prop :=
  view s' 0 p = Some (0, x) /\ forall q, q <> p -> copied_one W s s' q.
(* The directories above p. *)
Definition above_of (p a : path) : Prop := under a (tl p).
(* What was at and below o is at and below n, o is gone, the rest is as before. *)
Definition taken (W : path -> Prop) (o n : path) (s s' : stack) : Prop :=
  as_copied (view s 0 o) (view s' 0 n) /\
  (forall q, strictly_under o q -> view s' 0 (rebase o n q) = view s 0 q) /\
  (forall q, strictly_under n q -> view s' 0 q = view s 0 (rebase n o q)) /\
  (forall q, under o q -> view s' 0 q = None) /\
  (forall q j x, under n q -> view s' 0 q <> Some (S j, x)) /\
  (forall q, ~ under o q -> ~ under n q -> copied_one W s s' q).

(* On the way there: not moved yet, or moved with everything visible in place. *)
Definition taking (W : path -> Prop) (o n : path) (s s' : stack) : Prop :=
  copied_on W s s' \/
  ((forall q e, under o q -> view s 0 q = Some e -> as_copied (Some e) (view s' 0 (rebase o n q))) /\
   (forall q, ~ under o q -> ~ under n q -> copied_one W s s' q)).

(* Every layer that has a directory at a gives it the permissions the tree shows. *)
Definition one_mode (s : stack) (a : path) : Prop :=
  forall i m j m', at_ s i a = Some (ODir m) -> view s 0 a = Some (j, ODir m') -> perm m = m'.

(* A call whose names resolve: no symlink of a lower hides behind a directory on the way. *)
Definition proper (s : stack) (c : ocall) : Prop :=
  match c with
  | CRemove _ | CRemoveAll _ | CWrite _ _ => True
  | CMkdir p _ | COpen p _ _ _ _ | CSymlink _ p => plain_at s p /\ plain_at s (tl p)
  | CMkdirAll p _ => clear_way s p
  | CChmod p _ => plain_at s p
  | CLink o n => plain_at s o /\ plain_at s n /\ plain_at s (tl n) /\ ~ under o n
  | CRename o n => plain_at s o /\ unlinked s n /\ plain_at s (tl n)
  end.
Definition is_rename (c : ocall) : bool := match c with CRename _ _ => true | _ => false end.

(* Histories: each call runs to its end, or is cut short after [k] of its persistent steps
   and the overlay starts again from what is on disk. *)
Record event := { ev_be : backend; ev_call : ocall; ev_cut : option nat }.
Definition after (s : stack) (e : event) : stack :=
  let a := run_call (ev_be e) (ev_call e) s in
  match ev_cut e with Some k => nth k (states s a) (end_of a) | None => end_of a end.
Definition play (h : list event) (s : stack) : stack := fold_left after h s.
(* Each call is proper where it is made, and renames are not cut short. *)
Fixpoint fair (s : stack) (h : list event) : Prop :=
  match h with
  | [] => True
  | e :: r => proper s (ev_call e) /\ (is_rename (ev_call e) = true -> ev_cut e = None) /\ fair (after s e) r
  end.
