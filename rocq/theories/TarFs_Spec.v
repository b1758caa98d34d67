(* Specification of the tar file system: which entry a path has, and how links are walked. *)
From Verif Require Import Common ContentRange_Model PathLex_Model CopyFs_Model TarFs_Model.
Open Scope nat_scope.

Definition key_of (h : hdr) : list byte := clean (h_name h).

(* The entries a tar file system is for: inside the root, and of a type asked for. *)
Definition kept (o : topt) (h : hdr) : Prop :=
  hd [] (split_sep (key_of h)) <> [dot; dot] /\
  match h_type h with
  | TReg | TDir | TLink => True
  | TSym => o_sym o = true
  | TDev => o_dev o = true
  | TOther => False
  end.
(* [h] is the last archive entry for the path of elements [c], and is kept. *)
Definition winner (o : topt) (arch : list hdr) (c : list (list byte)) (h : hdr) : Prop :=
  exists a1 a2, arch = a1 ++ h :: a2 /\ split_sep (key_of h) = c /\
    Forall (fun x => split_sep (key_of x) <> c) a2 /\ kept o h /\ key_of h <> [dot].
(* No name begins with two dots except for leaving the root. *)
Definition no_dotted (arch : list hdr) : Prop :=
  forall h r, In h arch -> hd [] (split_sep (key_of h)) = dot :: dot :: r -> r = [].

(* What an entry that is not a directory is shown as. *)
Definition entry_of (h : hdr) : tnode :=
  match h_type h with TLink => NHard h | TSym => NSym h | TReg | TDir | TDev | TOther => NFile h end.

(* [c] is a proper prefix of [c']. *)
Definition above (c c' : list (list byte)) : Prop := exists x r, c' = c ++ x :: r.

Inductive view := VDir (h : option hdr) | VLeaf (n : tnode).
Definition view_of (n : tnode) : view := match n with NDir h _ _ => VDir h | _ => VLeaf n end.

(* Every directory above an entry has a directory entry of its own. *)
Definition complete (o : topt) (arch : list hdr) : Prop :=
  forall c h c0, winner o arch c h -> above c0 c -> c0 <> [] -> exists h0, winner o arch c0 h0 /\ h_type h0 = TDir.

(* Walking elements from directory [cur], following [n] symlinks. A file ends the walk.
   When [rooted_], two dots do not leave [sub]. *)
Inductive walk (t : tnode) (rooted_ : bool) (sub : list (list byte)) : list (list byte) -> list (list byte) -> nat -> list (list byte) -> Prop :=
| WEnd cur : walk t rooted_ sub cur [] 0 cur
| WDot cur r n q : walk t rooted_ sub cur r n q -> walk t rooted_ sub cur ([dot] :: r) n q
| WUp cur r n q : cur <> [] -> (rooted_ = true -> cur <> sub) -> walk t rooted_ sub (removelast cur) r n q ->
    walk t rooted_ sub cur ([dot; dot] :: r) n q
| WDir cur c r h f o n q : is_dot c = false -> is_dotdot c = false -> tfind t (cur ++ [c]) = Some (NDir h f o) ->
    walk t rooted_ sub (cur ++ [c]) r n q -> walk t rooted_ sub cur (c :: r) n q
| WFile cur c h : is_dot c = false -> is_dotdot c = false -> tfind t (cur ++ [c]) = Some (NFile h) -> walk t rooted_ sub cur [c] 0 (cur ++ [c])
| WHard cur c h : is_dot c = false -> is_dotdot c = false -> tfind t (cur ++ [c]) = Some (NHard h) -> walk t rooted_ sub cur [c] 0 (cur ++ [c])
| WSym cur c r h n q : is_dot c = false -> is_dotdot c = false -> tfind t (cur ++ [c]) = Some (NSym h) ->
    rooted (clean (h_link h)) = false -> walk t rooted_ sub cur (text_comps (clean (h_link h)) ++ r) n q -> walk t rooted_ sub cur (c :: r) (S n) q.

(* Links the code handles: hard links that name a regular file by a plain path, symlinks
   whose cleaned target is neither the dot nor ends in two dots. *)
Definition hard_plain (t : tnode) : Prop :=
  forall p h, tfind t p = Some (NHard h) ->
    is_dot (clean (h_link h)) = false /\
    Forall (fun c => is_dot c = false /\ is_dotdot c = false) (text_comps (clean (h_link h))) /\
    exists h', tfind t (text_comps (clean (h_link h))) = Some (NFile h').
Definition sym_plain (t : tnode) : Prop :=
  forall p h, tfind t p = Some (NSym h) -> rooted (clean (h_link h)) = false ->
    exists r x, text_comps (clean (h_link h)) = r ++ [x] /\ is_dot x = false /\ is_dotdot x = false /\ Forall (fun c => is_dot c = false) r.

(* What opening the entry at the end of a walk reads and reports. *)
Definition read_of (t : tnode) (n : tnode) : opened :=
  match n with
  | NFile h => OpFile h h
  | NDir h f o => OpDir (NDir h f o) h
  | NHard h => match tfind t (text_comps (clean (h_link h))) with Some (NFile d) => OpFile d h | _ => OpPanic end
  | NSym _ => OpPanic
  end.

(* Targets that are not the dot. *)
Definition sym_nodot (t : tnode) : Prop :=
  forall p h, tfind t p = Some (NSym h) -> rooted (clean (h_link h)) = false -> Forall (fun c => is_dot c = false) (text_comps (clean (h_link h))).

(* [h] is the last archive entry that names the root itself. *)
Definition names_root (arch : list hdr) (h : hdr) : Prop :=
  exists a1 a2, arch = a1 ++ h :: a2 /\ key_of h = [dot] /\ Forall (fun x => key_of x <> [dot]) a2.
