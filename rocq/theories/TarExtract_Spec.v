(* What extracting an archive, entry after entry, leaves in an empty directory. *)
From Verif Require Import Common ContentRange_Model PathLex_Model PathLex_Proofs CopyFs_Model TarFs_Model TarFs_Spec Views_Spec.
Open Scope nat_scope.

(* A directory entry or one made for what is below it, a file, a symlink, another name of a
   file: [data] is the entry that brought the bytes. *)
Inductive xnode := XDir (h : option hdr) | XFile (h : hdr) | XSym (h : hdr) | XHard (h data : hdr).
Definition disk := list (list byte) -> option xnode.
Definition path_dec : forall a b : list (list byte), {a = b} + {a <> b} := list_eq_dec (list_eq_dec N.eq_dec).
Fixpoint is_above (c c' : list (list byte)) : bool :=
  match c, c' with
  | [], _ :: _ => true
  | x :: c, y :: c' => if list_eq_dec N.eq_dec x y then is_above c c' else false
  | _, [] => false
  end.

(* Where an entry goes; a leading slash is dropped, as tar does. *)
Definition place (h : hdr) : list (list byte) := elems (h_name h).
Definition link_place (h : hdr) : list (list byte) := elems (h_link h).

Definition empty_disk : disk := fun c => match c with [] => Some (XDir None) | _ => None end.
(* What the entry becomes; a hard link shares what has the other name at that time. *)
Definition becomes (st : disk) (h : hdr) : option xnode :=
  match h_type h with
  | TDir => Some (XDir (Some h))
  | TSym => Some (XSym h)
  | TLink => match st (link_place h) with Some (XFile d) => Some (XHard h d) | Some (XHard _ d) => Some (XHard h d) | _ => None end
  | TReg | TDev | TOther => Some (XFile h)
  end.
Definition extract1 (st : disk) (h : hdr) : disk :=
  match place h with
  | [] => st
  | _ => fun c =>
      if path_dec c (place h) then becomes st h
      else if is_above c (place h) then match st c with Some (XDir x) => Some (XDir x) | _ => Some (XDir None) end
      else st c
  end.
Definition extract (arch : list hdr) : disk := fold_left extract1 arch empty_disk.

(* Archives whose extraction never fails and that tarfs is for: relative names that stay inside,
   none beginning with two dots, of types asked for; no file used as a directory; each hard link
   after the file it names, which does not change any more; no symlink to the dot or to a name
   ending in two dots. *)
Definition file_type (h : hdr) : Prop := match h_type h with TReg | TDev => True | _ => False end.
Record tame (o : topt) (arch : list hdr) : Prop := {
  tm_dotted : no_dotted arch;
  tm_kept : Forall (fun h => rooted (h_name h) = false /\ kept o h) arch;
  tm_tree : forall h h', In h arch -> In h' arch -> h_type h <> TDir -> place h <> [] /\ ~ above (place h) (place h');
  tm_links : forall a h b, arch = a ++ h :: b -> h_type h = TLink ->
    inside (h_link h) /\ Forall (fun x => place x <> link_place h) (h :: b) /\
    exists a1 d a2, a = a1 ++ d :: a2 /\ file_type d /\ place d = link_place h /\ Forall (fun x => place x <> link_place h) a2;
  tm_syms : forall h, In h arch -> h_type h = TSym -> rooted (h_link h) = false ->
    exists r x, link_place h = r ++ [x] /\ x <> [dot; dot] }.

(* Walking names on the disk, as TarFs_Spec.walk does in the tree. *)
Inductive xwalk (st : disk) (rooted_ : bool) (sub : list (list byte)) : list (list byte) -> list (list byte) -> nat -> list (list byte) -> Prop :=
| XWEnd cur : xwalk st rooted_ sub cur [] 0 cur
| XWUp cur r n q : cur <> [] -> (rooted_ = true -> cur <> sub) -> xwalk st rooted_ sub (removelast cur) r n q ->
    xwalk st rooted_ sub cur ([dot; dot] :: r) n q
| XWDir cur c r h n q : c <> [dot; dot] -> st (cur ++ [c]) = Some (XDir h) ->
    xwalk st rooted_ sub (cur ++ [c]) r n q -> xwalk st rooted_ sub cur (c :: r) n q
| XWFile cur c h : c <> [dot; dot] -> st (cur ++ [c]) = Some (XFile h) -> xwalk st rooted_ sub cur [c] 0 (cur ++ [c])
| XWHard cur c h d : c <> [dot; dot] -> st (cur ++ [c]) = Some (XHard h d) -> xwalk st rooted_ sub cur [c] 0 (cur ++ [c])
| XWSym cur c r h n q : c <> [dot; dot] -> st (cur ++ [c]) = Some (XSym h) -> rooted (h_link h) = false ->
    xwalk st rooted_ sub cur (link_place h ++ r) n q -> xwalk st rooted_ sub cur (c :: r) (S n) q.

(* A tree shows what the disk has: the same header, and behind another name the same bytes. *)
Definition matches (t : tnode) (x : option xnode) (n : option tnode) : Prop :=
  match x, n with
  | None, None => True
  | Some (XDir h), Some (NDir h' _ _) => h = h'
  | Some (XFile h), Some (NFile h') => h = h'
  | Some (XSym h), Some (NSym h') => h = h'
  | Some (XHard h d), Some (NHard h') => h = h' /\ tfind t (link_place h) = Some (NFile d)
  | _, _ => False
  end.
(* What opening a place of the disk gives: the bytes of the first entry, the information of the
   second. The root has a header that no entry needs to bring. *)
Definition reads (st : disk) (q : list (list byte)) (r : opened) : Prop :=
  match q, st q with
  | [], _ => exists h f o, r = OpDir (NDir h f o) h
  | _, Some (XDir h) => exists f o, r = OpDir (NDir h f o) h
  | _, Some (XFile h) => r = OpFile h h
  | _, Some (XHard h d) => r = OpFile d h
  | _, _ => False
  end.
(* The entry that a listing shows. *)
Definition xhead (x : option xnode) : option hdr :=
  match x with Some (XDir h) => h | Some (XFile h) | Some (XSym h) | Some (XHard h _) => Some h | None => None end.
(* Directories all come from entries. *)
Definition all_named (arch : list hdr) : Prop := forall c, c <> [] -> extract arch c <> Some (XDir None).
