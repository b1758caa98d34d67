(* Model of the calls of aferofs/synth that fill the tree from another file system: MapFsIter and
   Copy (fs_link.go), NewFsFileView (impl_fslink.go) and the io/fs.WalkDir they rest on. *)
From Verif Require Import Common ContentRange_Model PathLex_Model Afero_Model.
Open Scope nat_scope.

(* What a source holds at a name. A file: the type its directory entry gives, the mode Stat
   gives (None: Stat fails), its bytes. A directory: whether it can be listed, and its entries in
   the order ReadDir gives them. *)
Inductive snode := SLeaf (ty : N) (st : option N) (data : list byte) | SDir (listed : bool) (ents : list (name * snode)).

Inductive cerr := CSrcRoot (e : aerr) | CDstRoot (e : aerr) | CWalk | CRefer | CAdd (e : aerr).

(* FileMode.IsRegular. *)
Definition is_regular (m : N) : bool := N.eqb (N.land m m_type) 0.
Definition is_sdir (n : snode) : bool := match n with SDir _ _ => true | SLeaf _ _ _ => false end.

(* newFsFileView (impl_fslink.go:36-48): a view that refuses writing (:50-59) and whose Close
   does nothing (:27-29). *)
Definition new_view (n : option snode) : option view :=
  match n with
  | Some (SLeaf _ (Some m) data) =>
      if negb (N.eqb (N.land m m_dir) 0) then None
      else if negb (is_regular m) then None
      else Some {| v_mode := Some m; v_ro := true; v_data := data; v_close_fails := false |}
  | _ => None
  end.

(* MapFsIter (fs_link.go:115-127) over the pairs the mapper yields. *)
Fixpoint map_iter (src : name -> option snode) (l : list (name * name)) (s : afs) : afs * option cerr :=
  match l with
  | [] => (s, None)
  | (k, d) :: r =>
      match new_view (src k) with
      | None => (s, Some CRefer)
      | Some v =>
          match add_file s d v with
          | (s1, Some e) => (s1, Some (CAdd e))
          | (s1, None) => map_iter src r s1
          end
      end
  end.

(* strings.CutPrefix, its boolean dropped. *)
Fixpoint starts (p s : name) : bool :=
  match p, s with
  | [], _ => true
  | x :: p', y :: s' => N.eqb x y && starts p' s'
  | _ :: _, [] => false
  end.
Definition cut_prefix (s p : name) : name := if starts p s then skipn (length p) s else s.

(* The function Copy hands to WalkDir (fs_link.go:138-157), called without an error. *)
Definition visit (sroot droot : name) (s : afs) (path : name) (n : snode) : afs * option cerr :=
  if bytes_eqb path sroot || is_sdir n then (s, None)
  else
    match n with
    | SDir _ _ => (s, None)
    | SLeaf ty _ _ =>
        if negb (is_regular ty) then (s, None)
        else
          match new_view (Some n) with
          | None => (s, Some CRefer)
          | Some v =>
              let rel := if negb (bytes_eqb sroot [dot]) then cut_prefix path (sroot ++ [sep]) else path in
              match add_file s (join2 droot rel) v with
              | (s1, Some e) => (s1, Some (CAdd e))
              | (s1, None) => (s1, None)
              end
          end
    end.
(* io/fs walkDir; called with an error, the function returns one. *)
Fixpoint walk (sroot droot : name) (n : snode) (path : name) (s : afs) : afs * option cerr :=
  match visit sroot droot s path n with
  | (s1, Some e) => (s1, Some e)
  | (s1, None) =>
      match n with
      | SLeaf _ _ _ => (s1, None)
      | SDir listed es =>
          if negb listed then (s1, Some CWalk)
          else
            (fix each (es : list (name * snode)) (s : afs) : afs * option cerr :=
               match es with
               | [] => (s, None)
               | (c, x) :: r =>
                   match walk sroot droot x (join2 path c) s with
                   | (s2, Some e) => (s2, Some e)
                   | (s2, None) => each r s2
                   end
               end) es s1
      end
  end.
(* Copy (fs_link.go:131-158); [src] is what Stat of srcRoot leads to. *)
Definition copy (src : option snode) (sroot droot : name) (s : afs) : afs * option cerr :=
  match validate sroot with
  | Some e => (s, Some (CSrcRoot e))
  | None =>
      match validate droot with
      | Some e => (s, Some (CDstRoot e))
      | None => match src with None => (s, Some CWalk) | Some n => walk sroot droot n sroot s end
      end
  end.
