(* Specification of symlink resolution: what a POSIX path walk inside a root reaches. *)
From Verif Require Import Common ContentRange_Model PathLex_Model PathLex_Proofs Resolve_Model.
Open Scope nat_scope.

(* Every prefix of the path, itself included, is there and is not a symlink. *)
Definition link_free (fs : linkfs) (comps : list (list byte)) : Prop :=
  forall k, 1 <= k <= length comps -> lstat fs (join_sep (firstn k comps)) = LOther.

(* Elements of a name the loop works on: ordinary ones, after at most one ".". *)
Definition good (l : list (list byte)) : Prop := l <> [] /\ (Forall proper l \/ exists l', l = [dot] :: l' /\ Forall proper l').

(* ---- a file tree: what is at each real path (elements from the root) ---- *)
Inductive knode := KDir | KFile | KLink (t : list byte).
Definition tree := list (list byte) -> option knode.

Definition tree_ok (t : tree) : Prop :=
  t [] = Some KDir /\ forall d c, t (d ++ [c]) <> None -> t d = Some KDir.

(* [kw t fl d rest n r]: walking [rest] from the real directory [d] ends at the real path
   [r], following n symlinks; the last element is followed iff [fl]. A walk that would
   leave the root, meets an absolute target or a missing name has no end. *)
Inductive kw (t : tree) (fl : bool) : list (list byte) -> list (list byte) -> nat -> list (list byte) -> Prop :=
| kw_nil d : kw t fl d [] 0 d
| kw_dot d rest n r : kw t fl d rest n r -> kw t fl d ([dot] :: rest) n r
| kw_up d c rest n r : kw t fl d rest n r -> kw t fl (d ++ [c]) ([dot; dot] :: rest) n r
| kw_dir d c rest n r : proper c -> t (d ++ [c]) = Some KDir -> kw t fl (d ++ [c]) rest n r -> kw t fl d (c :: rest) n r
| kw_file d c : proper c -> t (d ++ [c]) = Some KFile -> kw t fl d [c] 0 (d ++ [c])
| kw_keep d c l : proper c -> t (d ++ [c]) = Some (KLink l) -> fl = false -> kw t fl d [c] 0 (d ++ [c])
| kw_link d c l rest n r : proper c -> t (d ++ [c]) = Some (KLink l) -> rooted l = false -> (rest <> [] \/ fl = true) ->
    kw t fl d (split_sep l ++ rest) n r -> kw t fl d (c :: rest) (S n) r.

(* Lstat and ReadLink are sound for a tree. *)
Definition answers (t : tree) (fs : linkfs) : Prop :=
  (forall s, lstat fs s = LLink -> exists n r l, kw t false [] (split_sep s) n r /\ t r = Some (KLink l)) /\
  (forall s, lstat fs s = LOther -> exists n r, kw t false [] (split_sep s) n r /\ (t r = Some KDir \/ t r = Some KFile)) /\
  (forall s l, readlink fs s = RTarget l -> exists n r, kw t false [] (split_sep s) n r /\ t r = Some (KLink l)).

(* Link targets are clean; and either none climbs, or none passes through another link. *)
Definition real_dir (t : tree) (l : list (list byte)) : Prop := Forall proper l /\ t l = Some KDir.

Definition no_climb (t : tree) : Prop :=
  forall p l, t p = Some (KLink l) -> ~ In [dot; dot] (split_sep l).
Definition direct_links (t : tree) : Prop :=
  forall d c l, t (d ++ [c]) = Some (KLink l) -> rooted l = false ->
    forall q, clean_comps false (d ++ split_sep l) = q -> Forall proper q -> forall q0 x, q = q0 ++ [x] -> real_dir t q0.
Definition clean_links (t : tree) : Prop := forall p l, t p = Some (KLink l) -> clean l = l.

(* Lstat and ReadLink answer every text whose walk ends, following fewer than [m] links. *)
Definition answers_all (t : tree) (m : nat) (fs : linkfs) : Prop :=
  (forall s n r l, kw t false [] (split_sep s) n r -> n < m -> t r = Some (KLink l) -> lstat fs s = LLink /\ readlink fs s = RTarget l) /\
  (forall s n r, kw t false [] (split_sep s) n r -> n < m -> t r = Some KDir \/ t r = Some KFile -> lstat fs s = LOther).

(* The elements a resolution has to walk: all of the name, or all but the last. *)
Definition walk_part (skip : bool) (l : list (list byte)) : list (list byte) := if skip then removelast l else l.

(* The walk as a program, which gives up at the m-th link and one, and a file system whose
   Lstat and ReadLink are that walk over a tree. *)
Definition plain_name (c : list byte) : bool :=
  negb (bytes_eqb c []) && negb (existsb (N.eqb 47%N) c).
Fixpoint kernel_walk (t : tree) (fl : bool) (m : nat) : list (list byte) -> list (list byte) -> option (nat * list (list byte)) :=
  fix go (d todo : list (list byte)) :=
    match todo with
    | [] => Some (0, d)
    | c :: rest =>
        if bytes_eqb c [46%N] then go d rest
        else if bytes_eqb c [46%N; 46%N] then match d with [] => None | _ => go (removelast d) rest end
        else if negb (plain_name c) then None
        else match t (d ++ [c]) with
             | None => None
             | Some KDir => go (d ++ [c]) rest
             | Some KFile => match rest with [] => Some (0, d ++ [c]) | _ => None end
             | Some (KLink l) =>
                 if negb fl && (match rest with [] => true | _ => false end) then Some (0, d ++ [c])
                 else if rooted l then None
                 else match m with
                      | O => None
                      | S m => match kernel_walk t fl m d (split_sep l ++ rest) with
                               | Some (n, r) => Some (S n, r)
                               | None => None
                               end
                      end
             end
    end.
Definition kernel_fs (t : tree) (m : nat) : linkfs :=
  LinkFs
    (fun s => match kernel_walk t false m [] (split_sep s) with
              | Some (_, r) => match t r with Some (KLink _) => LLink | Some _ => LOther | None => LErr 2 end
              | None => LErr 2
              end)
    (fun s => match kernel_walk t false m [] (split_sep s) with
              | Some (_, r) => match t r with Some (KLink l) => RTarget l | _ => RErr 22 end
              | None => RErr 2
              end).

(* A tree written out, for examples. *)
Fixpoint path_eqb (a b : list (list byte)) : bool :=
  match a, b with
  | [], [] => true
  | x :: a, y :: b => bytes_eqb x y && path_eqb a b
  | _, _ => false
  end.
Fixpoint tree_of (al : list (list (list byte) * knode)) (p : list (list byte)) : option knode :=
  match al with
  | [] => None
  | (q, k) :: al => if path_eqb q p then Some k else tree_of al p
  end.
Fixpoint texts {V} (al : list (list byte * V)) (dflt : V) (s : list byte) : V :=
  match al with
  | [] => dflt
  | (q, v) :: al => if bytes_eqb q s then v else texts al dflt s
  end.

(* What a failure says: the file system's own error, or a link read that leads out. *)
Definition fs_said (fs : linkfs) (c : nat) : Prop := exists s, lstat fs s = LErr c \/ readlink fs s = RErr c.
Definition leads_out (fs : linkfs) : Prop :=
  exists s l, readlink fs s = RTarget l /\ (rooted l = true \/ is_local (join2 (dir s) (clean l)) = false).
