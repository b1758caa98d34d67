(* Model of vroot-adapter/sftpfs/sftpfs.go: the paths it sends, RemoveAll, and what OpenFile and
   MkdirAll do to permissions. The SFTP server is a tree with POSIX path resolution, used by
   nobody else during the call. *)
From Verif Require Import Common ContentRange_Model PathLex_Model.
Open Scope nat_scope.

(* ---- the server ---- *)

(* A place on the server: its names from the root down, all of them directories but the last. *)
Definition place := list (list byte).
Inductive rnode := RDir (mode : N) | RFile (mode : N) (data : list byte) | RLink (target : list byte).
Definition rfs := list (place * rnode).

Fixpoint place_eqb (a b : place) : bool :=
  match a, b with
  | [], [] => true
  | x :: a, y :: b => bytes_eqb x y && place_eqb a b
  | _, _ => false
  end.
Fixpoint rfind (fs : rfs) (p : place) : option rnode :=
  match fs with
  | [] => None
  | (q, n) :: r => if place_eqb q p then Some n else rfind r p
  end.
(* What stands at a place; the root is a directory. *)
Definition rget (fs : rfs) (p : place) : option rnode := match p with [] => Some (RDir 493) | _ => rfind fs p end.
Definition rdel (fs : rfs) (p : place) : rfs := filter (fun e => negb (place_eqb (fst e) p)) fs.
Definition rset (fs : rfs) (p : place) (n : rnode) : rfs := (p, n) :: rdel fs p.

(* The name q ends in, if q is a child of p. *)
Fixpoint child_of (p q : place) : option (list byte) :=
  match p, q with
  | [], [c] => Some c
  | x :: p, y :: q => if bytes_eqb x y then child_of p q else None
  | _, _ => None
  end.
Definition rlist (fs : rfs) (p : place) : list (list byte) :=
  flat_map (fun e => match child_of p (fst e) with Some c => [c] | None => [] end) fs.

(* Path resolution in the server: every element must be a directory or a symlink to one, at most
   [hops] symlinks are followed. *)
Inductive wres := WAt (p : place) | WMissing | WBad.
Fixpoint walk (hops : nat) (fs : rfs) : place -> list (list byte) -> wres :=
  fix go (cur : place) (todo : list (list byte)) : wres :=
    match todo with
    | [] => WAt cur
    | c :: rest =>
        if is_empty c || is_dot c then go cur rest
        else if is_dotdot c then go (removelast cur) rest
        else match rget fs (cur ++ [c]) with
             | Some (RDir _) => go (cur ++ [c]) rest
             | Some (RFile _ _) => WBad
             | Some (RLink t) =>
                 match hops with
                 | O => WBad
                 | S h => walk h fs (if rooted t then [] else cur) (split_sep t ++ rest)
                 end
             | None => WMissing
             end
    end.
(* Where a path's last element is, itself not followed. *)
Definition place_of (hops : nat) (fs : rfs) (abs : list byte) : wres :=
  let l := split_sep abs in
  let c := last l [] in
  if is_empty c || is_dot c || is_dotdot c then WBad
  else match walk hops fs [] (removelast l) with WAt d => WAt (d ++ [c]) | r => r end.
(* Where a path leads, its last element followed too. *)
Fixpoint follow (n : nat) (hops : nat) (fs : rfs) (p : place) : wres :=
  match rget fs p with
  | Some (RLink t) =>
      match n with
      | O => WBad
      | S n =>
          let d := if rooted t then [] else removelast p in
          match walk hops fs d (removelast (split_sep t)) with
          | WAt q =>
              let c := last (split_sep t) [] in
              if is_empty c || is_dot c then WAt q
              else if is_dotdot c then WAt (removelast q)
              else follow n hops fs (q ++ [c])
          | r => r
          end
      end
  | _ => WAt p
  end.
Definition target_of (hops : nat) (fs : rfs) (abs : list byte) : wres :=
  match place_of hops fs abs with WAt p => follow hops hops fs p | r => r end.

(* ---- requests ---- *)
Inductive serr := ENoent | EFail (code : nat).
(* The server's answer to a request: it serves it; refuses it; or serves it (of a listing: sends
   the first k names) and reports an error all the same. *)
Inductive answer := Serve | Refuse (e : serr) | Late (e : serr) (k : nat).
(* The server, the number of requests made, and the paths they named. *)
Record srv := { r_fs : rfs; r_tick : nat; r_sent : list (list byte) }.
Definition sent (st : srv) (abs : list byte) : srv := {| r_fs := r_fs st; r_tick := S (r_tick st); r_sent := r_sent st ++ [abs] |}.
Definition with_fs (st : srv) (fs : rfs) : srv := {| r_fs := fs; r_tick := r_tick st; r_sent := r_sent st |}.

Section server.
Variable ans : nat -> answer.
Variable hops : nat.

(* client.Remove: unlink, or rmdir of an empty directory; symlinks are not followed. *)
Definition do_remove (fs : rfs) (abs : list byte) : rfs * option serr :=
  match place_of hops fs abs with
  | WMissing => (fs, Some ENoent)
  | WBad => (fs, Some (EFail 0))
  | WAt p =>
      match rget fs p with
      | None => (fs, Some ENoent)
      | Some (RDir _) => match rlist fs p with [] => (rdel fs p, None) | _ => (fs, Some (EFail 1)) end
      | Some _ => (rdel fs p, None)
      end
  end.
Definition req_remove (st : srv) (abs : list byte) : srv * option serr :=
  let st1 := sent st abs in
  match ans (r_tick st) with
  | Serve => let '(fs, r) := do_remove (r_fs st) abs in (with_fs st1 fs, r)
  | Refuse e => (st1, Some e)
  | Late e _ => (with_fs st1 (fst (do_remove (r_fs st) abs)), Some e)
  end.
(* client.Lstat: is it a directory? *)
Definition req_lstat (st : srv) (abs : list byte) : srv * (bool + serr) :=
  (sent st abs,
   match ans (r_tick st) with
   | Serve =>
       match place_of hops (r_fs st) abs with
       | WMissing => inr ENoent
       | WBad => inr (EFail 0)
       | WAt p => match rget (r_fs st) p with None => inr ENoent | Some (RDir _) => inl true | Some _ => inl false end
       end
   | Refuse e | Late e _ => inr e
   end).
(* client.ReadDir: names and an error. *)
Definition do_list (fs : rfs) (abs : list byte) : list (list byte) * option serr :=
  match target_of hops fs abs with
  | WMissing => ([], Some ENoent)
  | WBad => ([], Some (EFail 0))
  | WAt p => match rget fs p with None => ([], Some ENoent) | Some (RDir _) => (rlist fs p, None) | Some _ => ([], Some (EFail 2)) end
  end.
Definition req_readdir (st : srv) (abs : list byte) : srv * (list (list byte) * option serr) :=
  (sent st abs,
   match ans (r_tick st) with
   | Serve => do_list (r_fs st) abs
   | Refuse e => ([], Some e)
   | Late e k => (firstn k (fst (do_list (r_fs st) abs)), Some e)
   end).

Definition is_noent (e : serr) : bool := match e with ENoent => true | EFail _ => false end.
Definition first_of (a b : option serr) : option serr := match a with Some _ => a | None => b end.
(* The loop over a directory's names (:290-294). *)
Fixpoint each (f : srv -> list byte -> option (srv * option serr)) (abs : list byte) (es : list (list byte)) (st : srv) (first : option serr) : option (srv * option serr) :=
  match es with
  | [] => Some (st, first)
  | e :: es =>
      match f st (abs ++ sep :: e) with
      | None => None
      | Some (st', r) => each f abs es st' (first_of first r)
      end
  end.
(* removeAll (:261-299). None: recursion deeper than [fuel]. *)
Fixpoint remove_all (fuel : nat) (st : srv) (abs : list byte) : option (srv * option serr) :=
  match fuel with
  | O => None
  | S fuel =>
      let '(st1, r) := req_remove st abs in
      match r with
      | None | Some ENoent => Some (st1, None)
      | Some err =>
          let '(st2, l) := req_lstat st1 abs in
          match l with
          | inr ENoent => Some (st2, None)
          | inr lerr => Some (st2, Some lerr)
          | inl false => Some (st2, Some err)
          | inl true =>
              let '(st3, (entries, first)) := req_readdir st2 abs in
              match first with
              | Some ENoent => Some (st3, None)
              | _ =>
                  match each (remove_all fuel) abs entries st3 first with
                  | None => None
                  | Some (st4, first) =>
                      let '(st5, r) := req_remove st4 abs in
                      Some (st5, match r with Some (EFail c) => first_of first (Some (EFail c)) | _ => first end)
                  end
              end
          end
      end
  end.
End server.

(* ---- names ---- *)

(* isLocalSlash (:61-72), of a cleaned path. *)
Definition is_local_slash (p : list byte) : bool :=
  negb (is_empty p) && negb (rooted p) && negb (bytes_eqb p [dot; dot]) &&
  negb (match p with a :: b :: c :: _ => N.eqb a dot && N.eqb b dot && N.eqb c sep | _ => false end).
(* resolvePath (:43-56). None: ErrPathEscapes. *)
Definition resolve_path (base name : list byte) : option (list byte) :=
  let cleaned := clean name in
  if bytes_eqb cleaned [dot] then Some base
  else if negb (is_local_slash cleaned) then None
  else Some (join2 base cleaned).
(* endsWithDot (:305-310). *)
Definition ends_with_dot (name : list byte) : bool :=
  bytes_eqb name [dot] || match rev name with a :: b :: _ => N.eqb a dot && N.eqb b sep | _ => false end.

Inductive rmres := RmRefused | RmDone (r : option serr).
(* RemoveAll (:241-257). *)
Definition remove_all_of (ans : nat -> answer) (hops fuel : nat) (base name : list byte) (st : srv) : option (srv * rmres) :=
  if ends_with_dot name then Some (st, RmRefused)
  else match resolve_path base name with
       | None => Some (st, RmRefused)
       | Some abs =>
           if bytes_eqb abs base then Some (st, RmRefused)
           else match remove_all ans hops fuel st abs with
                | None => None
                | Some (st', r) => Some (st', RmDone r)
                end
       end.

(* The other methods, each of which sends one request, some a second one. *)
Inductive sreq :=
| QChmod (p : list byte) (mode : N) | QChown (p : list byte) | QChtimes (p : list byte) | QLink (o n : list byte)
| QStat (p : list byte) | QLstat (p : list byte) | QMkdir (p : list byte) | QMkdirAll (p : list byte)
| QOpen (p : list byte) | QReadLink (p : list byte) | QRemove (p : list byte) | QRename (o n : list byte) (posix : bool)
| QSymlink (target n : list byte) | QReadDir (p : list byte).
(* The paths a request names; a symlink's target is stored, not used. *)
Definition req_paths (q : sreq) : list (list byte) :=
  match q with
  | QChmod p _ | QChown p | QChtimes p | QStat p | QLstat p | QMkdir p | QMkdirAll p | QOpen p | QReadLink p | QRemove p
  | QSymlink _ p | QReadDir p => [p]
  | QLink o n | QRename o n _ => [o; n]
  end.
Inductive scall :=
| SChmod (name : list byte) (mode : N) | SChown (name : list byte) | SChtimes (name : list byte) | SLchown (name : list byte)
| SLink (o n : list byte) | SLstat (name : list byte) | SMkdir (name : list byte) (perm : N) | SMkdirAll (name : list byte) (perm : N)
| SOpenFile (name : list byte) (create : bool) (perm : N) | SReadLink (name : list byte) | SRemove (name : list byte)
| SRename (o n : list byte) (posix : bool) | SStat (name : list byte) | SSymlink (target name : list byte) | SReadDir (name : list byte).
(* The requests a call sends (:75-231, :313-365); [ok]: the first one succeeded. *)
Definition requests (base : list byte) (c : scall) (ok : bool) : list sreq :=
  let one name f := match resolve_path base name with Some abs => f abs | None => [] end in
  let two o n f := match resolve_path base o, resolve_path base n with Some a, Some b => f a b | _, _ => [] end in
  match c with
  | SChmod name m => one name (fun p => [QChmod p m])
  | SChown name => one name (fun p => [QChown p])
  | SChtimes name => one name (fun p => [QChtimes p])
  | SLchown name => one name (fun p => [QChown p])
  | SLink o n => two o n (fun a b => [QLink a b])
  | SLstat name => one name (fun p => if bytes_eqb p base then [QStat p] else [QLstat p])
  | SMkdir name perm => one name (fun p => QMkdir p :: if ok && negb (N.eqb perm 0) then [QChmod p perm] else [])
  | SMkdirAll name perm => one name (fun p => QMkdirAll p :: if ok && negb (N.eqb perm 0) then [QChmod p perm] else [])
  | SOpenFile name create perm => one name (fun p => QOpen p :: if ok && negb (N.eqb perm 0) && create then [QChmod p perm] else [])
  | SReadLink name => one name (fun p => if bytes_eqb p base then [] else [QReadLink p])
  | SRemove name => one name (fun p => [QRemove p])
  | SRename o n posix => two o n (fun a b => [QRename a b posix])
  | SStat name => one name (fun p => [QStat p])
  | SSymlink target name => one name (fun p => [QSymlink target p])
  | SReadDir name => one name (fun p => [QReadDir p])
  end.

(* ---- permissions ---- *)
Definition mode_of (n : rnode) : option N := match n with RDir m | RFile m _ => Some m | RLink _ => None end.
Definition chmod_node (n : rnode) (m : N) : rnode := match n with RDir _ => RDir m | RFile _ d => RFile m d | RLink t => RLink t end.
(* client.Chmod: follows symlinks. *)
Definition do_chmod (hops : nat) (fs : rfs) (abs : list byte) (m : N) : rfs :=
  match target_of hops fs abs with
  | WAt p => match rget fs p with Some n => rset fs p (chmod_node n m) | None => fs end
  | _ => fs
  end.
(* client.OpenFile: opens what is there, or creates it with the server's default mode; None is an
   error. Truncation is left out. *)
Definition do_open (hops : nat) (fs : rfs) (abs : list byte) (create excl : bool) (dflt : N) : option rfs :=
  match target_of hops fs abs with
  | WAt p =>
      match rget fs p with
      | Some _ => if create && excl then None else Some fs
      | None => if create then Some (rset fs p (RFile dflt [])) else None
      end
  | _ => None
  end.
(* OpenFile (:191-210). *)
Definition open_file (hops : nat) (fs : rfs) (base name : list byte) (create excl : bool) (perm dflt : N) : option rfs :=
  match resolve_path base name with
  | None => None
  | Some abs =>
      match do_open hops fs abs create excl dflt with
      | None => None
      | Some fs1 => Some (if negb (N.eqb perm 0) && create then do_chmod hops fs1 abs perm else fs1)
      end
  end.
(* MkdirAll (:163-175) on a directory that is there: client.MkdirAll makes nothing. *)
Definition mkdir_all_there (hops : nat) (fs : rfs) (base name : list byte) (perm : N) : option rfs :=
  match resolve_path base name with
  | None => None
  | Some abs =>
      match target_of hops fs abs with
      | WAt p => match rget fs p with
                 | Some (RDir _) => Some (if negb (N.eqb perm 0) then do_chmod hops fs abs perm else fs)
                 | _ => None
                 end
      | _ => None
      end
  end.
