(* Model of vroot.WalkDir (vroot/walk.go). *)
From Verif Require Import Common ContentRange_Model PathLex_Model.
Open Scope Z_scope.

(* What the walk uses of a file's info. *)
Record winfo := { i_dir : bool; i_link : bool; i_id : N }.

(* The file system: Lstat, Stat, ReadDir (names, and whether it failed), ResolveSymlink (the real
   path or a failure, and the number of links followed) and fileIdentFromSys. *)
Record wfs := {
  w_lstat : list byte -> option winfo;
  w_stat : list byte -> option winfo;
  w_readdir : list byte -> list (list byte) * bool;
  w_resolve : list byte -> Z -> option (list byte) * Z;
  w_ident : list byte -> list byte -> winfo -> option N }.

(* Keys of visitedInodes and visitedPaths (:28-33). *)
Inductive wkey := KIno (n : N) | KPath (p : list byte).
Definition wkey_eqb (a b : wkey) : bool :=
  match a, b with
  | KIno x, KIno y => N.eqb x y
  | KPath x, KPath y => bytes_eqb x y
  | _, _ => false
  end.

Record wst := { vis : list wkey; remaining : Z }.

(* A call of the callback: path, real path, info (None: nil), and whether an error is passed. *)
Record wcall := { c_path : list byte; c_real : list byte; c_info : option winfo; c_err : bool }.
Inductive wret := Cont | SkipDir | SkipAll | Fail (e : N).

(* [log]: the calls made so far. *)
Inductive wout := Done (log : list wcall) (st : wst) (r : wret) | OutOfFuel.

(* The key recorded for a directory (:45-70): None when it cannot be told. *)
Definition key_of (fs : wfs) (path real : list byte) (i : winfo) : option wkey :=
  match w_ident fs path real i with
  | Some n => Some (KIno n)
  | None => match real with [] => None | _ => Some (KPath real) end
  end.

(* recordVisited (:40-77). *)
Definition record_visited (fs : wfs) (path real : list byte) (i : winfo) (st : wst) : bool * wst :=
  match key_of fs path real i with
  | None => (false, st)
  | Some k => if existsb (wkey_eqb k) (vis st) then (true, st) else (false, {| vis := k :: vis st; remaining := remaining st |})
  end.
(* removeVisited (:79-90). *)
Definition remove_visited (fs : wfs) (path real : list byte) (i : winfo) (st : wst) : wst :=
  match key_of fs path real i with
  | None => st
  | Some k => {| vis := filter (fun x => negb (wkey_eqb k x)) (vis st); remaining := remaining st |}
  end.

(* The deferred functions (:138-140, :161). *)
Definition after (f : wst -> wst) (o : wout) : wout :=
  match o with Done l s r => Done l (f s) r | OutOfFuel => OutOfFuel end.
Definition spend (n : Z) (st : wst) : wst := {| vis := vis st; remaining := remaining st - n |}.

(* The callback decides from everything it was told so far. *)
Definition ask (fn : list wcall -> wcall -> wret) (log : list wcall) (c : wcall) : list wcall * wret := (log ++ [c], fn log c).

Definition child_real (real name : list byte) : list byte := match real with [] => [] | _ => join2 real name end.

(* The loop over the entries (:175-197). *)
Fixpoint walk_children (fs : wfs) (fn : list wcall -> wcall -> wret)
    (rec : list byte -> list byte -> winfo -> wst -> list wcall -> wout)
    (path real : list byte) (names : list (list byte)) (st : wst) (log : list wcall) : wout :=
  match names with
  | [] => Done log st Cont
  | name :: rest =>
      let cp := join2 path name in
      let cr := child_real real name in
      match w_lstat fs cp with
      | None =>
          let '(log1, r) := ask fn log {| c_path := cp; c_real := cr; c_info := None; c_err := true |} in
          Done log1 st r
      | Some i =>
          match rec cp cr i st log with
          | Done l s Cont => walk_children fs fn rec path real rest s l
          | Done l s SkipDir => Done l s Cont
          | o => o
          end
      end
  end.

(* walkDir_ after link resolution (:148-197). *)
Definition walk_body (fs : wfs) (fn : list wcall -> wcall -> wret)
    (rec : list byte -> list byte -> winfo -> wst -> list wcall -> wout)
    (path real : list byte) (i : winfo) (st : wst) (log : list wcall) : wout :=
  let '(log1, r) := ask fn log {| c_path := path; c_real := real; c_info := Some i; c_err := false |} in
  match r with
  | Cont =>
      if negb (i_dir i) then Done log1 st Cont
      else
        let '(visited, st1) := record_visited fs path real i st in
        if visited then Done log1 st1 Cont
        else after (remove_visited fs path real i)
          (let '(names, err) := w_readdir fs path in
           if err then
             let '(log2, r2) := ask fn log1 {| c_path := path; c_real := real; c_info := None; c_err := true |} in
             match r2 with
             | Cont => walk_children fs fn rec path real names st1 log2
             | SkipDir => Done log2 st1 Cont
             | _ => Done log2 st1 r2
             end
           else walk_children fs fn rec path real names st1 log1)
  | SkipDir => Done log1 st (if i_dir i then Cont else SkipDir)
  | _ => Done log1 st r
  end.

(* walkDir_ (:113-198); [follow] is ResolveSymlink. Fuel bounds the depth of the recursion. *)
Fixpoint walk (fs : wfs) (follow : bool) (fn : list wcall -> wcall -> wret) (fuel : nat)
    (path0 real : list byte) (i : winfo) (st : wst) (log : list wcall) : wout :=
  match fuel with
  | O => OutOfFuel
  | S f =>
      let path := clean path0 in
      if follow && i_link i then
        match w_stat fs path with
        | None =>
            let '(log1, r) := ask fn log {| c_path := path; c_real := real; c_info := None; c_err := true |} in
            Done log1 st r
        | Some i' =>
            match real with
            | [] => walk_body fs fn (walk fs follow fn f) path [] i' st log
            | _ =>
                let '(r, n) := w_resolve fs real (remaining st) in
                after (spend (- n))
                  (match r with
                   | None =>
                       let '(log1, r) := ask fn log {| c_path := path; c_real := real; c_info := Some i'; c_err := true |} in
                       Done log1 (spend n st) r
                   | Some real' => walk_body fs fn (walk fs follow fn f) path real' i' (spend n st) log
                   end)
            end
        end
      else walk_body fs fn (walk fs follow fn f) path real i st log
  end.

(* WalkDir (:92-111): the calls made and the error returned. *)
Definition walk_dir (fs : wfs) (follow : bool) (fn : list wcall -> wcall -> wret) (fuel : nat) (root : list byte) : option (list wcall * option N) :=
  let o := match w_lstat fs root with
           | None => let '(l, r) := ask fn [] {| c_path := root; c_real := root; c_info := None; c_err := true |} in Done l {| vis := []; remaining := 40 |} r
           | Some i => walk fs follow fn fuel root root i {| vis := []; remaining := 40 |} []
           end in
  match o with
  | OutOfFuel => None
  | Done l _ (Fail e) => Some (l, Some e)
  | Done l _ _ => Some (l, None)
  end.
