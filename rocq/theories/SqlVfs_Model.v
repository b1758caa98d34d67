(* Model of vroot-adapter/overlayfs/internal/sqlvfs: the lock levels of file.go over the
   whole-file lock of vroot/osfs/lock_unix.go, and the names of sqlvfs.go. *)
From Verif Require Import Common ContentRange_Model PathLex_Model FileClient_Model.
Open Scope nat_scope.

(* vfs.LockLevel: NONE, SHARED, RESERVED, PENDING, EXCLUSIVE. *)
Notation level := nat (only parsing).
Definition l_none := 0.
Definition l_shared := 1.
Definition l_reserved := 2.
Definition l_exclusive := 4.

(* What flock(2) holds for an open file description. *)
Inductive oslock := ONone | OSh | OEx.
Definition os_eqb (a b : oslock) : bool :=
  match a, b with ONone, ONone | OSh, OSh | OEx, OEx => true | _, _ => false end.

(* Where a handle is: between calls, or inside flock, which has removed the lock held before
   and waits for the new one. [up]: Lock or Unlock. *)
Inductive pc := Idle | Wait (up : bool) (l : level) (how : oslock).

(* file (file.go:41-48). [v_locks]: the backend's file is a Locker. [v_snap] is a ghost: the
   database version when the handle last came up from NONE. *)
Record vfile := VFile { v_locks : bool; v_ro : bool; v_level : level; v_os : oslock; v_pc : pc; v_snap : nat }.

(* The handles on one database and its version, which every write raises. *)
Record vstate := VState { vs_files : list vfile; vs_version : nat }.

Inductive vop :=
| ALock (i : nat) (l : level)      (* call Lock *)
| AUnlock (i : nat) (l : level)    (* call Unlock *)
| AUnlockFail (i : nat) (l : level)(* call Unlock, flock(LOCK_UN) fails *)
| AGrant (i : nat)                 (* flock gets the lock it waits for *)
| AFail (i : nat)                  (* flock fails *)
| AWrite (i : nat).                (* sqlite writes the database through the handle *)

Fixpoint put_nth {A} (l : list A) (i : nat) (x : A) : list A :=
  match l, i with [], _ => [] | _ :: r, O => x :: r | y :: r, S i => y :: put_nth r i x end.

Definition enter (f : vfile) (up : bool) (l : level) (how : oslock) : vfile :=
  VFile (v_locks f) (v_ro f) (v_level f) (if os_eqb (v_os f) how then how else ONone) (Wait up l how) (v_snap f).
(* The call returns: the level is set, and Lock from NONE begins a new snapshot. *)
Definition settle (f : vfile) (l : level) (os : oslock) (ver : nat) : vfile :=
  VFile (v_locks f) (v_ro f) l os Idle (if Nat.eqb (v_level f) l_none then ver else v_snap f).

(* No other handle's lock is in the way. *)
Definition allows (how o : oslock) : bool :=
  match how, o with OEx, ONone | OSh, ONone | OSh, OSh | ONone, _ => true | _, _ => false end.
Fixpoint grantable (fs : list vfile) (i : nat) (how : oslock) : bool :=
  match fs with
  | [] => true
  | f :: fs => match i with
               | O => forallb (fun g => allows how (v_os g)) fs
               | S i => allows how (v_os f) && grantable fs i how
               end
  end.

(* One step of handle [f], number i. *)
Definition vstep (s : vstate) (o : vop) : vstate :=
  let upd i f := VState (put_nth (vs_files s) i f) (vs_version s) in
  match o with
  | ALock i l =>                                     (* file.go:109-127 *)
      match nth_error (vs_files s) i with
      | Some f =>
          match v_pc f with
          | Wait _ _ _ => s
          | Idle =>
              if l <=? v_level f then s
              else if (l_reserved <=? l) && v_ro f then s
              else if v_locks f then upd i (enter f true l (if l =? l_shared then OSh else OEx))
              else upd i (settle f l (v_os f) (vs_version s))
          end
      | None => s
      end
  | AUnlock i l =>                                   (* file.go:130-146 *)
      match nth_error (vs_files s) i with
      | Some f =>
          match v_pc f with
          | Wait _ _ _ => s
          | Idle =>
              if v_level f <=? l then s
              else if v_locks f then
                if l =? l_shared then upd i (enter f false l OSh)
                else upd i (settle f l ONone (vs_version s))
              else upd i (settle f l (v_os f) (vs_version s))
          end
      | None => s
      end
  | AUnlockFail i l =>
      match nth_error (vs_files s) i with
      | Some f =>
          match v_pc f with
          | Wait _ _ _ => s
          | Idle => if v_level f <=? l then s else if v_locks f && negb (l =? l_shared) then upd i (settle f l (v_os f) (vs_version s)) else s
          end
      | None => s
      end
  | AGrant i =>
      match nth_error (vs_files s) i with
      | Some f =>
          match v_pc f with
          | Wait _ l how => if grantable (vs_files s) i how then upd i (settle f l how (vs_version s)) else s
          | Idle => s
          end
      | None => s
      end
  | AFail i =>
      match nth_error (vs_files s) i with
      | Some f =>
          match v_pc f with
          | Wait up l _ => upd i (settle f (if up then v_level f else l) ONone (vs_version s))
          | Idle => s
          end
      | None => s
      end
  | AWrite i =>
      match nth_error (vs_files s) i with
      | Some f => if l_reserved <=? v_level f then
                    match v_pc f with
                    | Idle => VState (put_nth (vs_files s) i (VFile (v_locks f) (v_ro f) (v_level f) (v_os f) Idle (S (vs_version s)))) (S (vs_version s))
                    | _ => s
                    end
                  else s
      | None => s
      end
  end.
Definition vrun (s : vstate) (ops : list vop) : vstate := fold_left vstep ops s.

(* Freshly opened handles. *)
Definition new_file (c : bool * bool) : vfile := VFile (fst c) (snd c) l_none ONone Idle 0.
Definition vinit (cs : list (bool * bool)) : vstate := VState (map new_file cs) 0.

(* ---- names ---- *)

(* cleanPath (sqlvfs.go:140-142). *)
Definition trim_one (p : list byte) : list byte := match p with c :: r => if N.eqb c sep then r else p | [] => [] end.
Definition clean_path (name : list byte) : list byte := trim_one (clean (sep :: name)).

(* net/url shouldEscape(c, encodePath), for URL.String of a Path; the semicolon, the comma and
   the slash stay as well here. *)
Definition uri_plain (b : byte) : bool := plain_byte b || existsb (N.eqb b) [47; 44; 59]%N.
Definition uri_byte (b : byte) : list byte :=
  if uri_plain b then [b] else [37%N; hex_digit (b / 16)%N; hex_digit (b mod 16)%N].
Definition uri_escape (s : list byte) : list byte := flat_map uri_byte s.
(* "file:" *)
Definition file_scheme : list byte := [102; 105; 108; 101; 58]%N.
(* DSN (sqlvfs.go:64-77); [q] is the encoded query. *)
Definition dsn (name q : list byte) : list byte := file_scheme ++ uri_escape (sep :: clean_path name) ++ 63%N :: q.
