(* What sqlite may believe about its files: plain files under plain names, and what a failure of
   the backend does to them. *)
From Verif Require Import Common ContentRange_Model PathLex_Model SqlVfs_Model SqlFile_Model.
Open Scope nat_scope.

(* ---- names ---- *)

(* A name is read from the root down: empty elements and dots are nothing, dot-dot goes up and
   stays at the root. *)
Definition turn (st : list (list byte)) (c : list byte) : list (list byte) :=
  match c with
  | [] | [46%N] => st
  | [46%N; 46%N] => tl st
  | _ => c :: st
  end.
Definition canon (name : list byte) : list (list byte) := rev (fold_left turn (split_sep name) []).

(* ---- contents ---- *)

(* So many bytes; byte number i. *)
Record content := Content { c_len : nat; c_at : nat -> byte }.
Definition empty_content : content := Content 0 (fun _ => 0%N).
Definition byte_at (c : content) (i : nat) : byte := if i <? c_len c then c_at c i else 0%N.
(* The n bytes from off on, as sqlite sees them: zeros where there are none. *)
Definition page (c : content) (off n : nat) : list byte := map (fun i => byte_at c (off + i)) (seq 0 n).
Definition written (c : content) (off : nat) (bs : list byte) : content :=
  match bs with
  | [] => c
  | _ => Content (Nat.max (c_len c) (off + length bs))
                 (fun i => if (off <=? i) && (i <? off + length bs) then nth (i - off) bs 0%N else byte_at c i)
  end.
Definition resized (c : content) (n : nat) : content := Content n (byte_at c).

(* ---- what sqlite is told ---- *)

Inductive told_ :=
| TOpened (h : nat) (mem : bool) | TOk | TFail (c : code) | TBool (b : bool)
| TPage (d : list byte) | TShort (d : list byte) | TSize (n : nat) | TLevel (l : nat) | TNone.

(* go-sqlite3's vfsErrorCode: an error that is a code, or carries one at its top, gives it. *)
Definition code_or (e : err) (c : code) : code := match e with ECode c | ESys _ c => c | _ => c end.
Definition ok_or (e : option err) (c : code) : told_ := match e with None => TOk | Some e => TFail (code_or e c) end.
(* go-sqlite3's bridge: what it makes of an answer; a read compares the error with io.EOF by
   identity, and only if fewer bytes came than were asked for. *)
Definition told (c : call) (a : ans) : told_ :=
  match c, a with
  | _, ANone => TNone
  | KOpen _ _ _, AOpen (Some h) m None => TOpened h m
  | KOpen _ _ _, AOpen _ _ (Some e) => TFail (code_or e Cantopen)
  | KDelete _ _, AErr e => ok_or e IoDelete
  | KAccess _ _, ABool b None => TBool b
  | KAccess _ _, ABool _ (Some e) => TFail (code_or e IoAccess)
  | KRead _ _ n _, ARead d e =>
      if length d =? n then TPage d
      else match e with
           | Some EEof => TShort (d ++ repeat 0%N (n - length d))
           | Some e => TFail (code_or e IoRead)
           | None => TFail IoRead
           end
  | KWrite _ _ _ _, AErr e => ok_or e IoWrite
  | KTruncate _ _ _, AErr e => ok_or e IoTruncate
  | KSync _ _, AErr e => ok_or e IoFsync
  | KSize _ _, ASize n None => TSize n
  | KSize _ _, ASize _ (Some e) => TFail (code_or e IoFstat)
  | KLock _ _ _, AErr e => ok_or e IoLock
  | KUnlock _ _ _, AErr e => ok_or e IoUnlock
  | KReserved _, ABool b None => TBool b
  | KLockState _, ALevel l => TLevel l
  | KClose _ _ _ _, AErr e => ok_or e IoClose
  | _, _ => TNone
  end.

(* ---- plain files ---- *)

(* What an open handle is on: a file of its own in memory, or a file of the tree. *)
Inductive what := WMem (c : content) | WFile (ino : nat).
Record shandle := SHandle { sh_what : what; sh_write : bool; sh_ro : bool; sh_delete : bool;
                            sh_name : list (list byte); sh_level : nat }.
Record plain := Plain { p_node : list (list byte) -> option node; p_file : nat -> content; p_next : nat;
                        p_handles : list (option shandle) }.

Fixpoint same_path (a b : list (list byte)) : bool :=
  match a, b with
  | [], [] => true
  | x :: a, y :: b => (if list_eq_dec N.eq_dec x y then true else false) && same_path a b
  | _, _ => false
  end.
Definition set_node (p : plain) (q : list (list byte)) (n : option node) : plain :=
  Plain (fun r => if same_path r q then n else p_node p r) (p_file p) (p_next p) (p_handles p).
Definition set_file (p : plain) (i : nat) (c : content) : plain :=
  Plain (p_node p) (fun j => if j =? i then c else p_file p j) (p_next p) (p_handles p).
Definition put_h (p : plain) (h : nat) (x : option shandle) : plain :=
  Plain (p_node p) (p_file p) (p_next p) (firstn h (p_handles p) ++ x :: skipn (S h) (p_handles p)).
Definition add_h (p : plain) (x : shandle) : plain :=
  Plain (p_node p) (p_file p) (p_next p) (p_handles p ++ [Some x]).
Definition p_handle (p : plain) (h : nat) : option shandle :=
  match nth_error (p_handles p) h with Some (Some x) => Some x | _ => None end.

(* A new empty file. *)
Definition new_file_at (p : plain) (q : list (list byte)) : plain :=
  Plain (fun r => if same_path r q then Some (NFile (p_next p)) else p_node p r)
        (fun j => if j =? p_next p then empty_content else p_file p j) (S (p_next p)) (p_handles p).

(* The bytes behind a handle, and the world with other bytes there. *)
Definition bytes_of (p : plain) (x : shandle) : content := match sh_what x with WMem c => c | WFile i => p_file p i end.
Definition store (p : plain) (h : nat) (x : shandle) (c : content) : plain :=
  match sh_what x with
  | WMem _ => put_h p h (Some (SHandle (WMem c) (sh_write x) (sh_ro x) (sh_delete x) (sh_name x) (sh_level x)))
  | WFile i => set_file p i c
  end.
Definition in_memory (x : shandle) : bool := match sh_what x with WMem _ => true | WFile _ => false end.
Definition level_to (x : shandle) (l : nat) : shandle :=
  SHandle (sh_what x) (sh_write x) (sh_ro x) (sh_delete x) (sh_name x) l.
(* The failure of a backend call that is made. *)
Definition hits {A} (made : bool) (f : option A) : option A := if made then f else None.

Definition pstep (v : env) (p : plain) (c : call) : plain * told_ :=
  match c with
  | KOpen name fl f =>
      let h := length (p_handles p) in
      match name with
      | [] => (add_h p (SHandle (WMem empty_content) true false false [] 0), TOpened h true)
      | _ =>
          let q := canon name in
          let fresh i := SHandle (WFile i) (o_readwrite fl) (o_readonly fl) (o_delete fl) q 0 in
          match f, walk (p_node p) [] q with
          | None, There (NFile i) => if o_create fl && o_exclusive fl then (p, TFail Cantopen) else (add_h p (fresh i), TOpened h false)
          | None, Missing =>
              if o_create fl && dir_there (p_node p) q
              then (add_h (new_file_at p q) (fresh (p_next p)), TOpened h false)
              else (p, TFail Cantopen)
          | _, _ => (p, TFail Cantopen)
          end
      end
  | KDelete name f =>
      match f, walk (p_node p) [] (canon name) with
      | None, There (NFile _) => (set_node p (canon name) None, TOk)
      | None, Missing => (p, TFail DeleteNoent)
      | _, _ => (p, TFail IoDelete)
      end
  | KAccess name f =>
      (p, match f, walk (p_node p) [] (canon name) with
          | None, There _ => TBool true
          | None, Missing => TBool false
          | _, _ => TFail IoAccess
          end)
  | KRead h off n f =>
      match p_handle p h with
      | Some x =>
          (p, match hits (negb (in_memory x) && (0 <? n)) f with
              | Some _ => TFail IoRead
              | None => if (n =? 0) || (off + n <=? c_len (bytes_of p x)) then TPage (page (bytes_of p x) off n)
                        else TShort (page (bytes_of p x) off n)
              end)
      | None => (p, TNone)
      end
  | KWrite h off bs f =>
      match p_handle p h with
      | Some x =>
          if negb (sh_write x) then (p, TFail IoWrite)
          else match hits (negb (in_memory x)) f with
               | Some (j, _) => (store p h x (written (bytes_of p x) off (firstn j bs)), TFail IoWrite)
               | None => (store p h x (written (bytes_of p x) off bs), TOk)
               end
      | None => (p, TNone)
      end
  | KTruncate h n f =>
      match p_handle p h with
      | Some x =>
          if negb (sh_write x) then (p, TFail IoTruncate)
          else match hits (negb (in_memory x)) f with
               | Some _ => (p, TFail IoTruncate)
               | None => (store p h x (resized (bytes_of p x) n), TOk)
               end
      | None => (p, TNone)
      end
  | KSync h f =>
      (p, match p_handle p h with
          | Some x => match hits (negb (in_memory x)) f with Some _ => TFail IoFsync | None => TOk end
          | None => TNone
          end)
  | KSize h f =>
      (p, match p_handle p h with
          | Some x => match hits (negb (in_memory x)) f with Some _ => TFail IoFstat | None => TSize (c_len (bytes_of p x)) end
          | None => TNone
          end)
  | KLock h l f =>
      match p_handle p h with
      | Some x =>
          if in_memory x then (p, TNone)
          else if l <=? sh_level x then (p, TOk)
          else if (2 <=? l) && sh_ro x then (p, TFail IoLock)
          else match hits (e_locks v) f with
               | Some _ => (p, TFail IoLock)
               | None => (put_h p h (Some (level_to x l)), TOk)
               end
      | None => (p, TNone)
      end
  | KUnlock h l f =>
      match p_handle p h with
      | Some x =>
          if in_memory x then (p, TNone)
          else if sh_level x <=? l then (p, TOk)
          else (put_h p h (Some (level_to x l)), match hits (e_locks v) f with Some _ => TFail IoUnlock | None => TOk end)
      | None => (p, TNone)
      end
  | KReserved h =>
      (p, match p_handle p h with Some x => if in_memory x then TNone else TBool (2 <=? sh_level x) | None => TNone end)
  | KLockState h =>
      (p, match p_handle p h with Some x => if in_memory x then TNone else TLevel (sh_level x) | None => TNone end)
  | KClose h fu fc fr =>
      match p_handle p h with
      | Some x =>
          let q := put_h p h None in
          let gone := match hits (sh_delete x) fr with None => sh_delete x | Some _ => false end in
          (match sh_what x with
           | WFile i => match walk (p_node p) [] (sh_name x) with
                        | There (NFile j) => if gone && (i =? j) then set_node q (sh_name x) None else q
                        | _ => q
                        end
           | WMem _ => q
           end,
           if in_memory x then TOk
           else match hits (e_locks v && (0 <? sh_level x)) fu, fc, hits (sh_delete x) fr with
                | None, None, None => TOk
                | _, _, _ => TFail IoClose
                end)
      | None => (p, TNone)
      end
  end.
Fixpoint prun (v : env) (p : plain) (cs : list call) : plain * list told_ :=
  match cs with
  | [] => (p, [])
  | c :: cs => let '(p, a) := pstep v p c in let '(p, l) := prun v p cs in (p, a :: l)
  end.

(* ---- what is assumed of the calls ---- *)

(* Open and Delete name no directory, and a handle that deletes its file when closed still finds
   that file under its name. *)
Definition not_dir (p : plain) (name : list byte) : Prop := walk (p_node p) [] (canon name) <> There NDir.
Definition fits (p : plain) (c : call) : Prop :=
  match c with
  | KOpen name _ _ => name <> [] -> not_dir p name
  | KDelete name _ => not_dir p name
  | KClose h _ _ _ =>
      match p_handle p h with
      | Some x => match sh_what x with
                  | WFile i => sh_delete x = true -> walk (p_node p) [] (sh_name x) = There (NFile i)
                  | WMem _ => True
                  end
      | None => True
      end
  | _ => True
  end.
Fixpoint all_fit (v : env) (p : plain) (cs : list call) : Prop :=
  match cs with [] => True | c :: cs => fits p c /\ all_fit v (fst (pstep v p c)) cs end.

(* ---- what a backend holds ---- *)

Definition shows (d : list byte) (c : content) : Prop :=
  length d = c_len c /\ forall i, i < c_len c -> nth i d 0%N = c_at c i.
(* The names and bytes of the backend are those of the plain files. *)
Definition holds (b : backend) (p : plain) : Prop :=
  (forall q, entry b q = p_node p q) /\
  length (b_data b) = p_next p /\
  (forall i, i < p_next p -> shows (data_of b i) (p_file p i)) /\
  (forall q i, p_node p q = Some (NFile i) -> i < p_next p).

(* The backend's open descriptors are those behind the handles that are open, one each. *)
Definition owns (s : sstate) (h k : nat) : Prop := exists x, handle_of s h = Some (HFile x) /\ sf_fd x = k.
Definition tidy (s : sstate) : Prop :=
  (forall h k, owns s h k -> exists x, fd_of (s_back s) k = Some x) /\
  (forall k x, fd_of (s_back s) k = Some x -> exists h, owns s h k) /\
  (forall h h' k, owns s h k -> owns s h' k -> h = h').
(* A descriptor that is closed holds no lock. *)
Definition lets_go (s : sstate) : Prop :=
  forall k x, nth_error (b_fds (s_back s)) k = Some x -> fd_open x = false -> fd_lock x = ONone.

(* A handle in memory. *)
Definition on_memory (s : sstate) (h : nat) : Prop := exists d, handle_of s h = Some (HMem d).
(* The handle that a call is made on; opening without a name is one on memory as well. *)
Definition private_call (s : sstate) (c : call) : Prop :=
  match c with
  | KOpen name _ _ => name = []
  | KDelete _ _ | KAccess _ _ => False
  | KRead h _ _ _ | KWrite h _ _ _ | KTruncate h _ _ | KSync h _ | KSize h _ | KLock h _ _ | KUnlock h _ _
  | KReserved h | KLockState h | KClose h _ _ _ => on_memory s h
  end.

(* What sqlite is told over a history. *)
Definition sqlite_sees (v : env) (b : backend) (cs : list call) : list told_ :=
  map (fun x => told (fst x) (snd x)) (combine cs (snd (srun v (sinit b) cs))).
Definition left_by (v : env) (b : backend) (cs : list call) : backend := s_back (fst (srun v (sinit b) cs)).
(* The plain files that a backend holds which nothing has been opened on yet. *)
Definition plain_of (b : backend) : plain :=
  Plain (entry b) (fun i => Content (length (data_of b i)) (fun j => nth j (data_of b i) 0%N)) (length (b_data b)) [].
(* The files that the names are of exist. *)
Definition sound (b : backend) : Prop := b_fds b = [] /\ forall q i, entry b q = Some (NFile i) -> i < length (b_data b).

(* The lock a level stands for. *)
Definition lock_for (l : nat) : oslock := match l with 0 => ONone | 1 => OSh | _ => OEx end.
(* Each open handle has just the lock of its level on its descriptor. *)
Definition locked_right (s : sstate) : Prop :=
  forall h x y, handle_of s h = Some (HFile x) -> fd_of (s_back s) (sf_fd x) = Some y -> fd_lock y = lock_for (sf_level x).
(* Levels are given up as sqlite does, to SHARED or NONE, and giving one up does not fail. *)
Definition gives_up (c : call) : Prop := match c with KUnlock _ l f => l <= 1 /\ f = None | _ => True end.
