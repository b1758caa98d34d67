(* Model of aferofs/synth under several goroutines (fs.go, dir.go, dirent.go). The file system
   has no lock of its own: each directory has one, taken and given back by every single method
   of [dir]. A call is therefore a sequence of such steps, each atomic, and the steps of other
   goroutines may come between any two of them. Every permission is granted throughout (what
   the modes refuse is C70); the bytes of files and their Close are left out (C71, C72). *)
From Verif Require Import Common.
Open Scope nat_scope.

(* A name is numbered, an object is known by the goroutine that made it and a serial number
   (two allocations never give the same pointer); goroutine [S i] is the [i]-th of a run and
   0 made what is there at first. *)
Notation name := nat (only parsing).
Definition id : Type := (nat * nat)%type.
Definition id_eqb (a b : id) : bool := Nat.eqb (fst a) (fst b) && Nat.eqb (snd a) (snd b).
Definition root : id := (0, 0).

(* A dirent (dirent.go:10-18): its own name, which never changes, and either a file or a
   directory with its entries in order of insertion (dir.go:10-22). *)
Inductive obj := Dir (nm : name) (ents : list (name * id)) | File (nm : name).
Definition heap := id -> option obj.
Definition set (h : heap) (i : id) (o : obj) : heap := fun j => if id_eqb j i then Some o else h j.
Definition name_of (o : obj) : name := match o with Dir n _ => n | File n => n end.

Fixpoint assoc (l : list (name * id)) (c : name) : option id :=
  match l with [] => None | (k, x) :: r => if Nat.eqb k c then Some x else assoc r c end.
Fixpoint drop_name (l : list (name * id)) (c : name) : list (name * id) :=
  match l with [] => [] | (k, x) :: r => if Nat.eqb k c then r else (k, x) :: drop_name r c end.

Inductive aerr := ENoEnt | ENotDir | EExist | EIsDir | ENotEmpty | EInval.
Inductive res := Fail (e : aerr) | Done | Got (u : id).

(* What a goroutine still has to do. Each constructor but [Ret] is one atomic step. *)
Inductive proc :=
  | Ret (r : list res)
  | New (dir : bool) (nm : name) (k : id -> proc)        (* newDirDirent, newFileDirent (dirent.go:20-34) *)
  | Lookup (d : id) (c : name) (k : option id -> proc)   (* dir.lookup (dir.go:37-45) *)
  | IsDir (u : id) (k : bool -> proc)                    (* dirent.IsDir (dirent.go:83-85) *)
  | Len (d : id) (k : nat -> proc)                       (* dir.Len (dir.go:161-165) *)
  | AddEnt (d u : id) (k : proc)                         (* dir.AddDirent (dir.go:114-124) *)
  | DropName (d : id) (c : name) (k : proc)              (* dir.RemoveName (dir.go:126-135) *)
  | DropEnt (d u : id) (k : proc).                       (* dir.RemoveDirent (dir.go:137-139) *)

(* The directory's methods. AddDirent files the entry under the dirent's own name and says nil
   of what was there before. *)
Definition dir_lookup (h : heap) (d : id) (c : name) : option id :=
  match h d with Some (Dir _ es) => assoc es c | _ => None end.
Definition dir_len (h : heap) (d : id) : nat := match h d with Some (Dir _ es) => length es | _ => 0 end.
Definition dir_add (h : heap) (d u : id) : heap :=
  match h d, h u with
  | Some (Dir n es), Some o => set h d (Dir n (drop_name es (name_of o) ++ [(name_of o, u)]))
  | _, _ => h
  end.
Definition dir_drop (h : heap) (d : id) (c : name) : heap :=
  match h d with Some (Dir n es) => set h d (Dir n (drop_name es c)) | _ => h end.
Definition dir_drop_ent (h : heap) (d u : id) : heap :=
  match h u with Some o => dir_drop h d (name_of o) | None => h end.
Definition is_dir (h : heap) (u : id) : bool := match h u with Some (Dir _ _) => true | _ => false end.

(* One step of goroutine [me], which has made [n] objects so far. *)
Definition exec (me n : nat) (h : heap) (p : proc) : heap * nat * proc :=
  match p with
  | Ret r => (h, n, Ret r)
  | New b nm k => (set h (me, n) (if b then Dir nm [] else File nm), S n, k (me, n))
  | Lookup d c k => (h, n, k (dir_lookup h d c))
  | IsDir u k => (h, n, k (is_dir h u))
  | Len d k => (h, n, k (dir_len h d))
  | AddEnt d u k => (dir_add h d u, n, k)
  | DropName d c k => (dir_drop h d c, n, k)
  | DropEnt d u k => (dir_drop_ent h d u, n, k)
  end.

(* A path: the components of its parent, and its last one. *)
Definition path : Type := (list name * name)%type.

(* findParent's loop (fs.go:121-132): each component is looked up in the directory found
   before, which nothing keeps in its place meanwhile. *)
Fixpoint walk (d : id) (ps : list name) (k : aerr + id -> proc) : proc :=
  match ps with
  | [] => k (inr d)
  | c :: r =>
      Lookup d c (fun o =>
        match o with
        | None => k (inl ENoEnt)
        | Some x => IsDir x (fun b => if b then walk x r k else k (inl ENotDir))
        end)
  end.

(* mkdir (fs.go:226-254). *)
Definition mkdir (p : path) (k : res -> proc) : proc :=
  walk root (fst p) (fun w =>
    match w with
    | inl e => k (Fail e)
    | inr d =>
        Lookup d (snd p) (fun o =>
          match o with
          | Some _ => k (Fail EExist)
          | None => New true (snd p) (fun u => AddEnt d u (k Done))
          end)
    end).

(* mkdirAll's loop (fs.go:283-311). *)
Fixpoint mkdir_all (d : id) (ps : list name) (k : res -> proc) : proc :=
  match ps with
  | [] => k Done
  | c :: r =>
      Lookup d c (fun o =>
        match o with
        | Some x => IsDir x (fun b => if b then mkdir_all x r k else k (Fail ENotDir))
        | None => New true c (fun u => AddEnt d u (IsDir u (fun b => if b then mkdir_all u r k else k (Fail ENotDir))))
        end)
  end.

(* openFile (fs.go:328-392): which of O_CREATE, O_EXCL and writing is asked for. *)
Definition open_file (p : path) (create excl write : bool) (k : res -> proc) : proc :=
  walk root (fst p) (fun w =>
    match w with
    | inl e => k (Fail e)
    | inr d =>
        Lookup d (snd p) (fun o =>
          match o with
          | Some x => if excl then k (Fail EExist) else IsDir x (fun b => if b && write then k (Fail EIsDir) else k (Got x))
          | None => if create then New false (snd p) (fun u => AddEnt d u (k (Got u))) else k (Fail ENoEnt)
          end)
    end).

(* Remove (fs.go:394-428): the entry is looked up, its kind and length are asked for, then the
   name is removed, whatever it then stands for. *)
Definition remove (p : path) (k : res -> proc) : proc :=
  walk root (fst p) (fun w =>
    match w with
    | inl e => k (Fail e)
    | inr d =>
        Lookup d (snd p) (fun o =>
          match o with
          | None => k (Fail ENoEnt)
          | Some x =>
              IsDir x (fun b =>
                if b then Len x (fun n => if 0 <? n then k (Fail ENotEmpty) else DropName d (snd p) (k Done))
                else DropName d (snd p) (k Done))
          end)
    end).

Fixpoint eqb_list (a b : list name) : bool :=
  match a, b with [], [] => true | x :: a, y :: b => Nat.eqb x y && eqb_list a b | _, _ => false end.
Fixpoint prefix_of (a b : list name) : bool :=
  match a, b with [], _ => true | x :: a, y :: b => Nat.eqb x y && prefix_of a b | _, [] => false end.
Definition full (p : path) : list name := fst p ++ [snd p].

(* rename (fs.go:482-562), from where the two targets are known: removed under the one
   directory's lock, added under the other's. *)
Definition move (op np x : id) (k : res -> proc) : proc := DropEnt op x (AddEnt np x (k Done)).
Definition rename (o n : path) (k : res -> proc) : proc :=
  if eqb_list (full o) (full n) then k Done
  else if prefix_of (full o) (full n) then k (Fail EInval)
  else
    walk root (fst o) (fun w =>
      match w with
      | inl e => k (Fail e)
      | inr op =>
          Lookup op (snd o) (fun t =>
            match t with
            | None => k (Fail ENoEnt)
            | Some x =>
                walk root (fst n) (fun w =>
                  match w with
                  | inl e => k (Fail e)
                  | inr np =>
                      Lookup np (snd n) (fun t =>
                        match t with
                        | None => move op np x k
                        | Some y =>
                            IsDir x (fun bx => IsDir y (fun by' =>
                              if negb bx && by' then k (Fail EIsDir)
                              else if bx && negb by' then k (Fail ENotDir)
                              else if bx && by' then Len y (fun l => if 0 <? l then k (Fail ENotEmpty) else move op np x k)
                              else move op np x k))
                        end)
                  end)
            end)
      end).

(* Stat (fs.go:564-570): which object the name stands for. *)
Definition stat (p : path) (k : res -> proc) : proc :=
  walk root (fst p) (fun w =>
    match w with
    | inl e => k (Fail e)
    | inr d => Lookup d (snd p) (fun o => match o with None => k (Fail ENoEnt) | Some x => k (Got x) end)
    end).

Inductive call :=
  | Mkdir (p : path)
  | MkdirAll (p : list name)
  | Open (p : path) (create excl write : bool)
  | Remove (p : path)
  | Rename (o n : path)
  | Stat (p : path).

Definition do_call (c : call) (k : res -> proc) : proc :=
  match c with
  | Mkdir p => mkdir p k
  | MkdirAll p => mkdir_all root p k
  | Open p c e w => open_file p c e w k
  | Remove p => remove p k
  | Rename o n => rename o n k
  | Stat p => stat p k
  end.

(* A goroutine makes its calls one after the other and keeps what they return. *)
Fixpoint script (cs : list call) (acc : list res) : proc :=
  match cs with
  | [] => Ret acc
  | c :: r => do_call c (fun x => script r (acc ++ [x]))
  end.

(* A goroutine: how many objects it has made, what it still has to do. *)
Record gor := { g_made : nat; g_proc : proc }.
Definition start (cs : list call) : gor := {| g_made := 0; g_proc := script cs [] |}.
Record machine := { m_heap : heap; m_gors : list gor }.

Fixpoint put (l : list gor) (i : nat) (g : gor) : list gor :=
  match l, i with [], _ => [] | _ :: r, O => g :: r | x :: r, S i => x :: put r i g end.
(* Goroutine [i] makes one step. *)
Definition step (m : machine) (i : nat) : machine :=
  match nth_error (m_gors m) i with
  | None => m
  | Some g =>
      let '(h, n, p) := exec (S i) (g_made g) (m_heap m) (g_proc g) in
      {| m_heap := h; m_gors := put (m_gors m) i {| g_made := n; g_proc := p |} |}
  end.
(* A schedule says whose step comes next. *)
Definition run (m : machine) (sched : list nat) : machine := fold_left step sched m.

(* A new file system: the root alone (fs.go:41-52). *)
Definition fresh : heap := set (fun _ => None) root (Dir 0 []).
Definition machine_of (h : heap) (scripts : list (list call)) : machine := {| m_heap := h; m_gors := map start scripts |}.
