(* Model of fsutil/testhelper/setup.go with the modes and times a caller may ask for, and of
   what is left of a file whose making fails half way. *)
From Verif Require Import Common ContentRange_Model PathLex_Model TempName_Model CopyFs_Model SetupLines_Model.
Open Scope nat_scope.

(* CreateDir and CreateFile (:131-135, :162-167); Mode 0 and no Mtime leave what is there. *)
Inductive mproc :=
| MDir (name : list byte) (mode : N) (mtime : option Z)
| MFile (name content : list byte) (mode : N) (mtime : option Z).
Definition mp_name (p : mproc) : list byte := match p with MDir n _ _ | MFile n _ _ _ => n end.

(* The file system: kind, mode and time of each path; a clock that moves with every call. *)
Record mnode := MNode { mn_bytes : option (list byte); mn_mode : N; mn_time : Z }.
Record mdisk := MDisk { m_at : list (list byte) -> option mnode; m_now : Z; m_umask : N }.

Definition elem_dec : forall x y : list (list byte), {x = y} + {x <> y} := list_eq_dec (list_eq_dec N.eq_dec).
Definition mset (st : mdisk) (c : list (list byte)) (n : option mnode) : mdisk :=
  MDisk (fun x => if elem_dec x c then n else m_at st x) (m_now st + 1) (m_umask st).
(* A name made or removed in a directory is a change of the directory. *)
Definition touch (st : mdisk) (d : list (list byte)) : mdisk :=
  match m_at st d with
  | Some n => mset st d (Some (MNode (mn_bytes n) (mn_mode n) (m_now st)))
  | None => st
  end.
Definition perm (mode : N) : N := N.land mode 511.

(* The calls that may fail, by name of the entry being made. *)
Inductive call := CWrite | CChmod | CClose | CChtimes | CRemove.
Definition faults := list byte -> call -> bool.

Fixpoint m_mkdirs (st : mdisk) (cur rest : list (list byte)) : option mdisk :=
  match rest with
  | [] => Some st
  | c :: rest =>
      match m_at st (cur ++ [c]) with
      | None => m_mkdirs (touch (mset st (cur ++ [c]) (Some (MNode None (N.ldiff 511 (m_umask st)) (m_now st)))) cur) (cur ++ [c]) rest
      | Some (MNode None _ _) => m_mkdirs st (cur ++ [c]) rest
      | Some _ => None
      end
  end.
Definition m_mkdir_all (st : mdisk) (name : list byte) : option mdisk := m_mkdirs st [] (kpath name).
(* mkdirParent (:120-129). *)
Definition m_mkdir_parent (st : mdisk) (name : list byte) : option mdisk :=
  if is_dot (dir name) then Some st else m_mkdir_all st (dir name).

Definition m_chmod (st : mdisk) (c : list (list byte)) (mode : N) : mdisk :=
  match m_at st c with Some n => mset st c (Some (MNode (mn_bytes n) mode (mn_time n))) | None => st end.
Definition m_chtimes (st : mdisk) (c : list (list byte)) (t : Z) : mdisk :=
  match m_at st c with Some n => mset st c (Some (MNode (mn_bytes n) (mn_mode n) t)) | None => st end.
Definition m_write (st : mdisk) (c : list (list byte)) (b : list byte) : mdisk :=
  match m_at st c with
  | Some (MNode (Some _) mode _) => mset st c (Some (MNode (Some b) mode (m_now st)))
  | _ => st
  end.
(* Create: the parent is a directory; an old file is emptied and keeps its mode. *)
Definition m_create (st : mdisk) (c : list (list byte)) : option mdisk :=
  match c with
  | [] => None
  | _ =>
      match m_at st (removelast c) with
      | Some (MNode None _ _) =>
          match m_at st c with
          | None => Some (touch (mset st c (Some (MNode (Some []) (N.ldiff 438 (m_umask st)) (m_now st)))) (removelast c))
          | Some (MNode (Some _) mode _) => Some (mset st c (Some (MNode (Some []) mode (m_now st))))
          | Some _ => None
          end
      | _ => None
      end
  end.
Definition m_remove (flt : bool) (st : mdisk) (c : list (list byte)) : mdisk :=
  if flt then st
  else match m_at st c with Some (MNode (Some _) _ _) => touch (mset st c None) (removelast c) | _ => st end.

(* CreateDir.Setup (:145-160). *)
Definition setup_dir (flt : faults) (st : mdisk) (name : list byte) (mode : N) (mtime : option Z) : mdisk * bool :=
  match m_mkdir_all st name with
  | None => (st, false)
  | Some st =>
      if negb (mode =? 0)%N && flt name CChmod then (st, false)
      else
        let st := if (mode =? 0)%N then st else m_chmod st (kpath name) (perm mode) in
        match mtime with
        | None => (st, true)
        | Some t => if flt name CChtimes then (st, false) else (m_chtimes st (kpath name) t, true)
        end
  end.

(* CreateFile.Setup (:177-214). [part] is what a failing Write leaves. *)
Definition setup_file (flt : faults) (part : list byte) (st : mdisk) (name content : list byte) (mode : N) (mtime : option Z) : mdisk * bool :=
  match m_mkdir_parent st name with
  | None => (st, false)
  | Some st =>
      let c := kpath name in
      match m_create st c with
      | None => (st, false)
      | Some st =>
          let undo st := (m_remove (flt name CRemove) st c, false) in
          if flt name CWrite then undo (m_write st c part)
          else
            let st := m_write st c content in
            if negb (mode =? 0)%N && flt name CChmod then undo st
            else
              let st := if (mode =? 0)%N then st else m_chmod st c (perm mode) in
              if flt name CClose then undo st
              else match mtime with
                   | None => (st, true)
                   | Some t => if flt name CChtimes then undo st else (m_chtimes st c t, true)
                   end
      end
  end.

Definition msetup1 (flt : faults) (part : list byte) (st : mdisk) (p : mproc) : mdisk * bool :=
  match p with
  | MDir n m t => setup_dir flt st n m t
  | MFile n b m t => setup_file flt part st n b m t
  end.

(* compareSetupProc (:94-100) and C.Setup (:14-25). *)
Definition as_proc (p : mproc) : proc := match p with MDir n _ _ => PDir n | MFile n b _ _ => PFile n b end.
Fixpoint insert_mproc (x : mproc) (l : list mproc) : list mproc :=
  match l with
  | [] => [x]
  | y :: l' => if proc_ltb (as_proc y) (as_proc x) then y :: insert_mproc x l' else x :: l
  end.
Definition sort_mprocs (l : list mproc) : list mproc := fold_right insert_mproc [] l.
Fixpoint msetup_in_order (flt : faults) (part : list byte) (st : mdisk) (ps : list mproc) : mdisk * bool :=
  match ps with
  | [] => (st, true)
  | p :: ps => let '(st, ok) := msetup1 flt part st p in if ok then msetup_in_order flt part st ps else (st, false)
  end.
Definition msetup (flt : faults) (part : list byte) (st : mdisk) (ps : list mproc) : mdisk * bool :=
  msetup_in_order flt part st (sort_mprocs ps).
