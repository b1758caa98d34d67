(* Model of reading a directory handle in batches: tarfs, synthfs, overlayfs and sftpfs. *)
From Verif Require Import Common.
Open Scope Z_scope.

(* What a read returns: entries, end of listing, another error, or a panic. *)
Inductive pres (A : Type) := POut (l : list A) | PEof | PErr | PPanic.
Arguments POut {A}. Arguments PEof {A}. Arguments PErr {A}. Arguments PPanic {A}.

(* A handle: its cursor, whether it is closed, and (overlay only) the listing taken. *)
Record ph (A : Type) := PH { p_cur : Z; p_closed : bool; p_snap : option (list A) }.
Arguments PH {A}. Arguments p_cur {A}. Arguments p_closed {A}. Arguments p_snap {A}.
Definition fresh {A} : ph A := PH 0 false None.

(* tarfs openDir.ReadDir (tarfs/entdir.go:294-319) on a directory with [nf] names and the
   entries [ord]; indexing past the entries panics. *)
Definition tar_read {A} (nf : Z) (ord : list A) (n : Z) (h : ph A) : pres A * ph A :=
  if p_closed h then (PErr, h)
  else if p_cur h >=? nf then ((if n <=? 0 then POut [] else PEof), h)
  else
    let n := if n <=? 0 then zlen ord - p_cur h else n in
    let k := Z.min n (nf - p_cur h) in
    if k <? 0 then (PPanic, h)
    else if p_cur h + k >? zlen ord then (PPanic, h)
    else (POut (zslice ord (p_cur h) k), PH (p_cur h + k) false None).

(* tarfs openDir.Seek (:247-284): the cursor is reset before the arguments are checked. *)
Definition tar_seek {A} (ord : list A) (off whence : Z) (h : ph A) : bool * ph A :=
  if p_closed h then (false, h)
  else
    let h := PH 0 false None in
    if whence =? 0 then (negb (off <? 0), h)
    else if whence =? 1 then (off =? 0, h)
    else if whence =? 2 then (if off >? 0 then (false, h) else (true, PH (zlen ord) false None))
    else (false, h).

(* The cut at cursor+n, computed in int (synthfs/handle_dir.go:135-138, overlayfs/file.go:198-201). *)
Definition batch_end (cur n len : Z) : Z :=
  if (n >? 0) && (wrap64 (cur + n) <? len) then wrap64 (cur + n) else len.

(* synthfs dirHandle.readEntries (handle_dir.go:122-143) over the current entries. *)
Definition synth_read {A} (all : list A) (n : Z) (h : ph A) : pres A * ph A :=
  if p_closed h then (PErr, h)
  else if p_cur h >=? zlen all then ((if n <=? 0 then POut [] else PEof), h)
  else
    let e := batch_end (p_cur h) n (zlen all) in
    if e <? p_cur h then (PPanic, h)
    else (POut (zslice all (p_cur h) (e - p_cur h)), PH e false None).

(* synthfs dirHandle.Seek (:81-117); it does not look at closed. *)
Definition synth_seek {A} (all : list A) (off whence : Z) (h : ph A) : bool * ph A :=
  if whence =? 0 then (if off <? 0 then (false, h) else (true, PH 0 (p_closed h) None))
  else if whence =? 1 then (off =? 0, h)
  else if whence =? 2 then (if off >? 0 then (false, h) else (true, PH (zlen all) (p_closed h) None))
  else (false, h).

(* overlayfs mergedDir.readEntries with load (file.go:167-205). *)
Definition over_read {A} (all : list A) (n : Z) (h : ph A) : pres A * ph A :=
  if p_closed h then (PErr, h)
  else
    let l := match p_snap h with Some l => l | None => all end in
    if p_cur h >=? zlen l then ((if n <=? 0 then POut [] else PEof), PH (p_cur h) false (Some l))
    else
      let e := batch_end (p_cur h) n (zlen l) in
      if e <? p_cur h then (PPanic, PH (p_cur h) false (Some l))
      else (POut (zslice l (p_cur h) (e - p_cur h)), PH e false (Some l)).

(* overlayfs mergedDir.Seek (:249-290). *)
Definition over_seek {A} (all : list A) (off whence : Z) (h : ph A) : bool * ph A :=
  if whence =? 0 then (if negb (off =? 0) then (false, h) else (true, PH 0 (p_closed h) None))
  else if whence =? 1 then (off =? 0, h)
  else if whence =? 2 then
    (if negb (off =? 0) then (false, h)
     else let l := match p_snap h with Some l => l | None => all end in (true, PH (zlen l) (p_closed h) (Some l)))
  else (false, h).

(* sftpfs sftpFile.Readdir with loadDir (sftpfs.go:404-439): what is left of the listing. *)
Definition sftp_read {A} (all : list A) (n : Z) (h : ph A) : pres A * ph A :=
  let l := match p_snap h with Some l => l | None => all end in
  if n <=? 0 then (POut l, PH 0 (p_closed h) (Some []))
  else match l with
       | [] => (PEof, PH 0 (p_closed h) (Some []))
       | _ => let n := if n >? zlen l then zlen l else n in
              (POut (zslice l 0 n), PH 0 (p_closed h) (Some (skipn (Z.to_nat n) l)))
       end.
(* Seek is sftp.File's: it moves a byte offset and leaves the listing alone. *)
Definition sftp_seek {A} (all : list A) (off whence : Z) (h : ph A) : bool * ph A := (true, h).

(* A history on one handle. *)
Inductive pop := PRead (n : Z) | PSeek (off whence : Z).
Fixpoint prun {A} (rd : Z -> ph A -> pres A * ph A) (sk : Z -> Z -> ph A -> bool * ph A) (h : ph A) (ops : list pop) : list (pres A) * ph A :=
  match ops with
  | [] => ([], h)
  | PRead n :: ops => let '(r, h1) := rd n h in let '(rs, h2) := prun rd sk h1 ops in (r :: rs, h2)
  | PSeek o w :: ops => let '(_, h1) := sk o w h in prun rd sk h1 ops
  end.

(* A history on one handle while the directory changes: each call with the listing then. *)
Fixpoint prun_live {A} (rd : list A -> Z -> ph A -> pres A * ph A) (sk : list A -> Z -> Z -> ph A -> bool * ph A)
    (h : ph A) (ops : list (list A * pop)) : list (pres A) * ph A :=
  match ops with
  | [] => ([], h)
  | (all, PRead n) :: ops => let '(r, h1) := rd all n h in let '(rs, h2) := prun_live rd sk h1 ops in (r :: rs, h2)
  | (all, PSeek o w) :: ops => let '(_, h1) := sk all o w h in prun_live rd sk h1 ops
  end.
