(* Model of overlayfs (vroot-adapter/overlayfs: state.go, merged.go, write.go, copyup.go,
   remove.go, mkdir.go, open.go, link.go, chmod.go, rename.go). Names are resolved merged-view
   names: component lists, innermost component first, [] for the root. *)
From Verif Require Import Common ContentRange_Model.
Open Scope nat_scope.

Definition name := list byte.
Definition path := list name.

Fixpoint path_eqb (p q : path) : bool :=
  match p, q with
  | [], [] => true
  | a :: p', b :: q' => bytes_eqb a b && path_eqb p' q'
  | _, _ => false
  end.

(* [within p q]: q is p or a name below it (the prefix tests of state.go:165-169, 346-350 and
   rename.go:52 on component lists; C51 relates them to the strings). *)
Fixpoint within (p q : path) : bool :=
  path_eqb p q || match q with [] => false | _ :: q' => within p q' end.
Definition below (p q : path) : bool := within p q && negb (path_eqb p q).

(* What a backend holds at a name; a file's content is one number. *)
Inductive node := ODir (mode : N) | OFile (mode : N) (data : N) | OLink (target : list byte) | OSpecial (mode : N).
Definition is_dir (n : node) : bool := match n with ODir _ => true | _ => false end.
(* fs.FileMode.Perm. *)
Definition perm (m : N) : N := N.land m 511.

(* A layer's content tree: its entries; the root is always a directory. *)
Definition tree := list (path * node).
Fixpoint tget (t : tree) (p : path) : option node :=
  match t with
  | [] => None
  | (q, n) :: r => if path_eqb p q then Some n else tget r p
  end.
Definition node_at (t : tree) (p : path) : option node :=
  match p with
  | [] => Some (match tget t [] with Some (ODir m) => ODir m | _ => ODir 493 end)
  | _ => tget t p
  end.
Definition tdrop (t : tree) (p : path) : tree := filter (fun e => negb (within p (fst e))) t.
Definition tset (t : tree) (p : path) (n : node) : tree := (p, n) :: filter (fun e => negb (path_eqb p (fst e))) t.
Definition children (t : tree) (p : path) : list name :=
  flat_map (fun e => match fst e with c :: q => if path_eqb p q then [c] else [] | [] => [] end) t.

(* One layer: its content and the marks of its store (state.go:45-51). The stack's head is
   the top (state.go:71). *)
Record layer := { l_tree : tree; l_wh : list path; l_op : list path }.
Definition stack := list layer.
Definition memp (p : path) (l : list path) : bool := existsb (path_eqb p) l.
Definition whb (l : layer) (p : path) : bool := memp p (l_wh l).
Definition opb (l : layer) (p : path) : bool := memp p (l_op l).

(* What the backends do beyond the trees: [through i p] is layer i's Lstat of p when a
   proper ancestor of p is a symlink there (the backend follows it), [broken i p] says the
   Lstat fails for another reason, [followed i p] is the mode Stat reports through a symlink,
   [rmorder] the order a RemoveAll takes subtrees down in. *)
Inductive lans := AFound (n : node) | AMissing | ANotDir | AErr.
Record backend := { through : nat -> path -> lans; broken : nat -> path -> bool; followed : nat -> path -> option N; rmorder : list path }.

(* A path walk in one layer. *)
Inductive wans := WFound (n : node) | WMissing | WNotDir | WLink.
Fixpoint walk (t : tree) (p : path) : wans :=
  match p with
  | [] => match node_at t [] with Some n => WFound n | None => WMissing end
  | _ :: q =>
      match walk t q with
      | WFound (ODir _) => match node_at t p with Some n => WFound n | None => WMissing end
      | WFound (OLink _) => WLink
      | WFound _ => WNotDir
      | w => w
      end
  end.
Definition lstat (be : backend) (i : nat) (t : tree) (p : path) : lans :=
  if broken be i p then AErr
  else match walk t p with WFound n => AFound n | WMissing => AMissing | WNotDir => ANotDir | WLink => through be i p end.

(* cutFrom, cut (state.go:275-306). *)
Definition marked (l : layer) (p : path) (self : bool) : bool := whb l p || (opb l p && negb self).
Definition markedi (ls : stack) (p : path) (self : bool) (i : nat) : bool :=
  match nth_error ls i with Some l => marked l p self | None => false end.
Definition upto (from last : nat) : list nat := seq from (S last - from).
Definition cut_step (ls : stack) (from cut : nat) (p : path) (self : bool) : nat :=
  match find (markedi ls p self) (upto from cut) with Some i => i | None => cut end.
Fixpoint cut_walk (ls : stack) (from cut : nat) (p : path) (self : bool) : nat :=
  let cut' := cut_step ls from cut p self in
  match p with [] => cut' | _ :: q => cut_walk ls from cut' q false end.
Definition cut_from (ls : stack) (p : path) (from : nat) : nat := cut_walk ls from (length ls - 1) p true.
(* childCut (state.go:311-319). *)
Definition opaquei (ls : stack) (p : path) (i : nat) : bool := match nth_error ls i with Some l => opb l p | None => false end.
Definition child_cut (ls : stack) (p : path) : nat :=
  match find (opaquei ls p) (upto 0 (cut_from ls p 0)) with Some i => i | None => cut_from ls p 0 end.
(* whiteoutAbove (state.go:325-332). *)
Definition whiteout_above (ls : stack) (i : nat) (p : path) : bool := existsb (fun l => whb l p) (firstn i ls).

(* blockedIn (merged.go:90-108), from the parent name upwards. *)
Inductive bans := BYes | BNo | BErr.
Fixpoint blocked_at (be : backend) (i : nat) (t : tree) (q : path) : bans :=
  match lstat be i t q with
  | AFound n => if is_dir n then BNo else BYes
  | ANotDir => match q with [] => BNo | _ :: q' => blocked_at be i t q' end
  | AMissing => BNo
  | AErr => BErr
  end.

(* lookupFrom, lookup, blockedErr (merged.go:34-77, 114-123). [berr] is blockedErr's answer. *)
Inductive lres := LFound (i : nat) (n : node) | LMissing | LNotDir | LErr.
Fixpoint lookup_loop (be : backend) (ls : stack) (p : path) (berr : lres) (is : list nat) : lres :=
  match is with
  | [] => LMissing
  | i :: r =>
      match nth_error ls i with
      | None => LMissing
      | Some l =>
          match lstat be i (l_tree l) p with
          | AFound n => LFound i n
          | ANotDir =>
              match blocked_at be i (l_tree l) (tl p) with
              | BErr => LErr
              | BYes => berr
              | BNo => lookup_loop be ls p berr r
              end
          | AMissing => lookup_loop be ls p berr r
          | AErr => LErr
          end
      end
  end.
Definition blocked_err (parent : lres) : lres :=
  match parent with LFound _ n => if is_dir n then LMissing else LNotDir | _ => LNotDir end.
Fixpoint lookup (be : backend) (ls : stack) (p : path) : lres :=
  lookup_loop be ls p (match p with [] => LNotDir | _ :: q => blocked_err (lookup be ls q) end) (upto 0 (cut_from ls p 0)).
Definition lookup_from (be : backend) (ls : stack) (p : path) (from : nat) : lres :=
  lookup_loop be ls p (match p with [] => LNotDir | _ :: q => blocked_err (lookup be ls q) end) (upto from (cut_from ls p from)).

(* slices.Sort and sortEntries: bytewise. *)
Fixpoint bytes_leb (a b : list byte) : bool :=
  match a, b with
  | [], _ => true
  | _ :: _, [] => false
  | x :: a', y :: b' => (x <? y)%N || ((x =? y)%N && bytes_leb a' b')
  end.
Fixpoint insert {A} (leb : A -> A -> bool) (x : A) (l : list A) : list A :=
  match l with [] => [x] | y :: r => if leb x y then x :: l else y :: insert leb x r end.
Fixpoint isort {A} (leb : A -> A -> bool) (l : list A) : list A :=
  match l with [] => [] | x :: r => insert leb x (isort leb r) end.

(* readDir (merged.go:133-193): entries with the layer each comes from. *)
Inductive oerr := EExist | ENotExist | ENotDir | EIsDir | ENotEmpty | EInval | EXDev | EUnsupported | EOther.
Inductive dres := DNames (es : list (name * nat)) | DErr (e : oerr).
Fixpoint add_entries (ls : stack) (i : nat) (p : path) (cs : list name) (acc : list (name * nat)) : list (name * nat) :=
  match cs with
  | [] => acc
  | c :: r =>
      let acc' := if existsb (fun e => bytes_eqb c (fst e)) acc then acc
                  else if whiteout_above ls i (c :: p) then acc
                  else acc ++ [(c, i)] in
      add_entries ls i p r acc'
  end.
Definition leb_entry (a b : name * nat) : bool := bytes_leb (fst a) (fst b).
Fixpoint read_loop (be : backend) (ls : stack) (p : path) (is : list nat) (acc : list (name * nat)) : dres :=
  match is with
  | [] => DNames (isort leb_entry acc)
  | i :: r =>
      match nth_error ls i with
      | None => DNames (isort leb_entry acc)
      | Some l =>
          match lstat be i (l_tree l) p with
          | AFound n => if is_dir n then read_loop be ls p r (add_entries ls i p (children (l_tree l) p) acc)
                        else DNames (isort leb_entry acc)
          | ANotDir =>
              match blocked_at be i (l_tree l) (tl p) with
              | BErr => DErr EOther
              | BYes => DNames (isort leb_entry acc)
              | BNo => read_loop be ls p r acc
              end
          | AMissing => read_loop be ls p r acc
          | AErr => DErr EOther
          end
      end
  end.
Definition err_of (r : lres) : oerr := match r with LMissing => ENotExist | LNotDir => ENotDir | _ => EOther end.
Definition read_dir (be : backend) (ls : stack) (p : path) : dres :=
  match lookup be ls p with
  | LFound i n => if is_dir n then read_loop be ls p (upto i (child_cut ls p)) [] else DErr ENotDir
  | r => DErr (err_of r)
  end.

(* A call's effect: the stacks after each of its persistent steps, in order, the stack it
   ends in and its error. A crash, or a failing step, leaves one of the earlier stacks. *)
Definition eff := (list stack * stack * option oerr)%type.
Definition ret (s : stack) : eff := ([], s, None).
Definition fail (s : stack) (e : oerr) : eff := ([], s, Some e).
Definition step (s : stack) : eff := ([s], s, None).
Definition bind (a : eff) (f : stack -> eff) : eff :=
  match a with
  | (tr, s, Some e) => (tr, s, Some e)
  | (tr, s, None) => let '(tr', s', e') := f s in (tr ++ tr', s', e')
  end.
Notation "s <- a ;; b" := (bind a (fun s => b)) (at level 61, a at next level, right associativity).

Definition on_top (f : layer -> layer) (ls : stack) : stack := match ls with [] => [] | l :: r => f l :: r end.
Definition top_tree (ls : stack) : tree := match ls with [] => [] | l :: _ => l_tree l end.
Definition topi (f : layer -> path -> bool) (ls : stack) (p : path) : bool := match ls with [] => false | l :: _ => f l p end.
Definition with_tree (t : tree) (l : layer) : layer := {| l_tree := t; l_wh := l_wh l; l_op := l_op l |}.
Definition set_top_tree (t : tree) (ls : stack) : stack := on_top (with_tree t) ls.

(* The mark setters, store and memory together (state.go:113-155). *)
Definition m_set_wh (p : path) (l : layer) : layer :=
  {| l_tree := l_tree l; l_wh := p :: filter (fun q => negb (within p q)) (l_wh l); l_op := filter (fun q => negb (within p q)) (l_op l) |}.
Definition m_clear_wh (p : path) (l : layer) : layer :=
  {| l_tree := l_tree l; l_wh := filter (fun q => negb (path_eqb p q)) (l_wh l); l_op := l_op l |}.
Definition m_set_op (p : path) (l : layer) : layer :=
  {| l_tree := l_tree l; l_wh := l_wh l; l_op := p :: filter (fun q => negb (path_eqb p q)) (l_op l) |}.
Definition m_clear_op (p : path) (l : layer) : layer :=
  {| l_tree := l_tree l; l_wh := l_wh l; l_op := filter (fun q => negb (path_eqb p q)) (l_op l) |}.
Definition set_whiteout (p : path) (s : stack) : eff := step (on_top (m_set_wh p) s).
Definition clear_whiteout (p : path) (s : stack) : eff := step (on_top (m_clear_wh p) s).
Definition set_opaque (p : path) (s : stack) : eff := step (on_top (m_set_op p) s).
Definition clear_opaque (p : path) (s : stack) : eff := step (on_top (m_clear_op p) s).

(* maskedUnder (state.go:164-183): sorted by the slash-joined name. *)
Fixpoint slashed (cs : list name) : list byte :=
  match cs with [] => [] | [c] => c | c :: r => c ++ 47%N :: slashed r end.
Definition key (p : path) : list byte := slashed (rev p).
Definition leb_path (a b : path) : bool := bytes_leb (key a) (key b).
Definition marks_below (p : path) (l : list path) : list path := isort leb_path (filter (below p) l).
Definition top_wh (s : stack) : list path := match s with [] => [] | l :: _ => l_wh l end.
Definition top_op (s : stack) : list path := match s with [] => [] | l :: _ => l_op l end.

Fixpoint for_each (f : path -> stack -> eff) (ps : list path) (s : stack) : eff :=
  match ps with [] => ret s | p :: r => s <- f p s ;; for_each f r s end.
(* clearSubtree (state.go:192-212). *)
Definition clear_subtree (p : path) (s : stack) : eff :=
  s <- for_each (fun q s => if topi whb s q then clear_whiteout q s else ret s) (marks_below p (top_wh s) ++ [p]) s ;;
  for_each (fun q s => if topi opb s q then clear_opaque q s else ret s) (marks_below p (top_op s) ++ [p]) s.
(* renameSubtree (state.go:238-268); [rebase o n q]: q's rest after o, put under n. *)
Definition rebase (o n q : path) : path := firstn (length q - length o) q ++ n.
Definition rename_subtree (o n : path) (s : stack) : eff :=
  let ws := marks_below o (top_wh s) in
  let os := marks_below o (top_op s) in
  s <- for_each (fun q => set_whiteout (rebase o n q)) ws s ;;
  s <- for_each (fun q => set_opaque (rebase o n q)) os s ;;
  s <- for_each clear_whiteout ws s ;;
  for_each clear_opaque os s.

(* The top backend's own calls. *)
Definition holds_dir (t : tree) (p : path) : bool := match node_at t p with Some n => is_dir n | None => false end.
Definition t_add (p : path) (n : node) (s : stack) : eff :=
  match p with
  | [] => fail s EExist
  | _ :: q =>
      match node_at (top_tree s) p with
      | Some _ => fail s EExist
      | None => if holds_dir (top_tree s) q then step (set_top_tree (tset (top_tree s) p n) s) else fail s ENotExist
      end
  end.
Definition t_put (p : path) (n : node) (s : stack) : eff :=
  match node_at (top_tree s) p with
  | Some _ => step (set_top_tree (tset (top_tree s) p n) s)
  | None => fail s ENotExist
  end.
Definition is_nil {A} (l : list A) : bool := match l with [] => true | _ => false end.
Definition t_remove (p : path) (s : stack) : eff :=
  match node_at (top_tree s) p with
  | None => fail s ENotExist
  | Some _ => if is_nil (children (top_tree s) p) then step (set_top_tree (tdrop (top_tree s) p) s) else fail s ENotEmpty
  end.
Definition t_remove_all (be : backend) (p : path) (s : stack) : eff :=
  s <- for_each (fun q s => if below p q then step (set_top_tree (tdrop (top_tree s) q) s) else ret s) (rmorder be) s ;;
  step (set_top_tree (tdrop (top_tree s) p) s).
Definition trebase (o n : path) (t : tree) : tree :=
  map (fun e => (if within o (fst e) then rebase o n (fst e) else fst e, snd e)) (tdrop t n).
Definition t_rename (o n : path) (s : stack) : eff :=
  let t := top_tree s in
  match node_at t o with
  | None => fail s ENotExist
  | Some x =>
      if within o n then fail s EInval else
      if negb (holds_dir t (tl n)) then fail s ENotExist else
      match node_at t n with
      | None => step (set_top_tree (trebase o n t) s)
      | Some y =>
          if is_dir x then
            if negb (is_dir y) then fail s ENotDir
            else if is_nil (children t n) then step (set_top_tree (trebase o n t) s) else fail s ENotEmpty
          else if is_dir y then fail s EIsDir else step (set_top_tree (trebase o n t) s)
      end
  end.

(* materializeParents (copyup.go:172-206); [i] is the layer the copy-up reads. *)
Definition parent_mode (be : backend) (i : nat) (ls : stack) (p : path) : N :=
  match nth_error ls i with
  | None => 511
  | Some l =>
      match lstat be i (l_tree l) p with
      | AFound (ODir m) | AFound (OFile m _) | AFound (OSpecial m) => perm m
      | AFound (OLink _) => match followed be i p with Some m => perm m | None => 511 end
      | _ => 511
      end
  end.
Fixpoint materialize (be : backend) (i : nat) (p : path) (s : stack) : eff :=
  match p with
  | [] => ret s
  | _ :: q =>
      s <- materialize be i q s ;;
      match lstat be 0 (top_tree s) p with
      | AFound _ => ret s
      | AMissing => t_add p (ODir (parent_mode be i s p)) s
      | _ => fail s EOther
      end
  end.
(* CopyUp (copyup.go:77-164): staging happens outside the content tree. *)
Definition copied (n : node) : node :=
  match n with ODir m => ODir (perm m) | OFile m d => OFile (perm m) d | n => n end.
Definition copy_up_from (be : backend) (i : nat) (n : node) (p : path) (s : stack) : eff :=
  match n with
  | OSpecial _ => fail s EUnsupported
  | OFile _ _ =>
      s <- materialize be i (tl p) s ;;
      match node_at (top_tree s) p with
      | None => t_add p (copied n) s
      | Some y => if is_dir y then fail s EIsDir else step (set_top_tree (tset (top_tree s) p (copied n)) s)
      end
  | _ => s <- materialize be i (tl p) s ;; t_add p (copied n) s
  end.
(* copyUp (write.go:48-72). *)
Definition copy_up (be : backend) (p : path) (s : stack) : eff :=
  match p with
  | [] => ret s
  | _ =>
      match lookup be s p with
      | LMissing => ret s
      | LFound O _ => ret s
      | LFound i n => s <- copy_up_from be i n p s ;; if topi opb s p then clear_opaque p s else ret s
      | r => fail s (err_of r)
      end
  end.
(* ensureParent, unmask (write.go:80-99). *)
Definition ensure_parent (be : backend) (p : path) (s : stack) : eff :=
  match lookup be s (tl p) with
  | LFound _ n => if is_dir n then copy_up be (tl p) s else fail s ENotDir
  | r => fail s (err_of r)
  end.
Definition unmask (p : path) (s : stack) : eff := if topi whb s p then clear_whiteout p s else ret s.

(* unlink (remove.go:126-143). *)
Definition ignore_missing (a : eff) : eff := match a with (tr, s, Some ENotExist) => (tr, s, None) | _ => a end.
Definition unlink (be : backend) (p : path) (rm : stack -> eff) (s : stack) : eff :=
  match lookup_from be s p 1 with
  | LFound _ _ => s <- set_whiteout p s ;; ignore_missing (rm s)
  | LMissing => s <- clear_subtree p s ;; ignore_missing (rm s)
  | r => fail s (err_of r)
  end.
(* remove (remove.go:24-52), past the resolution and the open-handle gate. *)
Definition remove (be : backend) (p : path) (s : stack) : eff :=
  if is_nil p then fail s EInval else
  match lookup be s p with
  | LFound _ n =>
      if is_dir n then
        match read_dir be s p with
        | DNames [] => unlink be p (t_remove p) s
        | DNames _ => fail s ENotEmpty
        | DErr e => fail s e
        end
      else unlink be p (t_remove p) s
  | r => fail s (err_of r)
  end.
(* removeAll (remove.go:65-89). *)
Definition remove_all (be : backend) (p : path) (s : stack) : eff :=
  if is_nil p then fail s EInval else
  match lookup be s p with
  | LFound _ _ => unlink be p (t_remove_all be p) s
  | LMissing => ret s
  | r => fail s (err_of r)
  end.

(* mkdirOne, mkdir, mkdirAll (mkdir.go:27-95). *)
Definition mkdir_one (p : path) (m : N) (s : stack) : eff :=
  s <- t_add p (ODir m) s ;; s <- set_opaque p s ;; unmask p s.
Definition mkdir (be : backend) (p : path) (m : N) (s : stack) : eff :=
  match lookup be s p with
  | LFound _ _ => fail s EExist
  | LMissing => s <- ensure_parent be p s ;; mkdir_one p m s
  | r => fail s (err_of r)
  end.
Fixpoint ancestry (p : path) : list path := match p with [] => [] | _ :: q => ancestry q ++ [p] end.
Definition mkdir_level (be : backend) (m : N) (p : path) (s : stack) : eff :=
  match lookup be s p with
  | LFound _ n => if is_dir n then ret s else fail s ENotDir
  | LMissing => s <- ensure_parent be p s ;; mkdir_one p m s
  | r => fail s (err_of r)
  end.
Definition mkdir_all (be : backend) (p : path) (m : N) (s : stack) : eff := for_each (mkdir_level be m) (ancestry p) s.

(* openWrite (open.go:21-79). The handle is onto the top's copy; [trunc] empties it. *)
Definition open_top (p : path) (creating excl trunc : bool) (m : N) (s : stack) : eff :=
  match node_at (top_tree s) p with
  | Some (OFile m0 d) => if creating && excl then fail s EExist else if trunc then t_put p (OFile m0 0) s else ret s
  | Some _ => fail s EOther
  | None => if creating then t_add p (OFile m 0) s else fail s ENotExist
  end.
Definition open_write (be : backend) (p : path) (creating excl trunc : bool) (m : N) (s : stack) : eff :=
  match lookup be s p with
  | LFound _ n =>
      if is_dir n then fail s EIsDir
      else if creating && excl then fail s EExist
      else s <- copy_up be p s ;; open_top p creating excl trunc m s
  | LMissing =>
      if creating then
        s <- ensure_parent be p s ;;
        let masked := topi whb s p in
        s <- open_top p creating excl trunc m s ;;
        if masked then clear_whiteout p s else ret s
      else fail s ENotExist
  | r => fail s (err_of r)
  end.
(* A write through such a handle while the name still stands for it. *)
Definition write_file (p : path) (d : N) (s : stack) : eff :=
  match node_at (top_tree s) p with
  | Some (OFile m _) => t_put p (OFile m d) s
  | _ => ret s
  end.

(* symlink, link (link.go:22-81). *)
Definition symlink (be : backend) (target : list byte) (p : path) (s : stack) : eff :=
  match lookup be s p with
  | LFound _ _ => fail s EExist
  | LMissing => s <- ensure_parent be p s ;; s <- t_add p (OLink target) s ;; unmask p s
  | r => fail s (err_of r)
  end.
Definition t_link (o n : path) (s : stack) : eff :=
  match node_at (top_tree s) o with
  | Some (ODir _) => fail s EOther
  | Some x => t_add n x s
  | None => fail s ENotExist
  end.
Definition hardlink (be : backend) (o n : path) (s : stack) : eff :=
  match lookup be s o with
  | LFound _ _ =>
      match lookup be s n with
      | LFound _ _ => fail s EExist
      | LMissing => s <- copy_up be o s ;; s <- ensure_parent be n s ;; s <- t_link o n s ;; unmask n s
      | r => fail s (err_of r)
      end
  | r => fail s (err_of r)
  end.
(* mutateLocked (write.go:138-146) with a Chmod. *)
Definition chmoded (n : node) (m : N) : node :=
  match n with ODir _ => ODir m | OFile _ d => OFile m d | OSpecial _ => OSpecial m | n => n end.
Definition chmod (be : backend) (p : path) (m : N) (s : stack) : eff :=
  s <- copy_up be p s ;;
  match node_at (top_tree s) p with
  | Some n => t_put p (chmoded n m) s
  | None => fail s ENotExist
  end.

(* rename (rename.go:28-167). *)
Fixpoint dir_check (be : backend) (ls : stack) (p : path) (is : list nat) : option oerr :=
  match is with
  | [] => None
  | i :: r =>
      match nth_error ls i with
      | None => None
      | Some l =>
          match lstat be i (l_tree l) p with
          | AFound _ => Some EXDev
          | AErr => Some EOther
          | _ => dir_check be ls p r
          end
      end
  end.
Definition rename_dir_check (be : backend) (ls : stack) (p : path) : option oerr := dir_check be ls p (upto 1 (child_cut ls p)).
Definition rename_target_check (be : backend) (ls : stack) (p : path) (srcdir : bool) : option oerr :=
  match lookup be ls p with
  | LMissing => None
  | LFound _ n =>
      match is_dir n, srcdir with
      | true, false => Some EIsDir
      | false, true => Some ENotDir
      | false, false => None
      | true, true =>
          match read_dir be ls p with
          | DNames [] => None
          | DNames _ => Some ENotEmpty
          | DErr e => Some e
          end
      end
  | r => Some (err_of r)
  end.
Definition rename (be : backend) (o n : path) (s : stack) : eff :=
  if is_nil o || is_nil n then fail s EInval else
  match lookup be s o with
  | LFound _ x =>
      if path_eqb o n then ret s else
      if within o n then fail s EInval else
      match (if is_dir x then rename_dir_check be s o else None) with
      | Some e => fail s e
      | None =>
          match rename_target_check be s n (is_dir x) with
          | Some e => fail s e
          | None =>
              s <- copy_up be o s ;;
              s <- ensure_parent be n s ;;
              match lookup_from be s o 1 with
              | LErr => fail s EOther
              | LNotDir => fail s ENotDir
              | below_ =>
                  s <- t_rename o n s ;;
                  s <- clear_subtree n s ;;
                  s <- rename_subtree o n s ;;
                  s <- (if is_dir x then set_opaque n s else ret s) ;;
                  match below_ with
                  | LFound _ _ => set_whiteout o s
                  | _ => clear_subtree o s
                  end
              end
          end
      end
  | r => fail s (err_of r)
  end.

(* The mutating calls, each with the backend behaviour it meets. *)
Inductive ocall :=
| CRemove (p : path) | CRemoveAll (p : path) | CMkdir (p : path) (m : N) | CMkdirAll (p : path) (m : N)
| COpen (p : path) (creating excl trunc : bool) (m : N) | CWrite (p : path) (d : N)
| CSymlink (target : list byte) (p : path) | CLink (o n : path) | CChmod (p : path) (m : N) | CRename (o n : path).
Definition run_call (be : backend) (c : ocall) (s : stack) : eff :=
  match c with
  | CRemove p => remove be p s
  | CRemoveAll p => remove_all be p s
  | CMkdir p m => mkdir be p m s
  | CMkdirAll p m => mkdir_all be p m s
  | COpen p cr ex tr m => open_write be p cr ex tr m s
  | CWrite p d => write_file p d s
  | CSymlink t p => symlink be t p s
  | CLink o n => hardlink be o n s
  | CChmod p m => chmod be p m s
  | CRename o n => rename be o n s
  end.
Definition end_of (a : eff) : stack := snd (fst a).
Definition states_of (a : eff) : list stack := fst (fst a).
Definition err_opt (a : eff) : option oerr := snd a.
