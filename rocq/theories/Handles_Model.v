(* The overlay's count of open handles and the removals it refuses
   (vroot-adapter/overlayfs: file.go:21-105, remove.go:90-118, fs.go:201-262, open.go:78). *)
From Verif Require Import Common ContentRange_Model PathLex_Model TempName_Model Overlay_Model Masks_Model.
Open Scope nat_scope.

(* handleTracker.open, a map[string]int (file.go:28-31). *)
Definition tracker := list (list byte * nat).
Fixpoint count (t : tracker) (n : list byte) : nat :=
  match t with [] => 0 | (k, c) :: r => if bytes_eqb n k then c else count r n end.
Definition forget (t : tracker) (n : list byte) : tracker := filter (fun e => negb (bytes_eqb n (fst e))) t.
(* acquire, release (file.go:37-54). *)
Definition acquire (t : tracker) (n : list byte) : tracker := (n, S (count t n)) :: forget t n.
Definition release (t : tracker) (n : list byte) : tracker :=
  match count t n - 1 with 0 => forget t n | c => (n, c) :: forget t n end.
(* countSubtree (file.go:66-80): a range over the map. *)
Definition counted (n k : list byte) : bool := bytes_eqb k n || has_prefix (match n with [] => [] | _ => n ++ [sep] end) k.
Definition count_subtree (t : tracker) (n : list byte) : nat :=
  fold_right (fun e acc => (if counted n (fst e) then snd e else 0) + acc) 0 t.

(* A handle handed out: the name it is counted under and whether it was closed; [h_now] is not
   in the code: the name its file has in the merged view now. *)
Record handle := { h_key : path; h_open : bool; h_now : option path }.
Record ostate := { o_stack : stack; o_track : tracker; o_handles : list handle }.

(* removable, removableTree (remove.go:95-118), with DisableOpenFileRemoval set; a sharing
   violation is EOther. *)
Definition removable (t : tracker) (p : path) : bool := count t (key p) =? 0.
Definition removable_tree (t : tracker) (p : path) : bool := count_subtree t (key p) =? 0.
(* remove, removeAll with the gate (remove.go:24-89). *)
Definition gate (ok : bool) (be : backend) (p : path) (rm : stack -> eff) (s : stack) : eff :=
  if is_nil p then rm s
  else match lookup be s p with LFound _ _ => if ok then rm s else fail s EOther | _ => rm s end.
Definition gated (t : tracker) (be : backend) (c : ocall) (s : stack) : eff :=
  match c with
  | CRemove p => gate (removable t p) be p (remove be p) s
  | CRemoveAll p => gate (removable_tree t p) be p (remove_all be p) s
  | _ => run_call be c s
  end.

(* Where a call that succeeded leaves the file a handle is on. *)
Definition moved (c : ocall) (now : option path) : option path :=
  match c, now with
  | CRename o n, Some q => if within o q then Some (rebase o n q) else if within n q then None else Some q
  | CRemove p, Some q | CRemoveAll p, Some q => if within p q then None else Some q
  | _, _ => now
  end.
Definition follow (c : ocall) (h : handle) : handle := {| h_key := h_key h; h_open := h_open h; h_now := moved c (h_now h) |}.

(* OpenFile for reading (fs.go:201-229): [opens] says the layer's backend opens it. For
   writing: open_write, then the handle (open.go:78). Close (file.go:101-105): once only. *)
Inductive hevent :=
| HRead (be : backend) (p : path) (opens : bool)
| HWrite (be : backend) (p : path) (creating excl trunc : bool) (m : N)
| HClose (i : nat)
| HCall (be : backend) (c : ocall).
Definition track (p : path) (s : ostate) : ostate :=
  {| o_stack := o_stack s; o_track := acquire (o_track s) (key p);
     o_handles := o_handles s ++ [{| h_key := p; h_open := true; h_now := Some p |}] |}.
Definition shut (h : handle) : handle := {| h_key := h_key h; h_open := false; h_now := h_now h |}.
Fixpoint shut_at (i : nat) (hs : list handle) : list handle :=
  match hs, i with
  | [], _ => []
  | h :: r, 0 => shut h :: r
  | h :: r, S i => h :: shut_at i r
  end.
Definition with_stack (st : stack) (s : ostate) : ostate := {| o_stack := st; o_track := o_track s; o_handles := o_handles s |}.
Definition hstep (s : ostate) (e : hevent) : ostate :=
  match e with
  | HRead be p opens => match lookup be (o_stack s) p with LFound _ _ => if opens then track p s else s | _ => s end
  | HWrite be p cr ex tr m =>
      let a := open_write be p cr ex tr m (o_stack s) in
      let s' := with_stack (end_of a) s in
      match err_opt a with None => track p s' | Some _ => s' end
  | HClose i =>
      match nth_error (o_handles s) i with
      | Some h => if h_open h then {| o_stack := o_stack s; o_track := release (o_track s) (key (h_key h)); o_handles := shut_at i (o_handles s) |} else s
      | None => s
      end
  | HCall be c =>
      let a := gated (o_track s) be c (o_stack s) in
      {| o_stack := end_of a; o_track := o_track s;
         o_handles := match err_opt a with None => map (follow c) (o_handles s) | Some _ => o_handles s end |}
  end.
Definition hrun (s : ostate) (es : list hevent) : ostate := fold_left hstep es s.
Definition mounted (s : stack) : ostate := {| o_stack := s; o_track := []; o_handles := [] |}.
