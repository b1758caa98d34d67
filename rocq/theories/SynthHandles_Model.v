(* Handles of synthfs (vroot/synthfs: open.go, handle.go:45-58, handle_dir.go:34-47,
   remove.go:10-32) over the tree of Synth_Model. *)
From Verif Require Import Common ContentRange_Model PathLex_Model Synth_Model.
Open Scope nat_scope.

(* A handle handed out: its node, and whether Close was not called yet. *)
Record shandle := { s_node : nat; s_live : bool }.
Record hsstate := { h_state : sstate; h_hands : list shandle }.
(* A call, or Close on the i-th handle; Synth_Model's OCloseHandle is replaced by the latter. *)
Inductive hsop := HDo (o : sop) | HCloseAt (i : nat).

(* The node a successful OpenFile hands out a handle on. *)
Definition handed (st : sstate) (o : sop) : option nat :=
  match o with
  | OOpen i name q =>
      match nth_error (st_roots st) i with
      | Some b => match open_file (st_heap st) b name q with (_, Ok n) => Some n | _ => None end
      | None => None
      end
  | _ => None
  end.
Fixpoint unlive (i : nat) (hs : list shandle) : list shandle :=
  match hs, i with
  | [], _ => []
  | h :: r, 0 => {| s_node := s_node h; s_live := false |} :: r
  | h :: r, S i => h :: unlive i r
  end.
(* Close (handle.go:45-58, handle_dir.go:34-47): the first one lowers the count. *)
Definition close_at (st : hsstate) (i : nat) : hsstate :=
  match nth_error (h_hands st) i with
  | Some h =>
      if s_live h
      then {| h_state := with_heap (h_state st) (drop_ref (st_heap (h_state st)) (s_node h)); h_hands := unlive i (h_hands st) |}
      else st
  | None => st
  end.
Definition hs_step (bc : bool) (st : hsstate) (e : hsop) : option (hsstate * sres unit) :=
  match e with
  | HDo (OCloseHandle _) => Some (st, Err EInval)
  | HDo o =>
      match step bc (h_state st) o with
      | None => None
      | Some (s', r) =>
          Some ({| h_state := s';
                   h_hands := match handed (h_state st) o with Some n => h_hands st ++ [{| s_node := n; s_live := true |}] | None => h_hands st end |}, r)
      end
  | HCloseAt i => Some (close_at st i, Ok tt)
  end.
Fixpoint hs_run (bc : bool) (st : hsstate) (es : list hsop) : option hsstate :=
  match es with
  | [] => Some st
  | e :: es => match hs_step bc st e with Some (st', _) => hs_run bc st' es | None => None end
  end.
Definition hs_new (mode : N) : hsstate := {| h_state := new_state mode; h_hands := [] |}.

(* OpenFile with O_TRUNC on an existing file (open.go:63-76) and the state lock: [held] says
   this goroutine holds it. Close takes the lock (handle.go:52), which is not reentrant: None
   is waiting for ever. [truncates]: the view's Truncate works. *)
Definition close_handle (held : bool) (h : heap) (n : nat) : option heap := if held then None else Some (drop_ref h n).
Definition open_truncating (h : heap) (b : nat) (name : list byte) (q : oreq) (truncates : bool) : option (heap * sres nat) :=
  match open_existing h b name q with
  | (h1, Ok n) =>
      match nodes h1 n with
      | Some (NFile _ _) =>
          if o_write q && negb truncates
          then match close_handle true h1 n with None => None | Some h2 => Some (h2, Err EOther) end
          else Some (h1, Ok n)
      | _ => Some (h1, Ok n)
      end
  | r => Some r
  end.
