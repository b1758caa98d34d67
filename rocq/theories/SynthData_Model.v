(* A synthfs root with what its files hold: the tree of Synth_Model, its views' bytes and the file
   handles on them (vroot/synthfs: open.go, handle.go, view_mem.go, view_mem_buf.go, view_bytes.go).
   Files are created in memory or added as bytes views; calls go through the first root. *)
From Verif Require Import Common Views_Model MemBuf_Model Synth_Model.
From Verif Require RoViews_Model.
Open Scope nat_scope.

(* A view (view.go:18-37): a memBuf's content (view_mem_buf.go:24-31), or NewBytesView's data
   (view_bytes.go:20-28). *)
Inductive dview := VMemory (b : slice) | VBytes (d : list byte).
(* A fileHandle over the view's handle (handle.go:23-32), or a dirHandle: its node, the view and
   no view for a directory, the flags, the position, whether it is open. *)
Record dhandle := { d_node : nat; d_file : option nat; d_hand : handle; d_live : bool }.
Record dstate := { d_tree : sstate; d_views : list dview; d_hands : list dhandle }.

(* os.O_EXCL beside the other flags. *)
Record dflags := { f_all : oflags; f_excl : Z }.
Definition flagged (flag bit : Z) : bool := negb (Z.land flag bit =? 0)%Z.

(* A new memView's content (view_mem.go:26-35). *)
Definition empty_view : dview := VMemory {| s_arr := []; s_len := 0 |}.
(* memView.Open (view_mem.go:43-45), bytesView.Open (view_bytes.go:30-35). *)
Definition view_opens (fl : dflags) (v : dview) (flag : Z) : bool :=
  match v with VMemory _ => true | VBytes _ => negb (write_op (f_all fl) flag) end.
(* Stat().Size() of a view (view_mem_buf.go:33-42, view_bytes.go:37-39). *)
Definition view_size (v : dview) : Z := match v with VMemory b => s_len b | VBytes d => zlen d end.

(* The view's own handle: memHandle (view_mem_buf.go:114-264), bytesHandle (view_bytes.go:45-110). *)
Definition ro_op (o : mop) : RoViews_Model.rop :=
  match o with
  | MRead n => RoViews_Model.RRead n | MReadAt n off => RoViews_Model.RReadAt n off
  | MWrite p => RoViews_Model.RWrite p | MWriteAt p off => RoViews_Model.RWriteAt p off
  | MSeek off wh => RoViews_Model.RSeek off wh | MTruncate n => RoViews_Model.RTruncate n
  | MStat => RoViews_Model.RStat | MClose => RoViews_Model.RClose | MOpen _ => RoViews_Model.RSync
  end.
Definition inner_call (fl : dflags) (g : goheap) (v : dview) (h : handle) (o : mop) : dview * handle * mres :=
  match v with
  | VMemory b => let '(b1, h1, r) := mem_step (f_all fl) g b h o in (VMemory b1, h1, r)
  | VBytes d =>
      let '(r, i) := RoViews_Model.inner_step [] {| RoViews_Model.r_view := RoViews_Model.VBytes d; RoViews_Model.r_pos := h_off h |} (ro_op o) in
      (v, moved h (RoViews_Model.r_pos i), r)
  end.
(* fileHandle's methods other than Close (handle.go:66-150): closed, then the flags, then the
   handle inside. Stat asks neither. *)
Definition file_call (fl : dflags) (g : goheap) (v : dview) (live : bool) (h : handle) (o : mop) : dview * handle * mres :=
  let refused e := (v, h, MOk 0 [] e) in
  match o with
  | MStat => (v, h, MOk (view_size v) [] e_nil)
  | MRead _ | MReadAt _ _ =>
      if negb live then refused RoViews_Model.e_closed
      else if negb (readable (f_all fl) (h_flag h)) then refused e_badf else inner_call fl g v h o
  | MWrite _ | MWriteAt _ _ | MTruncate _ =>
      if negb live then refused RoViews_Model.e_closed
      else if negb (writable (f_all fl) (h_flag h)) then refused e_badf else inner_call fl g v h o
  | MSeek _ _ => if negb live then refused RoViews_Model.e_closed else inner_call fl g v h o
  | MOpen _ | MClose => refused e_nil
  end.

Definition hand_on (n : nat) (v : option nat) (flag : Z) : dhandle :=
  {| d_node := n; d_file := v; d_hand := {| h_flag := flag; h_off := 0 |}; d_live := true |}.
Definition opened (s : dstate) (h : heap) (vs : list dview) (x : dhandle) : dstate :=
  {| d_tree := with_heap (d_tree s) h; d_views := vs; d_hands := d_hands s ++ [x] |}.

(* OpenFile of what is there (open.go:52-82). A truncation that fails closes the handle under the
   lock its Close takes and never returns: None. *)
Definition open_there (fl : dflags) (g : goheap) (s : dstate) (name : list byte) (flag : Z) : option (dstate * sres unit) :=
  let h := st_heap (d_tree s) in
  match resolve h 0 name true with
  | Err e => Some (s, Err e)
  | Ok f =>
      match nodes h (f_node f) with
      | Some (NDir _ _ _) =>
          if write_op (f_all fl) flag then Some (s, Err EBadf)
          else Some (opened s (bump h (f_node f)) (d_views s) (hand_on (f_node f) None flag), Ok tt)
      | Some (NFile _ v) =>
          match nth_error (d_views s) v with
          | None => Some (s, Err EOther)
          | Some w =>
              if negb (view_opens fl w flag) then Some (s, Err EOther)
              else
                let x := hand_on (f_node f) (Some v) flag in
                if flagged flag (f_trunc (f_all fl)) && writable (f_all fl) flag then
                  match file_call fl g w true (d_hand x) (MTruncate 0) with
                  | (w1, _, MOk _ _ 0%N) => Some (opened s (bump h (f_node f)) (set_nth (d_views s) v w1) x, Ok tt)
                  | _ => None
                  end
                else Some (opened s (bump h (f_node f)) (d_views s) x, Ok tt)
          end
      | _ => Some (s, Err EBadf)
      end
  end.
(* OpenFile (open.go:20-51, 87-100); [perm] is what the umask leaves of it. *)
Definition open (fl : dflags) (g : goheap) (s : dstate) (name : list byte) (flag : Z) (perm : N) : option (dstate * sres unit) :=
  let h := st_heap (d_tree s) in
  if flagged flag (f_create (f_all fl)) then
    match resolve_parent h 0 name with
    | Err e => Some (s, Err e)
    | Ok (d, base) =>
        match lookup h d base with
        | Some _ => if flagged flag (f_excl fl) then Some (s, Err EExist) else open_there fl g s name flag
        | None =>
            let '(h1, n) := enter_file h d base perm 0 in
            Some (opened s (bump h1 n) (d_views s ++ [empty_view]) (hand_on n (Some (next_view h)) flag), Ok tt)
        end
    end
  else open_there fl g s name flag.

(* A call on a name of the tree; files that AddFile adds are bytes views, [given] telling the data
   of each. *)
Definition tree_call (given : N -> list byte) (s : dstate) (o : sop) : option (dstate * sres unit) :=
  match step false (d_tree s) o with
  | None => None
  | Some (t1, r) =>
      let h1 := st_heap t1 in
      let new := map (fun v => VBytes (given (tag h1 v))) (seq (length (d_views s)) (next_view h1 - length (d_views s))) in
      Some ({| d_tree := t1; d_views := d_views s ++ new; d_hands := d_hands s |}, r)
  end.

Definition with_hand (x : dhandle) (h : handle) : dhandle := {| d_node := d_node x; d_file := d_file x; d_hand := h; d_live := d_live x |}.
(* Close (handle.go:45-58, handle_dir.go:34-47). *)
Definition close (s : dstate) (i : nat) (x : dhandle) : dstate :=
  if d_live x then
    {| d_tree := with_heap (d_tree s) (drop_ref (st_heap (d_tree s)) (d_node x)); d_views := d_views s;
       d_hands := set_nth (d_hands s) i {| d_node := d_node x; d_file := d_file x; d_hand := d_hand x; d_live := false |} |}
  else s.

(* The calls of a history: names; opening; Stat's size (inspect.go:13-21, 61-71; a directory's and
   a link's is 0); methods of the i-th handle. *)
Inductive dop := DTree (o : sop) | DOpen (name : list byte) (flag : Z) (perm : N) | DSize (name : list byte) | DCall (i : nat) (o : mop).
Inductive dres := RName (r : sres unit) | RData (r : mres) | RNoFile.
Definition named (x : option (dstate * sres unit)) : option (dstate * dres) :=
  match x with Some (s, r) => Some (s, RName r) | None => None end.
Definition dstep (given : N -> list byte) (fl : dflags) (g : goheap) (s : dstate) (o : dop) : option (dstate * dres) :=
  match o with
  | DTree o => named (tree_call given s o)
  | DOpen name flag perm => named (open fl g s name flag perm)
  | DSize name =>
      let h := st_heap (d_tree s) in
      match resolve h 0 name true with
      | Err e => Some (s, RName (Err e))
      | Ok f =>
          match nodes h (f_node f) with
          | Some (NFile _ v) => match nth_error (d_views s) v with Some w => Some (s, RData (MOk (view_size w) [] e_nil)) | None => Some (s, RNoFile) end
          | _ => Some (s, RData (MOk 0 [] e_nil))
          end
      end
  | DCall i o =>
      match nth_error (d_hands s) i with
      | None => Some (s, RNoFile)
      | Some x =>
          match o with
          | MClose => Some (close s i x, RData (MOk 0 [] e_nil))
          | _ =>
              match d_file x with
              | None => Some (s, RNoFile)
              | Some v =>
                  match nth_error (d_views s) v with
                  | None => Some (s, RNoFile)
                  | Some w =>
                      let '(w1, h1, r) := file_call fl g w (d_live x) (d_hand x) o in
                      Some ({| d_tree := d_tree s; d_views := set_nth (d_views s) v w1; d_hands := set_nth (d_hands s) i (with_hand x h1) |}, RData r)
                  end
              end
          end
      end
  end.
Fixpoint drun (given : N -> list byte) (fl : dflags) (g : goheap) (s : dstate) (os : list dop) : option (dstate * list dres) :=
  match os with
  | [] => Some (s, [])
  | o :: os =>
      match dstep given fl g s o with
      | None => None
      | Some (s1, r) => match drun given fl g s1 os with None => None | Some (s2, rs) => Some (s2, r :: rs) end
      end
  end.
Definition dnew (mode : N) : dstate := {| d_tree := new_state mode; d_views := []; d_hands := [] |}.
