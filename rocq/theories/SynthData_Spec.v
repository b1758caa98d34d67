(* One plain tree, numbered files with their bytes, and handles that know a file by its number:
   names and handles have nothing to do with each other. *)
From Verif Require Import Common Views_Model MemBuf_Model MemBuf_Spec Synth_Model SynthPlain_Spec SynthData_Model.
From Verif Require RoViews_Model.
Open Scope nat_scope.

(* A file: its length, its bytes, whether it only reads. *)
Record dfile := { c_len : Z; c_at : Z -> byte; c_fixed : bool }.
Record fhand := { k_file : option nat; k_hand : handle; k_open : bool }.
Record world := World { w_tree : tree; w_files : list dfile; w_hands : list fhand }.

(* Flags. *)
Definition has (flag bit : Z) : bool := if (Z.land flag bit =? 0)%Z then false else true.
Definition can_write (fl : dflags) (flag : Z) : bool := has flag (f_wronly (f_all fl)) || has flag (f_rdwr (f_all fl)).
Definition can_read (fl : dflags) (flag : Z) : bool := negb (has flag (f_wronly (f_all fl))) || has flag (f_rdwr (f_all fl)).
Definition may_change (fl : dflags) (flag : Z) : bool :=
  can_write fl flag || has flag (f_append (f_all fl)) || has flag (f_create (f_all fl)) || has flag (f_trunc (f_all fl)).

Definition no_bytes : dfile := {| c_len := 0; c_at := fun _ => 0%N; c_fixed := false |}.
Definition holding (d : list byte) : dfile := {| c_len := zlen d; c_at := byt d; c_fixed := true |}.
Definition cut (f : dfile) : dfile := if c_fixed f then f else no_bytes.
Definition at_nth {A} (l : list A) (i : nat) (x : A) : list A := firstn i l ++ match skipn i l with [] => [] | _ :: r => x :: r end.

(* A file under one handle is MemBuf_Spec's file. *)
Definition alone (f : dfile) (h : handle) : afile := {| a_len := c_len f; a_at := c_at f; a_handles := [h] |}.
Definition back (f : dfile) (a : afile) : dfile := {| c_len := a_len a; c_at := a_at a; c_fixed := c_fixed f |}.
Definition hand_in (a : afile) (h : handle) : handle := match a_handles a with x :: _ => x | [] => h end.
(* A method of a handle: refused when closed or not for that, otherwise the file's. Reading to the
   end of a bytes view does not say so yet. *)
Definition asks_read (o : mop) : bool := match o with MRead _ | MReadAt _ _ => true | _ => false end.
Definition asks_write (o : mop) : bool := match o with MWrite _ | MWriteAt _ _ | MTruncate _ => true | _ => false end.
Definition quiet (f : dfile) (o : mop) (r : mres) : mres :=
  match c_fixed f, o, r with true, MRead _, MOk (Zpos n) d _ => MOk (Zpos n) d e_nil | _, _, _ => r end.
Definition method (fl : dflags) (f : dfile) (k : fhand) (o : mop) : dfile * handle * mres :=
  let h := k_hand k in
  match o with
  | MStat => (f, h, MOk (c_len f) [] e_nil)
  | _ =>
      if negb (k_open k) then (f, h, MOk 0 [] RoViews_Model.e_closed)
      else if asks_read o && negb (can_read fl (h_flag h)) || asks_write o && negb (can_write fl (h_flag h)) then (f, h, MOk 0 [] e_badf)
      else match a_step (f_all fl) (alone f h) (0, o) with
           | (a, Some r) => (back f a, hand_in a h, quiet f o r)
           | (_, None) => (f, h, MOk 0 [] e_nil)
           end
  end.

(* OpenFile. *)
Definition hand_of (v : option nat) (flag : Z) : fhand := {| k_file := v; k_hand := {| h_flag := flag; h_off := 0 |}; k_open := true |}.
Definition opens_there (fl : dflags) (w : world) (name : list byte) (flag : Z) : world * sres unit :=
  match leads_to (w_tree w) name true with
  | Err e => (w, Err e)
  | Ok p =>
      match pat (w_tree w) p with
      | Some (Synth_Spec.LookDir _) => if may_change fl flag then (w, Err EBadf) else (World (w_tree w) (w_files w) (w_hands w ++ [hand_of None flag]), Ok tt)
      | Some (Synth_Spec.LookFile _ v) =>
          match nth_error (w_files w) v with
          | None => (w, Err EOther)
          | Some f =>
              if c_fixed f && may_change fl flag then (w, Err EOther)
              else
                let files := if has flag (f_trunc (f_all fl)) && can_write fl flag then at_nth (w_files w) v (cut f) else w_files w in
                (World (w_tree w) files (w_hands w ++ [hand_of (Some v) flag]), Ok tt)
          end
      | _ => (w, Err EBadf)
      end
  end.
Definition opens (fl : dflags) (w : world) (name : list byte) (flag : Z) (perm : N) : world * sres unit :=
  if has flag (f_create (f_all fl)) then
    match place_of (w_tree w) name with
    | Err e => (w, Err e)
    | Ok p =>
        match pat (w_tree w) p with
        | Some _ => if has flag (f_excl fl) then (w, Err EExist) else opens_there fl w name flag
        | None => (World (new_file (w_tree w) p perm 0) (w_files w ++ [no_bytes]) (w_hands w ++ [hand_of (Some (length (w_files w))) flag]), Ok tt)
        end
    end
  else opens_there fl w name flag.

(* One call. *)
Definition does (given : N -> list byte) (fl : dflags) (w : world) (o : dop) : world * dres :=
  match o with
  | DTree o =>
      let t := fst (plain (w_tree w) o) in
      (World t (w_files w ++ map (fun x => holding (given x)) (skipn (length (w_files w)) (t_files t))) (w_hands w), RName (snd (plain (w_tree w) o)))
  | DOpen name flag perm => let r := opens fl w name flag perm in (fst r, RName (snd r))
  | DSize name =>
      (w, match leads_to (w_tree w) name true with
          | Err e => RName (Err e)
          | Ok p => match pat (w_tree w) p with
                    | Some (Synth_Spec.LookFile _ v) => match nth_error (w_files w) v with Some f => RData (MOk (c_len f) [] e_nil) | None => RNoFile end
                    | _ => RData (MOk 0 [] e_nil)
                    end
          end)
  | DCall i o =>
      match nth_error (w_hands w) i with
      | None => (w, RNoFile)
      | Some k =>
          match o with
          | MClose => (World (w_tree w) (w_files w) (at_nth (w_hands w) i {| k_file := k_file k; k_hand := k_hand k; k_open := false |}), RData (MOk 0 [] e_nil))
          | _ =>
              match k_file k with
              | None => (w, RNoFile)
              | Some v =>
                  match nth_error (w_files w) v with
                  | None => (w, RNoFile)
                  | Some f =>
                      let '(f1, h1, r) := method fl f k o in
                      (World (w_tree w) (at_nth (w_files w) v f1) (at_nth (w_hands w) i {| k_file := k_file k; k_hand := h1; k_open := k_open k |}), RData r)
                  end
              end
          end
      end
  end.
Definition begin (mode : N) : world := World (start mode) [] [].
Definition makes (given : N -> list byte) (fl : dflags) (w : world) (os : list dop) : world := fold_left (fun w o => fst (does given fl w o)) os w.
Fixpoint says (given : N -> list byte) (fl : dflags) (w : world) (os : list dop) : list dres :=
  match os with [] => [] | o :: os => snd (does given fl w o) :: says given fl (fst (does given fl w o)) os end.

(* Histories: names through the first root, no directory renamed into itself, no whole file system
   added; arguments Go's types admit; no file asked to be larger than an allocation can be. *)
Definition by_name (o : sop) : Prop := match o with OOpen _ _ _ | OCloseHandle _ | OAddFS _ _ _ _ _ => False | _ => True end.
Definition allowed (fl : dflags) (g : goheap) (w : world) (o : dop) : Prop :=
  match o with
  | DTree o => by_root o /\ by_name o /\ ~ into_itself (w_tree w) o
  | DOpen _ _ _ | DSize _ => True
  | DCall i o =>
      op_fits (0, o) /\ (forall flag, o <> MOpen flag) /\
      forall k v f, nth_error (w_hands w) i = Some k -> k_file k = Some v -> nth_error (w_files w) v = Some f -> (wants (f_all fl) (alone f (k_hand k)) (0%nat, o) <= max_alloc g)%Z
  end.
Fixpoint all_allowed (given : N -> list byte) (fl : dflags) (g : goheap) (w : world) (os : list dop) : Prop :=
  match os with [] => True | o :: os => allowed fl g w o /\ all_allowed given fl g (fst (does given fl w o)) os end.

(* The state shows the world. *)
Definition bytes_in (v : dview) : list byte := match v with VMemory b => s_bytes b | VBytes d => d end.
Definition shows_file (v : dview) (f : dfile) : Prop :=
  c_len f = zlen (bytes_in v) /\ (forall k, c_at f k = byt (bytes_in v) k) /\ (c_fixed f = true <-> exists d, v = VBytes d).
Definition shows_hand (x : dhandle) (k : fhand) : Prop := d_file x = k_file k /\ d_hand x = k_hand k /\ d_live x = k_open k.
Definition shows_world (s : dstate) (w : world) : Prop :=
  SynthPlain_Spec.shows (st_heap (d_tree s)) (w_tree w) /\ Forall2 shows_file (d_views s) (w_files w) /\ Forall2 shows_hand (d_hands s) (w_hands w).
