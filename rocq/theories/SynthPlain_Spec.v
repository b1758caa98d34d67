(* One plain tree: what each call of synthfs answers on it and makes of it. It knows nothing of
   nodes, parent pointers, reference counts or views. *)
From Verif Require Import Common ContentRange_Model PathLex_Model Synth_Model Synth_Spec.
Open Scope nat_scope.

Definition path := list (list byte).
Definition eqn (a b : list byte) : bool := if list_eq_dec N.eq_dec a b then true else false.
Definition same (p q : path) : bool := if list_eq_dec (list_eq_dec N.eq_dec) p q then true else false.
(* p is q or above it. *)
Fixpoint begins (p q : path) : bool :=
  match p, q with
  | [], _ => true
  | a :: p, b :: q => eqn a b && begins p q
  | _ :: _, [] => false
  end.

(* The entries by their full paths, the root's being []; an earlier one stands before a later one
   of the same path. Files are numbered in the order of their making; [t_files] says what each shows. *)
Record tree := Tree { t_ents : list (path * look); t_files : list N }.
Definition pat (t : tree) (p : path) : option look := option_map snd (find (fun e => same p (fst e)) (t_ents t)).
Definition put (t : tree) (p : path) (x : look) : tree := Tree ((p, x) :: t_ents t) (t_files t).
Definition drop (t : tree) (p : path) : tree := Tree (filter (fun e => negb (begins p (fst e))) (t_ents t)) (t_files t).
Definition move (t : tree) (o n : path) : tree :=
  Tree (map (fun e => (n ++ skipn (length o) (fst e), snd e)) (filter (fun e => begins o (fst e)) (t_ents t)) ++ t_ents (drop (drop t o) n)) (t_files t).
Definition childless (t : tree) (p : path) : bool := forallb (fun e => negb (begins p (fst e)) || same p (fst e)) (t_ents t).
Definition dir_at (t : tree) (p : path) : bool := match pat t p with Some (LookDir _) => true | _ => false end.
Definition start (mode : N) : tree := Tree [([], LookDir mode)] [].

(* Names: read from left to right, never above the root. *)
Fixpoint reads (don l : path) : option path :=
  match l with
  | [] => Some don
  | c :: l =>
      if eqn c [] || eqn c [dot] then reads don l
      else if eqn c [dot; dot] then match don with [] => None | _ => reads (removelast don) l end
      else reads (don ++ [c]) l
  end.
Definition absolute (name : list byte) : bool := match name with c :: _ => N.eqb c sep | [] => false end.
Definition parse (name : list byte) : option path := if absolute name then None else reads [] (split_sep name).
Definition dot_last (name : list byte) : bool := match rev (split_sep name) with c :: _ => eqn c [dot] | [] => false end.

(* Nothing is left of a path, but for a separator at its end. *)
Definition over (l : path) : bool := match l with [] => true | [c] => eqn c [] | _ => false end.

(* Walking l from the directory cur, following links; hops more may be followed. *)
Fixpoint walk (t : tree) (follow : bool) (hops : nat) : path -> path -> sres path :=
  fix go (cur l : path) : sres path :=
    match l with
    | [] => Ok cur
    | c :: l =>
        if eqn c [] || eqn c [dot] then go cur l
        else if eqn c [dot; dot] then match cur with [] => Err EEscapes | _ => go (removelast cur) l end
        else
          match pat t (cur ++ [c]) with
          | None => Err ENotExist
          | Some (LookDir _) => go (cur ++ [c]) l
          | Some (LookFile _ _) => if over l then Ok (cur ++ [c]) else Err ENotDir
          | Some (LookLink _ g) =>
              if over l && negb follow then Ok (cur ++ [c])
              else match hops with
                   | O => Err ELoop
                   | S k => if absolute g then Err EEscapes else walk t follow k cur (split_sep g ++ (if over l then [] else l))
                   end
          end
    end.
(* The path a name leads to. *)
Definition leads_to (t : tree) (name : list byte) (follow : bool) : sres path :=
  match parse name with None => Err EEscapes | Some l => walk t follow 40 [] l end.
(* The path of the entry a name speaks of, in a directory that is there. *)
Definition place_at (t : tree) (l : path) : sres path :=
  match l with
  | [] => Err EInval
  | _ => match walk t true 40 [] (removelast l) with
         | Err e => Err e
         | Ok d => if dir_at t d then Ok (d ++ [last l []]) else Err ENotDir
         end
  end.
Definition place_of (t : tree) (name : list byte) : sres path :=
  match parse name with None => Err EEscapes | Some l => place_at t l end.

(* The calls. *)
Definition make_at (t : tree) (p : sres path) (x : look) : tree * sres unit :=
  match p with
  | Err e => (t, Err e)
  | Ok p => match pat t p with Some _ => (t, Err EExist) | None => (put t p x, Ok tt) end
  end.
(* l below pre: what is missing is made, what is there has to be a directory. *)
Fixpoint mkdirs (t : tree) (pre l : path) (mode : N) : tree * sres unit :=
  match l with
  | [] => (t, Ok tt)
  | c :: l =>
      match place_at t (pre ++ [c]) with
      | Err e => (t, Err e)
      | Ok p =>
          match pat t p with
          | None => mkdirs (put t p (LookDir mode)) (pre ++ [c]) l mode
          | Some _ => match walk t true 40 [] (pre ++ [c]) with
                      | Err e => (t, Err e)
                      | Ok q => if dir_at t q then mkdirs t (pre ++ [c]) l mode else (t, Err ENotEmpty)
                      end
          end
      end
  end.
(* A new file that shows x. *)
Definition new_file (t : tree) (p : path) (mode x : N) : tree :=
  Tree ((p, LookFile mode (length (t_files t))) :: t_ents t) (t_files t ++ [x]).
Definition open_there (t : tree) (name : list byte) (q : oreq) : sres unit :=
  match leads_to t name true with
  | Err e => Err e
  | Ok p =>
      match pat t p with
      | Some (LookDir _) => if o_write q then Err EBadf else Ok tt
      | Some (LookFile _ _) => if o_opens q then Ok tt else Err EOther
      | _ => Err EBadf
      end
  end.
(* The directories above an added file: a missing one is made, a link to nothing gives way to one. *)
Fixpoint scaffolds (t : tree) (pre l : path) (mode : N) (d : path) : tree * sres path :=
  match l with
  | [] => (t, Ok d)
  | c :: l =>
      match walk t true 40 [] (pre ++ [c]) with
      | Ok q => if dir_at t q then scaffolds t (pre ++ [c]) l mode q else (t, Err ENotDir)
      | Err ENotExist =>
          match place_at t (pre ++ [c]) with
          | Err e => (t, Err e)
          | Ok p => scaffolds (put t p (LookDir mode)) (pre ++ [c]) l mode p
          end
      | Err e => (t, Err e)
      end
  end.

Definition is_dir_look (k : look) : bool := match k with LookDir _ => true | _ => false end.
Definition each (put_one : source -> tree -> path -> list byte -> path -> tree * sres unit) (d way : path) : list (list byte * source) -> tree -> tree * sres unit :=
  fix go (cs : list (list byte * source)) (t : tree) : tree * sres unit :=
    match cs with
    | [] => (t, Ok tt)
    | (nm, c) :: cs => match put_one c t d nm (way ++ [nm]) with (t1, Ok _) => go cs t1 | r => r end
    end.
(* A source put at the entry base of d. A file that is kept out was opened all the same. *)
Fixpoint graft (cb : addfunc) (s : source) (t : tree) (d : path) (base : list byte) (way : path) {struct s} : tree * sres unit :=
  let p := d ++ [base] in
  let ex := option_map is_dir_look (pat t p) in
  match s with
  | SFail => (t, Err EOther)
  | SDir mode cs lists =>
      match cb way true ex with
      | None => (t, Err EOther)
      | Some Skip => (t, Ok tt)
      | Some dec =>
          let t1 := match dec, ex with Keep, Some true => t | _, _ => put (drop t p) p (LookDir mode) end in
          if lists then each (graft cb) p way cs t1 else (t1, Err EOther)
      end
  | SLink mode target reads =>
      match cb way false ex with
      | None => (t, Err EOther)
      | Some Skip => (t, Ok tt)
      | Some dec =>
          if reads then (match dec, ex with Keep, Some _ => t | _, _ => put (drop t p) p (LookLink mode target) end, Ok tt) else (t, Err EOther)
      end
  | SFile mode x opens =>
      match cb way false ex with
      | None => (t, Err EOther)
      | Some Skip => (t, Ok tt)
      | Some dec =>
          if opens then (match dec, ex with Keep, Some _ => Tree (t_ents t) (t_files t ++ [x]) | _, _ => new_file (drop t p) p mode x end, Ok tt) else (t, Err EOther)
      end
  end.

Definition plain (t : tree) (o : sop) : tree * sres unit :=
  match o with
  | OMkdir _ name mode => make_at t (place_of t name) (LookDir mode)
  | OMkdirAll _ name mode => match parse name with None => (t, Err EEscapes) | Some l => mkdirs t [] l mode end
  | OSymlink _ target name mode => make_at t (place_of t name) (LookLink mode target)
  | OLink _ old new =>
      match leads_to t old true with
      | Err e => (t, Err e)
      | Ok p => match pat t p with Some (LookFile m v) => make_at t (place_of t new) (LookFile m v) | _ => (t, Err EInval) end
      end
  | ORemove _ name =>
      match place_of t name with
      | Err e => (t, Err e)
      | Ok p => match pat t p with None => (t, Err ENotExist) | Some _ => if childless t p then (drop t p, Ok tt) else (t, Err ENotEmpty) end
      end
  | ORemoveAll _ name =>
      if dot_last name then (t, Err EInval)
      else match place_of t name with Err e => (t, Err e) | Ok p => (drop t p, Ok tt) end
  | ORename _ old new =>
      match place_of t old with
      | Err e => (t, Err e)
      | Ok p =>
          match pat t p with
          | None => (t, Err ENotExist)
          | Some _ =>
              match place_of t new with
              | Err e => (t, Err e)
              | Ok n => if childless t n then (if same p n then t else move t p n, Ok tt) else (t, Err ENotEmpty)
              end
          end
      end
  | OOpen _ name q =>
      if o_create q then
        match place_of t name with
        | Err e => (t, Err e)
        | Ok p =>
            match pat t p with
            | Some _ => (t, if o_excl q then Err EExist else open_there t name q)
            | None => if o_allocs q then (new_file t p (o_mode q) (o_tag q), if o_opens q then Ok tt else Err EOther) else (t, Err EOther)
            end
        end
      else (t, open_there t name q)
  | OCloseHandle _ => (t, Ok tt)
  | OChmod _ name follow mode =>
      match leads_to t name follow with
      | Err e => (t, Err e)
      | Ok p => (match pat t p with Some x => put t p (set_mode mode x) | None => t end, Ok tt)
      end
  | OOpenRoot _ name =>
      (t, match leads_to t name true with Err e => Err e | Ok p => if dir_at t p then Ok tt else Err ENotDir end)
  | OAddFile _ name x mode scaffold stats cb =>
      if negb stats then (t, Err EOther)
      else match parse name with
      | None => (t, Err EEscapes)
      | Some [] => (t, Err EInval)
      | Some l =>
          match scaffolds t [] (removelast l) scaffold [] with
          | (t1, Err e) => (t1, Err e)
          | (t1, Ok d) =>
              let p := d ++ [last l []] in
              match cb l false (option_map is_dir_look (pat t1 p)) with
              | None => (t1, Err EOther)
              | Some Override => (new_file (drop t1 p) p mode x, Ok tt)
              | Some _ => (t1, Ok tt)
              end
          end
      end
  | OAddFS _ name s scaffold cb =>
      match parse name with
      | None => (t, Err EEscapes)
      | Some [] => match s with SDir _ cs true => each (graft cb) [] [] cs t | _ => (t, Err EOther) end
      | Some l =>
          match scaffolds t [] (removelast l) scaffold [] with
          | (t1, Err e) => (t1, Err e)
          | (t1, Ok d) => graft cb s t1 d (last l []) l
          end
      end
  end.

(* Histories through the first root, without renames of a directory to a place inside itself. *)
Definition by_root (o : sop) : Prop :=
  match o with
  | OMkdir i _ _ | OMkdirAll i _ _ | OSymlink i _ _ _ | OLink i _ _ | ORemove i _ | ORemoveAll i _ | ORename i _ _
  | OOpen i _ _ | OChmod i _ _ _ | OOpenRoot i _ | OAddFile i _ _ _ _ _ _ | OAddFS i _ _ _ _ => i = 0
  | OCloseHandle _ => True
  end.
Definition into_itself (t : tree) (o : sop) : Prop :=
  match o with
  | ORename _ old new => exists p n, place_of t old = Ok p /\ pat t p <> None /\ place_of t new = Ok n /\ begins p n = true /\ p <> n
  | _ => False
  end.
Fixpoint fit (t : tree) (os : list sop) : Prop :=
  match os with [] => True | o :: os => by_root o /\ ~ into_itself t o /\ fit (fst (plain t o)) os end.
Fixpoint answers (t : tree) (os : list sop) : list (sres unit) :=
  match os with [] => [] | o :: os => snd (plain t o) :: answers (fst (plain t o)) os end.
Definition after (t : tree) (os : list sop) : tree := fold_left (fun t o => fst (plain t o)) os t.

(* The same history on synthfs, with its answers. *)
Fixpoint trace (st : sstate) (os : list sop) : option (sstate * list (sres unit)) :=
  match os with
  | [] => Some (st, [])
  | o :: os =>
      match step false st o with
      | None => None
      | Some (st1, r) => match trace st1 os with None => None | Some (st2, rs) => Some (st2, r :: rs) end
      end
  end.
(* The root shows the tree; the views show what the files do. *)
Definition shows (h : heap) (t : tree) : Prop :=
  (forall p, seen_at h 0 p = pat t p) /\ next_view h = length (t_files t) /\ forall v, v < length (t_files t) -> nth_error (t_files t) v = Some (tag h v).
