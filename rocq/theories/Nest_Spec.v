(* One view in place of a stack of them: a directory (or the whole of the bottom) and whether
   it is read-only. *)
From Verif Require Import Common ContentRange_Model PathLex_Model PathLex_Proofs Views_Model Views_Spec IoBridge_Model IoBridge_Spec Nest_Model.
Open Scope Z_scope.

(* The directory at the bottom a stack shows, by its elements; None without a prefix. *)
Fixpoint base_of (v : view) : option (bool * list (list byte)) :=
  match v with
  | Base => None
  | Widened v | Frozen v | Normalized v | Localized v => base_of v
  | Prefixed p v => match base_of v with None => Some (rooted p, elems p) | Some (r, l) => Some (r, l ++ elems p) end
  end.
Fixpoint frozen (v : view) : Prop :=
  match v with
  | Base => False
  | Frozen _ => True
  | Widened v | Prefixed _ v | Normalized v | Localized v => frozen v
  end.
(* Whether names are cleaned on the way. *)
Fixpoint tidy (v : view) : Prop :=
  match v with
  | Base => False
  | Normalized _ | Localized _ => True
  | Widened v | Prefixed _ v | Frozen v => tidy v
  end.

(* The path at the bottom a name of the stack stands for. *)
Definition lands (v : view) (name path : list byte) : Prop :=
  match base_of v with
  | Some (r, l) => path = render r (l ++ elems name)
  | None => (tidy v -> path = render (rooted name) (elems name)) /\ (~ tidy v -> path = name)
  end.

(* Calls that only look; [flag] is OpenFile's. *)
Definition looks (fl : oflags) (flag : Z) (c : vcall) : Prop :=
  match c with
  | V1 (Lstat | Stat | ReadLink | Open) _ => True
  | V1 OpenFile _ =>
      Z.land flag (f_wronly fl) = 0 /\ Z.land flag (f_rdwr fl) = 0 /\ Z.land flag (f_append fl) = 0 /\
      Z.land flag (f_create fl) = 0 /\ Z.land flag (f_trunc fl) = 0
  | _ => False
  end.

(* What one view lets through: everything that stays inside and, if it is read-only, only looks. *)
Definition lets (fl : oflags) (flag : Z) (v : view) (c : vcall) : Prop :=
  (frozen v -> looks fl flag c) /\
  (base_of v <> None -> Forall inside (paths_of c) /\ ~ removes_root c).

(* What the outermost objecting wrapper says, judged by the names as given: a prefix below
   another one has nothing left to object to. *)
Inductive objects (fl : oflags) (flag : Z) (c : vcall) : bool -> view -> refusal -> Prop :=
| ob_readonly seen v : ~ looks fl flag c -> objects fl flag c seen (Frozen v) RReadOnly
| ob_looks seen v r : looks fl flag c -> objects fl flag c seen v r -> objects fl flag c seen (Frozen v) r
| ob_escapes p v : ~ Forall inside (paths_of c) -> objects fl flag c false (Prefixed p v) REscapes
| ob_itself p v : removes_root c -> objects fl flag c false (Prefixed p v) RItself
| ob_inside p v r : Forall inside (paths_of c) -> ~ removes_root c -> objects fl flag c true v r -> objects fl flag c false (Prefixed p v) r
| ob_again p v r : objects fl flag c true v r -> objects fl flag c true (Prefixed p v) r
| ob_widened seen v r : objects fl flag c seen v r -> objects fl flag c seen (Widened v) r
| ob_normal seen v r : objects fl flag c seen v r -> objects fl flag c seen (Normalized v) r
| ob_local seen v r : objects fl flag c seen v r -> objects fl flag c seen (Localized v) r.

(* Operations on an open file that cannot change it. *)
Definition looks_file (o : fileop) : Prop :=
  match o with HChmod | HChown | HSync | HTruncate | HWrite | HWriteAt | HWriteString => False | _ => True end.

(* The bottom's own ReadFile and ReadDir do what opening, reading and closing does. *)
Definition own_agrees {A} (f : list A -> list A) (opened : list byte -> (list A * option nat) + nat) (own : list byte -> list A * option nat) : Prop :=
  forall name, own name = match opened name with inl (l, e) => (f l, e) | inr e => ([], Some e) end.

(* Every handle opened is closed. *)
Definition opens (b : bcall) : bool := match b with BOpen _ | BOpenFile _ _ => true | _ => false end.
Definition closes (b : bcall) : bool := match b with BClose => true | _ => false end.
Definition times (f : bcall -> bool) (log : list bcall) : nat := length (filter f log).

(* The path of [b] below [a]. *)
Definition joined (a b : list byte) : list byte := render (rooted a) (elems a ++ elems b).
(* Two stacks nobody can tell apart by their calls. *)
Definition alike (v w : view) : Prop :=
  (forall fl flag c, down fl flag v c = down fl flag w c) /\ (forall o, file_down v o = file_down w o).

(* What reading a file or a directory through a stack comes to. *)
Definition reads_as {A} (f : list A -> list A) (opened : list byte -> (list A * option nat) + nat) (fl : oflags) (own_log : list byte -> bcall)
    (v : view) (name : list byte) (res : list bcall * (list A * option nerr)) : Prop :=
  (exists r, objects fl 0 (V1 Open name) false v r /\ res = ([], ([], Some (ERefused r)))) \/
  (lets fl 0 v (V1 Open name) /\ exists p, lands v name p /\
   snd res = match opened p with inr e => ([], Some (EBase e)) | inl (l, e) => (f l, as_err e) end /\
   (fst res = [own_log p] \/ fst res = match opened p with inr _ => [BOpen p] | inl _ => [BOpen p; BRead; BClose] end)).

(* Stacks that are an Fs[File]: a read-only wrapper hands out *ReadOnlyFile, a prefix or a
   normalizer what it got. *)
Fixpoint hands_files (nt : native) (v : view) : Prop :=
  match v with
  | Base => n_wide nt = true
  | Widened _ => True
  | Frozen _ => False
  | Prefixed _ v | Normalized v | Localized v => hands_files nt v
  end.

(* The directory, the read-only bit, the cleaning and the file type after one more wrapper. *)
Definition shows_below (v : view) (d : list byte) (v' : view) : Prop :=
  base_of v' = match base_of v with None => Some (rooted d, elems d) | Some (r, l) => Some (r, l ++ elems d) end.
Definition added (nt : native) (w : wrap) (v v' : view) : Prop :=
  match w with
  | AddWiden => base_of v' = base_of v /\ (frozen v' <-> frozen v) /\ (tidy v' <-> tidy v) /\ hands_files nt v' /\ (hands_files nt v -> v' = v)
  | AddSub d => shows_below v d v' /\ (frozen v' <-> frozen v) /\ (tidy v' <-> tidy v) /\ (hands_files nt v' <-> hands_files nt v)
  | AddPrefix d => shows_below v d v' /\ (frozen v' <-> frozen v) /\ (tidy v' <-> tidy v) /\ (hands_files nt v' <-> hands_files nt v)
  | AddFreeze => base_of v' = base_of v /\ frozen v' /\ (tidy v' <-> tidy v) /\ ~ hands_files nt v'
  | AddNormalize | AddLocalize => base_of v' = base_of v /\ (frozen v' <-> frozen v) /\ tidy v' /\ (hands_files nt v' <-> hands_files nt v)
  end.
