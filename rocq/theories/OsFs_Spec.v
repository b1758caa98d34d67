(* What a name given to osfs.Fs means, and where the kernel takes a path. *)
From Verif Require Import Common ContentRange_Model PathLex_Model PathLex_Proofs Resolve_Spec OsFs_Model.
Open Scope nat_scope.

Definition is_skip (c : list byte) : Prop := c = [] \/ c = [dot].

(* Reading the elements of a name from left to right, going down and up, never above the
   start: [goes don l r]. *)
Inductive goes : list (list byte) -> list (list byte) -> list (list byte) -> Prop :=
| goes_end don : goes don [] don
| goes_skip don c l r : is_skip c -> goes don l r -> goes don (c :: l) r
| goes_up don x l r : goes don l r -> goes (don ++ [x]) ([dot; dot] :: l) r
| goes_down don c l r : proper c -> goes (don ++ [c]) l r -> goes don (c :: l) r.
(* A name means the elements below the root. *)
Definition means (name : list byte) (l : list (list byte)) : Prop :=
  (forall r, name <> sep :: r) /\ goes [] (split_sep name) l.
(* The path of the root directory: absolute and clean, as filepath.Abs gives it. *)
Definition path_of (l : list (list byte)) : list byte := sep :: join_sep l.

(* The names of a call that have to lie inside, and the paths an os call works on. *)
Definition given (o : fsop) : list (list byte) :=
  match o with
  | OpChmod n | OpChown n | OpChtimes n | OpCreate n | OpLchown n | OpLstat n | OpMkdir n | OpMkdirAll n
  | OpOpen n | OpOpenFile n | OpOpenRoot n | OpReadLink n | OpRemove n | OpRemoveAll n | OpStat n
  | OpSymlink _ n | OpReadFile n => [n]
  | OpLink o n | OpRename o n => [o; n]
  end.
Definition paths (c : oscall) : list (list byte) :=
  match c with
  | OsChmod p | OsChown p | OsChtimes p | OsCreate p | OsLchown p | OsLstat p | OsMkdir p | OsMkdirAll p
  | OsOpen p | OsOpenFile p | OsOpenRoot p | OsReadlink p | OsRemove p | OsRemoveAll p | OsStat p
  | OsSymlink _ p | OsReadFile p => [p]
  | OsLink o p | OsRename o p => [o; p]
  end.
(* The call of package os for a method; [top]: the name means the root itself. *)
Inductive counterpart : bool -> fsop -> oscall -> Prop :=
| cp_chmod b n p : counterpart b (OpChmod n) (OsChmod p)
| cp_chown b n p : counterpart b (OpChown n) (OsChown p)
| cp_chtimes b n p : counterpart b (OpChtimes n) (OsChtimes p)
| cp_create b n p : counterpart b (OpCreate n) (OsCreate p)
| cp_lchown n p : counterpart false (OpLchown n) (OsLchown p)
| cp_lchown_top n p : counterpart true (OpLchown n) (OsChown p)
| cp_link b o n p q : counterpart b (OpLink o n) (OsLink p q)
| cp_lstat n p : counterpart false (OpLstat n) (OsLstat p)
| cp_lstat_top n p : counterpart true (OpLstat n) (OsStat p)
| cp_mkdir b n p : counterpart b (OpMkdir n) (OsMkdir p)
| cp_mkdirall b n p : counterpart b (OpMkdirAll n) (OsMkdirAll p)
| cp_open b n p : counterpart b (OpOpen n) (OsOpen p)
| cp_openfile b n p : counterpart b (OpOpenFile n) (OsOpenFile p)
| cp_openroot b n p : counterpart b (OpOpenRoot n) (OsOpenRoot p)
| cp_readlink n p : counterpart false (OpReadLink n) (OsReadlink p)
| cp_remove b n p : counterpart b (OpRemove n) (OsRemove p)
| cp_removeall n p : counterpart false (OpRemoveAll n) (OsRemoveAll p)
| cp_rename b o n p q : counterpart b (OpRename o n) (OsRename p q)
| cp_stat b n p : counterpart b (OpStat n) (OsStat p)
| cp_symlink b t n p : counterpart b (OpSymlink t n) (OsSymlink t p)
| cp_readfile b n p : counterpart b (OpReadFile n) (OsReadFile p).

(* RemoveAll also refuses names that end in the element ".", ReadLink and RemoveAll the root. *)
Definition last_is_dot (name : list byte) : Prop := exists l, split_sep name = l ++ [[dot]].
Definition refused (o : fsop) : Prop :=
  match o with
  | OpReadLink n => means n []
  | OpRemoveAll n => last_is_dot n \/ means n []
  | _ => False
  end.

(* What a call may come to, in the Fs whose root is the directory with the elements R. *)
Definition call_ok (R : list (list byte)) (o : fsop) (out : fsout) : Prop :=
  match out with
  | Escapes => exists n, In n (given o) /\ forall l, ~ means n l
  | Invalid => refused o
  | Calls c =>
      ~ refused o /\
      exists ls, Forall2 means (given o) ls /\ paths c = map (fun l => path_of (R ++ l)) ls /\
        exists b, counterpart b o c /\ (b = true <-> ls = [[]])
  end.

(* ---- the kernel's walk ---- *)
(* [kreach t fl d l r]: walking the elements [l] from the real directory [d] ends at the real
   path [r], the last element followed iff [fl]. *)
Inductive kreach (t : tree) (fl : bool) : list (list byte) -> list (list byte) -> list (list byte) -> Prop :=
| kr_end d : kreach t fl d [] d
| kr_skip d c l r : is_skip c -> t d = Some KDir -> kreach t fl d l r -> kreach t fl d (c :: l) r
| kr_up d l r : t d = Some KDir -> kreach t fl (removelast d) l r -> kreach t fl d ([dot; dot] :: l) r
| kr_down d c l r k : proper c -> t d = Some KDir -> t (d ++ [c]) = Some k -> (forall x, k <> KLink x) ->
    kreach t fl (d ++ [c]) l r -> kreach t fl d (c :: l) r
| kr_keep d c x : proper c -> t d = Some KDir -> t (d ++ [c]) = Some (KLink x) -> fl = false ->
    kreach t fl d [c] (d ++ [c])
| kr_link d c x l r : proper c -> t d = Some KDir -> t (d ++ [c]) = Some (KLink x) -> l <> [] \/ fl = true ->
    kreach t fl (if rooted x then [] else d) (split_sep x ++ l) r -> kreach t fl d (c :: l) r.
(* The same without a symlink on the way. *)
Inductive kplain (t : tree) : list (list byte) -> list (list byte) -> list (list byte) -> Prop :=
| kp_end d : kplain t d [] d
| kp_skip d c l r : is_skip c -> t d = Some KDir -> kplain t d l r -> kplain t d (c :: l) r
| kp_up d l r : t d = Some KDir -> kplain t (removelast d) l r -> kplain t d ([dot; dot] :: l) r
| kp_down d c l r k : proper c -> t d = Some KDir -> t (d ++ [c]) = Some k -> (forall x, k <> KLink x) ->
    kplain t (d ++ [c]) l r -> kplain t d (c :: l) r.
(* Where an absolute path leads. *)
Definition leads (t : tree) (fl : bool) (p : list byte) (r : list (list byte)) : Prop := kreach t fl [] (split_sep p) r.
