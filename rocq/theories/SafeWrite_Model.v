(* Model of fsutil/safe_write.go: Write, Copy and CopyFs through a temporary object that is
   renamed over the target. A run yields its result, the final state and the steps it made,
   each with the state before and after; a crash leaves one of those states. *)
From Verif Require Import Common ContentRange_Model PathLex_Model TempName_Model.
Open Scope nat_scope.

Inductive outcome := OOk | OErr | OPanic.

(* A hook or operation: the values the temporary object passes through while it runs, and
   how it ends. V is what a name holds: file contents, or a whole tree for CopyFs. *)
Definition script (V : Type) := V -> list V * outcome.

Notation sstep V := (names V * names V)%type (only parsing).

(* The temporary object takes the values vs, one after the other; before each step other
   processes act (env). *)
Fixpoint run_values {V} (env : nat -> names V -> names V) (temp : list byte) (k : nat) (w : names V) (vs : list V)
    : nat * names V * list (sstep V) :=
  match vs with
  | [] => (k, w, [])
  | v :: vs =>
      let a := env k w in
      let b := name_set a temp (Some v) in
      let '(k', w', tr) := run_values env temp (S k) b vs in
      (k', w', (a, b) :: tr)
  end.

(* The hooks and the operation, in order, stopping at the first error (safe_write.go:183-210). *)
Fixpoint run_scripts {V} (env : nat -> names V -> names V) (temp : list byte) (k : nat) (w : names V) (cur : V)
    (l : list (script V)) : outcome * V * nat * names V * list (sstep V) :=
  match l with
  | [] => (OOk, cur, k, w, [])
  | s :: l =>
      let '(vs, o) := s cur in
      let '(k1, w1, tr1) := run_values env temp k w vs in
      let cur1 := last vs cur in
      match o with
      | OOk =>
          let '(o2, cur2, k2, w2, tr2) := run_scripts env temp k1 w1 cur1 l in
          (o2, cur2, k2, w2, tr1 ++ tr2)
      | _ => (o, cur1, k1, w1, tr1)
      end
  end.

(* The failures of the last calls: Close, Rename, and RemoveAll, which passes through some
   partly removed values and, when it fails, leaves the last of them. *)
Record sw_faults (V : Type) := SwFaults {
  close_fails : bool;
  rename_fails : bool;
  remove_run : V -> list V * bool
}.
Arguments close_fails {V}. Arguments rename_fails {V}. Arguments remove_run {V}.

Inductive sw_res := SOk | SErr | SPanic.

(* The deferred clean-up (:174-181). *)
Definition cleanup {V} (env : nat -> names V -> names V) (temp : list byte) (k : nat) (w : names V) (cur : V)
    (f : sw_faults V) : names V * list (sstep V) :=
  let '(vs, ok) := remove_run f cur in
  let '(k1, w1, tr) := run_values env temp k w vs in
  if ok then
    let a := env k1 w1 in
    let b := name_set a temp None in (b, tr ++ [(a, b)])
  else (w1, tr).

(* rename(2) of temp over target. *)
Definition publish {V} (temp target : list byte) (a : names V) : names V :=
  name_set (name_set a temp None) target (a temp).

(* safeOperation (:159-223). A panicking hook unwinds with err == nil, so the deferred
   function does nothing. *)
Definition safe_operation {V} (env : nat -> names V -> names V) (temp target : list byte) (w : names V) (v0 : V)
    (opt_pre arg_pre : list (script V)) (oper : script V) (arg_post opt_post : list (script V))
    (ignore_close : bool) (f : sw_faults V) : sw_res * names V * list (sstep V) :=
  let '(o, cur, k, w1, tr) := run_scripts env temp 0 w v0 (opt_pre ++ arg_pre ++ [oper] ++ arg_post ++ opt_post) in
  match o with
  | OPanic => (SPanic, w1, tr)
  | OErr => let '(w2, tr2) := cleanup env temp k w1 cur f in (SErr, w2, tr ++ tr2)
  | OOk =>
      if close_fails f && negb ignore_close then
        let '(w2, tr2) := cleanup env temp k w1 cur f in (SErr, w2, tr ++ tr2)
      else if rename_fails f then
        let '(w2, tr2) := cleanup env temp k w1 cur f in (SErr, w2, tr ++ tr2)
      else
        let a := env k w1 in
        let b := publish temp target a in
        (SOk, b, tr ++ [(a, b)])
  end.

(* Write, Copy and CopyFs with TempFilePolicyRandom (:58-156, 275-299), alone on the file
   system. [rnd] and [io] drive the creation of the temporary object. *)
Definition no_env {V} : nat -> names V -> names V := fun _ w => w.

Definition steps_of {V} (tr : list (list byte * names V * names V)) : list (sstep V) :=
  map (fun x => (snd (fst x), snd x)) tr.

(* What Create or Mkdir hands on is its directory and the file's Name(); the temporary path
   is put together again from these (:168-169). *)
Definition temp_path (d name : list byte) : list byte := join2 d (base name).

Definition safe_write {V} (d pat : list byte) (rnd : nat -> N)
    (openf : nat -> names V -> list byte -> names V * option or_err) (fresh : V)
    (name : list byte) (opt_pre arg_pre : list (script V)) (oper : script V) (arg_post opt_post : list (script V))
    (ignore_close : bool) (f : sw_faults V) (w : names V) : sw_res * names V * list (sstep V) :=
  let '(res, w1, tr) := open_random no_env rnd openf d pat w in
  match res with
  | Created n =>
      let '(r, w2, tr2) := safe_operation no_env (temp_path d n) (clean name) w1 fresh
                             opt_pre arg_pre oper arg_post opt_post ignore_close f in
      (r, w2, steps_of tr ++ tr2)
  | _ => (SErr, w1, steps_of tr)
  end.

Definition safe_write_random {V} (rnd : nat -> N) (io : nat -> option or_err) (fresh : V) (name : list byte) :=
  safe_write (random_policy_dir name) (policy_pattern name) rnd (open_excl io fresh) fresh name.

(* ---- file contents: bytes, and whether they have reached the disk ---- *)

Definition fileval := (list byte * bool)%type.

(* SyncHook (:34-36). *)
Definition sync_hook (ok : bool) : script fileval :=
  fun v => if ok then ([(fst v, true)], OOk) else ([], OErr).

(* io.CopyBuffer(file, r, buf) (:113-120): the reader delivers [chunks] and then ends in
   io.EOF ([eof]) or an error; [wf i] makes the i-th write stop after some bytes. *)
Fixpoint copy_values (cur : list byte) (chunks : list (list byte)) (wf : nat -> option nat) (i : nat)
    : list (list byte) * bool :=
  match chunks with
  | [] => ([], true)
  | c :: rest =>
      match wf i with
      | Some n => ([cur ++ firstn n c], false)
      | None =>
          let cur := cur ++ c in
          let '(vs, ok) := copy_values cur rest wf (S i) in (cur :: vs, ok)
      end
  end.
Definition copy_script (chunks : list (list byte)) (eof : bool) (wf : nat -> option nat) : script fileval :=
  fun v =>
    let '(vs, ok) := copy_values (fst v) chunks wf 0 in
    (map (fun b => (b, false)) vs, if ok && eof then OOk else OErr).

(* With TempFilePolicyDir (:375-406): the directory is made first; "exists" is fine. *)
Definition make_temp_dir {V} (td : list byte) (io0 : option or_err) (dirv : V) (w : names V) : names V * option or_err :=
  match w td with
  | Some _ => (w, Some EExist)
  | None => match io0 with Some e => (w, Some e) | None => (name_set w td (Some dirv), None) end
  end.

Definition safe_write_dir {V} (td : list byte) (io0 : option or_err) (dirv : V) (rnd : nat -> N) (io : nat -> option or_err)
    (fresh : V) (name : list byte) (opt_pre arg_pre : list (script V)) (oper : script V)
    (arg_post opt_post : list (script V)) (ignore_close : bool) (f : sw_faults V) (w : names V)
    : sw_res * names V * list (sstep V) :=
  let '(w1, e) := make_temp_dir td io0 dirv w in
  match e with
  | Some (EOther _) => (SErr, w1, [(w, w1)])
  | _ =>
      let '(r, w2, tr) := safe_write td dir_pattern rnd (open_excl io fresh) fresh name
                            opt_pre arg_pre oper arg_post opt_post ignore_close f w1 in
      (r, w2, (w, w1) :: tr)
  end.
