(* Handles of aferofs shared by several goroutines: the closable wrapper around every handle of
   aferofs/synth (aferofs/internal/closable/file.go and its generated methods; synth/fd.go:8-10)
   and the recording wrappers (aferofs/observable.go and their generated methods). What the inner
   file answers comes with the schedule; every access to shared state is one step. *)
From Verif Require Import Common.
Open Scope nat_scope.

(* The methods of afero.File; only Close and Name are treated apart. *)
Inductive meth := MClose | MName | MOther (k : N).
Definition is_close (m : meth) : bool := match m with MClose => true | _ => false end.
Definition is_name (m : meth) : bool := match m with MName => true | _ => false end.

(* A call returns fs.ErrClosed, or what the inner file answered. *)
Inductive result := Refused | Got (a : N).
(* A call is made, enters the inner file, returns. *)
Inductive event := Inv (i : nat) (m : meth) | Reach (i : nat) (m : meth) (a : N) | Ret (i : nat) (m : meth) (r : result).

(* Where a goroutine stands in a call: about to read closed under RLock (file.go:24-29), about to
   set it under Lock (:30-34), about to call the inner file, about to return. *)
Inductive pc := Idle | Check (m : meth) | Mark | Enter (m : meth) | Back (m : meth) (r : result).
Record gor := Gor { g_todo : list meth; g_pc : pc }.
Record world := World { w_closed : bool; w_gs : list gor; w_ev : list event }.

Fixpoint put {A} (l : list A) (i : nat) (x : A) : list A :=
  match l, i with [], _ => [] | _ :: r, O => x :: r | y :: r, S i => y :: put r i x end.

Definition step (w : world) (ia : nat * N) : world :=
  let '(i, a) := ia in
  match nth_error (w_gs w) i with
  | None => w
  | Some t =>
      let at_ closed p ev := World closed (put (w_gs w) i (Gor (g_todo t) p)) (w_ev w ++ ev) in
      match g_pc t with
      | Idle => match g_todo t with
                | [] => w
                | m :: rest => World (w_closed w) (put (w_gs w) i (Gor rest (Check m))) (w_ev w ++ [Inv i m])
                end
      | Check m =>
          if w_closed w then
            if is_name m then at_ (w_closed w) (Enter m) []          (* Name drops the error *)
            else at_ (w_closed w) (Back m Refused) []
          else if is_close m then at_ (w_closed w) Mark []
          else at_ (w_closed w) (Enter m) []
      | Mark => at_ true (Enter MClose) []
      | Enter m => at_ (w_closed w) (Back m (Got a)) [Reach i m a]
      | Back m r => at_ (w_closed w) Idle [Ret i m r]
      end
  end.
Definition run (w : world) (sched : list (nat * N)) : world := fold_left step sched w.
(* NewFile (file.go:19-21), and what the goroutines will call. *)
Definition start (progs : list (list meth)) : world := World false (map (fun p => Gor p Idle) progs) [].

(* ---- observable.go ---- *)

(* An entry (observable.go:12-18) without its time: on the file system or a file, before or after,
   the method, the arguments or results. *)
Record entry := { n_fsys : bool; n_before : bool; n_method : N; n_args : N }.
(* A call on the file system or one of its files. *)
Record ocall := { c_fsys : bool; c_method : N; c_args : N }.
(* Where a goroutine stands: about to record the call, to make it, to record its results (each
   record under mu, observable.go:26-36), to return. *)
Inductive opc := OIdle | ONote (c : ocall) | OCall (c : ocall) | OAfter (c : ocall) (a : N) | OBack (c : ocall) (a : N).
Inductive oevent := OInv (i : nat) (c : ocall) | ORec (i : nat) (e : entry) | OReach (i : nat) (c : ocall) (a : N) | ORet (i : nat) (c : ocall) (a : N).
Record ogor := OGor { o_todo : list ocall; o_pc : opc }.
Record oworld := OWorld { o_hist : list entry; o_gs : list ogor; o_ev : list oevent }.

Definition record_op (h : list entry) (isfsys isbefore : bool) (method args : N) : list entry :=
  h ++ [{| n_fsys := isfsys; n_before := isbefore; n_method := method; n_args := args |}].

Definition ostep (w : oworld) (ia : nat * N) : oworld :=
  let '(i, a) := ia in
  match nth_error (o_gs w) i with
  | None => w
  | Some t =>
      let at_ h p ev := OWorld h (put (o_gs w) i (OGor (o_todo t) p)) (o_ev w ++ ev) in
      match o_pc t with
      | OIdle => match o_todo t with
                 | [] => w
                 | c :: rest => OWorld (o_hist w) (put (o_gs w) i (OGor rest (ONote c))) (o_ev w ++ [OInv i c])
                 end
      | ONote c =>
          at_ (record_op (o_hist w) (c_fsys c) true (c_method c) (c_args c)) (OCall c)
            [ORec i {| n_fsys := c_fsys c; n_before := true; n_method := c_method c; n_args := c_args c |}]
      | OCall c => at_ (o_hist w) (OAfter c a) [OReach i c a]
      | OAfter c a =>
          at_ (record_op (o_hist w) (c_fsys c) false (c_method c) a) (OBack c a)
            [ORec i {| n_fsys := c_fsys c; n_before := false; n_method := c_method c; n_args := a |}]
      | OBack c a => at_ (o_hist w) OIdle [ORet i c a]
      end
  end.
Definition orun (w : oworld) (sched : list (nat * N)) : oworld := fold_left ostep sched w.
Definition ostart (progs : list (list ocall)) : oworld := OWorld [] (map (fun p => OGor p OIdle) progs) [].
