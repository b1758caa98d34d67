(* What goroutines taking locks can do, and when they hang or race. *)
From Verif Require Import Common Locks_Model.
Open Scope nat_scope.

Definition mode_eq (a b : mode) : {a = b} + {a <> b}. Proof. decide equality. Defined.
Definition lock_eq (a b : lock) : {a = b} + {a <> b}. Proof. decide equality; apply Nat.eq_dec. Defined.
Definition hold_eq (a b : mode * lock) : {a = b} + {a <> b}.
Proof. decide equality; [apply lock_eq|apply mode_eq]. Defined.

(* A goroutine: what it has left to do, the locks it holds, and whether it has announced that
   it waits at a Lock. *)
Record thread := { rest : list act; held : list (mode * lock); asked : bool }.
Definition start (t : list act) : thread := {| rest := t; held := []; asked := false |}.

Definition holds (l : lock) (t : thread) : bool := existsb (fun p => if lock_eq (snd p) l then true else false) (held t).
Definition holds_ex (l : lock) (t : thread) : bool := if in_dec hold_eq (Ex, l) (held t) then true else false.
Definition waits (l : lock) (t : thread) : bool :=
  asked t && match rest t with Take Ex l' :: _ => if lock_eq l' l then true else false | _ => false end.

(* sync.RWMutex: Lock waits until nobody holds it; RLock waits while a writer holds it or waits
   for it. sync.Mutex is the same with Lock alone. *)
Definition free (m : mode) (l : lock) (ts : list thread) : bool :=
  match m with
  | Ex => forallb (fun t => negb (holds l t)) ts
  | Sh => forallb (fun t => negb (holds_ex l t) && negb (waits l t)) ts
  end.

Fixpoint put_at {A} (l : list A) (i : nat) (x : A) : list A :=
  match l, i with
  | [], _ => []
  | _ :: r, O => x :: r
  | y :: r, S i => y :: put_at r i x
  end.

Fixpoint drop_one (p : mode * lock) (l : list (mode * lock)) : list (mode * lock) :=
  match l with [] => [] | q :: r => if hold_eq q p then r else q :: drop_one p r end.

(* One step of goroutine i; None when it cannot move. *)
Definition step (i : nat) (ts : list thread) : option (list thread) :=
  match nth_error ts i with
  | None => None
  | Some t =>
      match rest t with
      | [] => None
      | Take m l :: r =>
          match m, asked t with
          | Ex, false => Some (put_at ts i {| rest := rest t; held := held t; asked := true |})
          | _, _ =>
              if free m l ts then Some (put_at ts i {| rest := r; held := (m, l) :: held t; asked := false |})
              else None
          end
      | Leave m l :: r =>
          if in_dec hold_eq (m, l) (held t)
          then Some (put_at ts i {| rest := r; held := drop_one (m, l) (held t); asked := false |})
          else None
      | _ :: r => Some (put_at ts i {| rest := r; held := held t; asked := false |})
      end
  end.

(* A schedule: which goroutine moves next. *)
Fixpoint run (is : list nat) (ts : list thread) : option (list thread) :=
  match is with
  | [] => Some ts
  | i :: is => match step i ts with Some ts' => run is ts' | None => None end
  end.

Definition finished (ts : list thread) : Prop := forall t, In t ts -> rest t = [].
Definition stuck (ts : list thread) : Prop := forall i, step i ts = None.

(* Every schedule ends within a bound known in advance, and where it can go no further every
   goroutine has done all it had to do and holds nothing. *)
Definition always_returns (ts : list thread) : Prop :=
  (exists n, forall is ts', run is ts = Some ts' -> length is <= n) /\
  (forall is ts', run is ts = Some ts' -> stuck ts' -> finished ts' /\ forall t, In t ts' -> held t = []).

Definition hangs (ts : list thread) : Prop :=
  exists is ts', run is ts = Some ts' /\ stuck ts' /\ ~ finished ts'.

(* Two goroutines about to touch the same thing, one of them writing. *)
Definition about (t : thread) : option (bool * datum) :=
  match rest t with Get d :: _ => Some (false, d) | Put d :: _ => Some (true, d) | _ => None end.
Definition racing (ts : list thread) : Prop :=
  exists i j t u d w w',
    i <> j /\ nth_error ts i = Some t /\ nth_error ts j = Some u /\
    about t = Some (w, d) /\ about u = Some (w', d) /\ w || w' = true.
Definition race_free (ts : list thread) : Prop :=
  forall is ts', run is ts = Some ts' -> ~ racing ts'.
Definition races (ts : list thread) : Prop :=
  exists is ts', run is ts = Some ts' /\ racing ts'.

(* ---- who stands on whom ---- *)

(* sh f and oh o: how high a synthetic file system or an overlay stands; what it is made of
   stands lower. *)
Section Heights.
Variables sh oh : nat -> nat.

(* What a view stands on is below n. *)
Fixpoint view_under (n : nat) (v : view) : Prop :=
  match v with
  | VMem _ _ => True
  | VBytes _ => True
  | VFile f _ v => sh f < n /\ view_under (sh f) v
  | VRange _ v => view_under n v
  end.
Definition node_under (n : nat) (d : node) : Prop := match d with NFile v => view_under n v | _ => True end.

Definition all_of {A} (P : A -> Prop) : list A -> Prop :=
  fix go l := match l with [] => True | x :: r => P x /\ go r end.

(* A call made well: on file systems that stand below n, its views, callbacks, sources and
   layers below those, and no truncation at opening that fails. *)
Fixpoint call_ok (n : nat) (c : call) : Prop :=
  match c with
  | SStat f d => sh f < n /\ node_under (sh f) d
  | SLook f => sh f < n
  | SOpen f OFail => sh f < n
  | SOpen f ODir => sh f < n
  | SOpen f (OFile _ v tr) => sh f < n /\ view_under (sh f) v /\ tr <> Some false
  | SChange f => sh f < n
  | SDrop f vs => sh f < n /\ all_of (view_under (sh f)) vs
  | SAddFile f v old cb _ => sh f < n /\ view_under (sh f) v /\ node_under (sh f) old /\ all_of (call_ok (sh f)) cb
  | SAddFS f src => sh f < n /\ all_of (call_ok (sh f)) src
  | FClose f _ v => sh f < n /\ view_under (sh f) v
  | FRead f _ v => sh f < n /\ view_under (sh f) v
  | FReadAt f _ v => sh f < n /\ view_under (sh f) v
  | FSeek f _ v _ => sh f < n /\ view_under (sh f) v
  | FWrite f _ v _ _ => sh f < n /\ view_under (sh f) v
  | FWriteAt f _ v => sh f < n /\ view_under (sh f) v
  | FSync f _ => sh f < n
  | FStat f v => sh f < n /\ view_under (sh f) v
  | DStat f => sh f < n
  | DClose f _ => sh f < n
  | DSeek f _ _ => sh f < n
  | DRead f _ _ => sh f < n
  | OLook o ls => oh o < n /\ all_of (call_ok (oh o)) ls
  | OOpen o ls => oh o < n /\ all_of (call_ok (oh o)) ls
  | OCreate o ls ls' _ => oh o < n /\ all_of (call_ok (oh o)) ls /\ all_of (call_ok (oh o)) ls'
  | OChange o _ ls => oh o < n /\ all_of (call_ok (oh o)) ls
  | OClose o ls => oh o < n /\ all_of (call_ok (oh o)) ls
  | TIo ls => all_of (call_ok n) ls
  | TClose o _ _ ls => oh o < n /\ all_of (call_ok (oh o)) ls
  | MLook o _ ls => oh o < n /\ all_of (call_ok (oh o)) ls
  | MClose o _ _ _ ls => oh o < n /\ all_of (call_ok (oh o)) ls
  | MRead o _ _ ls infos => oh o < n /\ all_of (call_ok (oh o)) ls /\ all_of (call_ok (oh o)) infos
  | MChange o _ l1 l2 l3 =>
      oh o < n /\ all_of (call_ok (oh o)) l1 /\ all_of (call_ok (oh o)) l2 /\ all_of (call_ok (oh o)) l3
  | XClose _ => True
  | XLook _ => True
  | XRead _ => True
  | XDir _ => True
  end.
End Heights.

(* No entries taken out of a synthetic directory, and no shared position of a reader without a
   lock: neither in the calls nor in anything below them. *)
Fixpoint view_locked (v : view) : bool :=
  match v with VMem _ _ => true | VBytes _ => false | VFile _ _ v => view_locked v | VRange _ _ => false end.
Fixpoint call_locked (c : call) : bool :=
  match c with
  | FRead _ _ v => view_locked v
  | FSeek _ _ v _ => view_locked v
  | DRead _ _ k => Nat.eqb k 0
  | SAddFile _ _ _ cb _ => forallb call_locked cb
  | SAddFS _ src => forallb call_locked src
  | OLook _ ls => forallb call_locked ls
  | OOpen _ ls => forallb call_locked ls
  | OCreate _ ls ls' _ => forallb call_locked ls && forallb call_locked ls'
  | OChange _ _ ls => forallb call_locked ls
  | OClose _ ls => forallb call_locked ls
  | TIo ls => forallb call_locked ls
  | TClose _ _ _ ls => forallb call_locked ls
  | MLook _ _ ls => forallb call_locked ls
  | MClose _ _ _ _ ls => forallb call_locked ls
  | MRead _ _ _ ls infos => forallb call_locked ls && forallb call_locked infos
  | MChange _ _ l1 l2 l3 => forallb call_locked l1 && forallb call_locked l2 && forallb call_locked l3
  | _ => true
  end.

(* Goroutines, each with its calls. *)
Definition goroutines (css : list (list ((nat -> nat -> bool) * call))) : list thread :=
  map (fun cs => start (program cs)) css.
