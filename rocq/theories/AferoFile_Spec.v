(* What the files of aferofs/synth are meant to do. In-memory files: the abstract file of
   MemBuf_Spec. *)
From Verif Require Import Common Views_Model MemBuf_Model MemBuf_Spec AferoFile_Model.
Open Scope Z_scope.

(* O_WRONLY and O_RDWR are one bit each. *)
Definition access_bits (fl : oflags) : Prop :=
  exists i j, 0 <= i /\ 0 <= j /\ i <> j /\ f_wronly fl = 2 ^ i /\ f_rdwr fl = 2 ^ j.
(* A flag does not ask for both. *)
Definition one_access (fl : oflags) (c : nat * mop) : Prop :=
  match snd c with MOpen flag => Z.land flag (f_wronly fl) = 0 \/ Z.land flag (f_rdwr fl) = 0 | _ => True end.

(* Slices are no longer than an int. *)
Definition len_ok (c : nat * mop) : Prop := match snd c with MWrite p | MWriteAt p _ => zlen p <= max_int64 | _ => True end.

(* ---- metadata ---- *)

(* The last value some call sets. *)
Fixpoint last_set (f : vop -> option Z) (os : list vop) (x : Z) : Z :=
  match os with
  | [] => x
  | o :: os => last_set f os (match f o with Some y => y | None => x end)
  end.
Definition chmods (keep : Z) (o : vop) : option Z := match o with VChmod m => Some (Z.land m keep) | _ => None end.
Definition chtimes (o : vop) : option Z := match o with VChtimes t => if t =? 0 then None else Some t | _ => None end.
Definition resizes (o : vop) : option Z := match o with VWrite _ n => Some n | _ => None end.

(* ---- ranges ---- *)

(* The bytes from [off] on, at most [n]. *)
Definition range_of (d : list byte) (off n : Z) : list byte := firstn (Z.to_nat n) (skipn (Z.to_nat off) d).
(* Offsets and lengths Go's int64 holds. *)
Definition fits (d : list byte) (off n : Z) : Prop := 0 <= off <= max_int64 /\ 0 < n <= max_int64 /\ zlen d <= max_int64.
Definition data_of (r : mres) : list byte := match r with MOk _ x _ => x | MPanic => [] end.
(* A read of [len] bytes gave [x]: the count says so and the error says whether it is short. *)
Definition gave (r : mres) (x : list byte) (len : Z) : Prop :=
  exists e, r = MOk (zlen x) x e /\ (0 < len -> zlen x = len -> e = e_nil) /\ (zlen x < len -> e = e_eof).

(* ---- temporary files ---- *)

(* The oracle picks names not taken. *)
Definition picks_fresh (pick : list nat -> nat) : Prop := forall l, ~ In (pick l) l.
Fixpoint failed_closes (os : list top) (rs : list bool) : nat :=
  match os, rs with
  | TClose :: os, false :: rs => S (failed_closes os rs)
  | _ :: os, _ :: rs => failed_closes os rs
  | _, _ => O
  end.

(* ---- listings ---- *)

Section Pages.
  Context {A : Type}.
  (* A listing is taken when there is none, handed out from the front, dropped by Seek. *)
  Definition page (rest : list A) (count : Z) : list A * dres A :=
    if count <=? 0 then ([], DOk rest false)
    else (skipn (Z.to_nat count) rest, DOk (firstn (Z.to_nat count) rest) (match rest with [] => true | _ => false end)).
  Definition page_step (s : option (list A)) (c : dcall A) : option (list A) * dres A :=
    match c with
    | DReaddir count now =>
        match (match s with Some l => Some l | None => now end) with
        | None => (None, DErr)
        | Some rest => let '(rest, r) := page rest count in (Some rest, r)
        end
    | DSeekTo offset whence =>
        (None, DSeek (((whence =? 0) && (0 <=? offset)) || (((whence =? 1) || (whence =? 2)) && (offset <=? 0))))
    end.
  Fixpoint page_run (s : option (list A)) (cs : list (dcall A)) : option (list A) * list (dres A) :=
    match cs with
    | [] => (s, [])
    | c :: cs => let '(s1, r) := page_step s c in let '(s2, rs) := page_run s1 cs in (s2, r :: rs)
    end.
  Definition page_of (r : dres A) : list A := match r with DOk x _ => x | _ => [] end.
  Definition is_readdir (c : dcall A) : Prop := match c with DReaddir _ _ => True | _ => False end.
End Pages.

(* ---- closing ---- *)

(* The calls before the first Close, and that Close. *)
Fixpoint upto_close (cs : list ccall) : list ccall :=
  match cs with
  | [] => []
  | CClose :: _ => [CClose]
  | c :: cs => c :: upto_close cs
  end.
Definition ccall_eqb (a b : ccall) : bool :=
  match a, b with CClose, CClose => true | CMethod m, CMethod n => Nat.eqb m n | _, _ => false end.
Definition times (c : ccall) (log : list ccall) : nat := length (filter (ccall_eqb c) log).
Definition starting (c : ccall) : cthread := {| ct_call := c; ct_pc := PCheck |}.
Definition cw_start (cs : list ccall) : cworld := {| cw_closed := false; cw_inner := []; cw_threads := map starting cs |}.
(* A goroutine whose call was made on the file. *)
Definition reached (t : cthread) : bool := match ct_pc t with PDone true => true | _ => false end.
