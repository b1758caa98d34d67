(* Specification of temp-file names. *)
From Verif Require Import Common ContentRange_Model PathLex_Model TempName_Model.
Open Scope nat_scope.

Definition uint32 (r : N) : Prop := (r < 4294967296)%N.

Definition digits10 (s : list byte) : Prop := length s = 10 /\ Forall (fun b => (48 <= b <= 57)%N) s.

Definition dot_tmp : list byte := [46; 116; 109; 112]%N.

(* "<something>.<10 digits>.tmp" *)
Definition random_temp_form (b : list byte) : Prop :=
  exists pre ds, pre <> [] /\ digits10 ds /\ b = pre ++ dot :: ds ++ dot_tmp.

(* "<10 digits>.tmp" *)
Definition dir_temp_form (b : list byte) : Prop := exists ds, digits10 ds /\ b = ds ++ dot_tmp.

(* A cleaned path equal to the directory, or below it. *)
Definition at_or_below (d p : list byte) : Prop := p = d \/ exists r, r <> [] /\ p = d ++ sep :: r.

(* The states of a run of attempts: before attempt k others act ([env k]). *)
Inductive chain {V} (env : nat -> (list byte -> option V) -> (list byte -> option V)) :
  nat -> (list byte -> option V) -> list (list byte * (list byte -> option V) * (list byte -> option V)) ->
  (list byte -> option V) -> Prop :=
| chain_nil k w : chain env k w [] w
| chain_cons k w n b tr w' : chain env (S k) b tr w' -> chain env k w ((n, env k w, b) :: tr) w'.

(* An attempt that changed nothing. *)
Definition unchanged {V} (a : list byte * (list byte -> option V) * (list byte -> option V)) : Prop :=
  snd a = snd (fst a).
(* An attempt that kept everything that existed. *)
Definition kept {V} (a : list byte * (list byte -> option V) * (list byte -> option V)) : Prop :=
  forall p v, snd (fst a) p = Some v -> snd a p = Some v.

(* Outcome of OpenFileRandom: a retried attempt changed nothing, and its name existed or
   the system call said so. *)
Definition retried {V} (io : nat -> option or_err) (k : nat) (a : list byte * names V * names V) : Prop :=
  unchanged a /\ (snd (fst a) (fst (fst a)) <> None \/ io k = Some EExist).

Fixpoint all_from {A} (P : nat -> A -> Prop) (k : nat) (l : list A) : Prop :=
  match l with [] => True | x :: l => P k x /\ all_from P (S k) l end.

Definition open_outcome {V} (io : nat -> option or_err) (fresh : V) (k0 : nat) (res : or_res)
    (tr : list (list byte * names V * names V)) : Prop :=
  match res with
  | Created n => exists tr' a, tr = tr' ++ [(n, a, name_set a n (Some fresh))] /\ a n = None /\ all_from (retried io) k0 tr'
  | MaxRetry => k0 + length tr = max_attempts /\ all_from (retried io) k0 tr
  | Failed c => exists tr' n a, tr = tr' ++ [(n, a, a)] /\ io (k0 + length tr') = Some (EOther c) /\ all_from (retried io) k0 tr'
  | BadPattern => tr = []
  | OutOfFuel => False
  end.

