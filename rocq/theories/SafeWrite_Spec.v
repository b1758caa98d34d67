(* Specification of safe writes. *)
From Verif Require Import Common ContentRange_Model PathLex_Model TempName_Model SafeWrite_Model.
Open Scope nat_scope.

(* What the hooks and the operation produce when they all succeed. *)
Fixpoint produced {V} (v : V) (l : list (script V)) : option V :=
  match l with
  | [] => Some v
  | s :: l => match snd (s v) with OOk => produced (last (fst (s v)) v) l | _ => None end
  end.

(* A step that changes nothing but the temporary name. *)
Definition only_temp {V} (temp : list byte) (s : sstep V) : Prop :=
  forall p, p <> temp -> snd s p = fst s p.

(* All states a run passes through. *)
Definition visited {V} (tr : list (sstep V)) : list (names V) := flat_map (fun s => [fst s; snd s]) tr.

(* A state reached from [w] in which the target is as before, and so is all else but temp. *)
Definition before_publish {V} (w : names V) (temp : list byte) (s : names V) : Prop :=
  forall p, p <> temp -> s p = w p.
(* ... or the target holds the new value and the temporary name is gone. *)
Definition after_publish {V} (w : names V) (temp target : list byte) (new : V) (s : names V) : Prop :=
  s target = Some new /\ s temp = None /\ forall p, p <> temp -> p <> target -> s p = w p.

(* What a power loss may make of a state: contents that never reached the disk are lost. *)
Definition power_loss (w w' : names fileval) : Prop :=
  forall p, match w p with
            | None => w' p = None
            | Some (c, true) => w' p = Some (c, true)
            | Some (c, false) => exists c', w' p = Some (c', true)
            end.

(* The steps follow one another; before the k-th, others act. *)
Inductive schain {V} (env : nat -> names V -> names V) : nat -> names V -> list (sstep V) -> names V -> Prop :=
| sc_nil k w : schain env k w [] w
| sc_cons k w b tr w' : schain env (S k) b tr w' -> schain env k w ((env k w, b) :: tr) w'.

(* How a run of safe_operation must look, step by step. *)
Definition run_shape {V} (temp target : list byte) (v0 : V) (scripts : list (script V)) (res : sw_res)
    (w' : names V) (tr : list (sstep V)) : Prop :=
  match res with
  | SOk => exists tr' a new, tr = tr' ++ [(a, publish temp target a)] /\ Forall (only_temp temp) tr' /\
             produced v0 scripts = Some new /\ a temp = Some new
  | SErr => Forall (only_temp temp) tr
  | SPanic => Forall (only_temp temp) tr /\ produced v0 scripts = None
  end.
