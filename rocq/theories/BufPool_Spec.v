(* Specification of pooled buffers: fit for use and nobody else's. *)
From Verif Require Import Common BufPool_Model.
Open Scope Z_scope.

Definition fit (k : kind) (it : item) : Prop :=
  match k with
  | KBytes => i_len it = 65536 /\ i_cap it = 65536
  | KBuf => i_len it = 0 /\ i_cap it <= 65536
  end.

(* No two of these pointers are the same or share an array. *)
Definition apart (st : pool) (l : list nat) : Prop :=
  NoDup l /\ forall p q, In p l -> In q l -> i_arr (p_item st p) = i_arr (p_item st q) -> p = q.
