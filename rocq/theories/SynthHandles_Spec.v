From Verif Require Import Common ContentRange_Model PathLex_Model Synth_Model SynthHandles_Model.
Open Scope nat_scope.

(* Handles on node n not closed yet. *)
Definition live_on (n : nat) (h : shandle) : bool := s_live h && Nat.eqb n (s_node h).
Definition live_count (n : nat) (hs : list shandle) : nat := length (filter (live_on n) hs).
(* A node's reference count. *)
Definition ref_of (h : heap) (n : nat) : nat := match nodes h n with Some x => m_ref (meta_of x) | None => 0 end.
