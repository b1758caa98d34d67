(* What C52 counts. *)
From Verif Require Import Common ContentRange_Model PathLex_Model PathLex_Proofs TempName_Model Overlay_Model Masks_Model Masks_Spec Handles_Model.
Open Scope nat_scope.

(* Open handles counted under p; at or below p. *)
Definition opened_as (p : path) (h : handle) : bool := h_open h && path_eqb p (h_key h).
Definition opened_in (p : path) (h : handle) : bool := h_open h && within p (h_key h).
(* An open handle on the file p names now, or on one below p. *)
Definition open_now (p : path) (h : handle) : bool :=
  h_open h && match h_now h with Some q => path_eqb p q | None => false end.
Definition open_now_in (p : path) (h : handle) : bool :=
  h_open h && match h_now h with Some q => within p q | None => false end.
Definition how_many (f : handle -> bool) (hs : list handle) : nat := length (filter f hs).

(* The names of a history have spellings. *)
Definition hnames (e : hevent) : list path :=
  match e with HRead _ p _ | HWrite _ p _ _ _ _ => [p] | HClose _ | HCall _ _ => [] end.
Definition sound_names (es : list hevent) : Prop := Forall (fun e => Forall nameable (hnames e)) es.
Definition renames (e : hevent) : bool := match e with HCall _ (CRename _ _) => true | _ => false end.
