(* Specifications for cancellable readers and aggregate Close. *)
From Verif Require Import Common MultiRead_Model StreamMisc_Model.
Open Scope nat_scope.

(* A context: once cancelled it stays cancelled with the same error. *)
Definition ctx_monotone (w : cworld) : Prop :=
  forall t t' k, (t <= t')%nat -> cw_ctx w t = Some k -> cw_ctx w t' = Some k.

(* What a user may rely on over a whole history of reads: up to some point every
   result is what the source itself returned, each with a nil error; then one result
   carries an error (the source's own, or the context's with no data), and every
   result after it is the same error with no data and no call to the source. *)
Inductive canc_history (w : cworld) : list Z -> list (list byte * option cerr) -> nat -> Prop :=
| CHNil : canc_history w [] [] 0
| CHData l t data ls xs calls :
    cw_read w t l = (data, RNil) -> canc_history w ls xs calls ->
    canc_history w (l :: ls) ((data, None) :: xs) (S calls)
| CHSrcErr l t data e ce ls xs :
    cw_read w t l = (data, e) -> of_rerr e = Some ce ->
    Forall2 (fun _ x => x = ([], Some ce)) ls xs ->
    canc_history w (l :: ls) ((data, Some ce) :: xs) 1
| CHCancel l t k ls xs :
    cw_ctx w t = Some k ->
    Forall2 (fun _ x => x = ([], Some (CCtx k))) ls xs ->
    canc_history w (l :: ls) (([], Some (CCtx k)) :: xs) 0.

(* Closing all members in order, each once. *)
Fixpoint closer_indexes (i : N) (members : list (option (option gerr))) : list N :=
  match members with
  | [] => []
  | None :: r => closer_indexes (N.succ i) r
  | Some _ :: r => i :: closer_indexes (N.succ i) r
  end.

Definition member_fails (m : option (option gerr)) : Prop :=
  match m with Some (Some _) => True | _ => False end.

Definition member_is (code : N) (m : option (option gerr)) : bool :=
  match m with Some (Some e) => err_is e code | _ => false end.
