(* Property theorems for C100: the error helpers of testhelper. *)
From Verif Require Import Common TestErr_Model TestErr_Spec TestErr_Proofs.
Open Scope nat_scope.

(* ErrIs fails the test, once, unless both errors are nil or the target, or something whose Is
   method stands for it, is somewhere in the error, however deep and behind whatever joins. *)
Theorem C100_err_is :
  forall e t,
  o_fatal (err_is e t) <= 1 /\
  (o_fatal (err_is e t) = 0 <-> (e = None /\ t = None) \/ exists e' t' p x, e = Some e' /\ t = Some t' /\ inside e' p x /\ stands_for t' x).
Proof. exact err_is_spec. Qed.
Print Assumptions C100_err_is.

(* NilErr is shorthand for ErrIs with nil, as documented, and passes exactly on nil. *)
Theorem C100_nil_err :
  forall e, nil_err e = err_is e None /\ (o_fatal (nil_err e) = 0 <-> e = None).
Proof. exact nil_err_spec. Qed.
Print Assumptions C100_nil_err.

(* ErrAsType returns the first error of the type, from the top and left to right, without
   failing, or fails once because there is none. *)
Theorem C100_err_as_type :
  forall k e,
  match o_value (err_as_type k e) with
  | Some x => o_fatal (err_as_type k e) = 0 /\ exists e', e = Some e' /\ first_of k e' x
  | None => o_fatal (err_as_type k e) = 1 /\ forall e' p x, e = Some e' -> inside e' p x -> ~ of_kind k x
  end.
Proof. exact err_as_spec. Qed.
Print Assumptions C100_err_as_type.

(* ErrAsTypeAnd gives the callback the value ErrAsType returns, once, and nothing where there
   is none; it fails at most once, also with a T that carries on, and passes exactly if the
   callback accepts that value. *)
Theorem C100_err_as_type_and :
  forall k fn e,
  let o := err_as_type_and k fn e in
  o_asked o = match o_value (err_as_type k e) with Some x => [x] | None => [] end /\
  o_fatal o <= 1 /\
  (o_fatal o = 0 <-> exists e' x, e = Some e' /\ first_of k e' x /\ fn x = true).
Proof. exact err_as_and_spec. Qed.
Print Assumptions C100_err_as_type_and.

(* A join of a wrapped error and two of the same type, the second of which would be accepted;
   the callback is asked of the first only. *)
Example C100_met :
  let leaf := G 1 5 [9] [] in
  let e := Some (G 0 2 [] [G 3 4 [] [leaf]; G 6 5 [] []; G 8 7 [] []]) in
  o_fatal (err_is e (Some (G 9 0 [] []))) = 0 /\ o_fatal (err_is e (Some (G 8 7 [] []))) = 0 /\
  o_fatal (err_is e (Some (G 5 0 [] []))) = 1 /\ o_fatal (err_is e None) = 1 /\ o_fatal (err_is None None) = 0 /\
  o_value (err_as_type 5 e) = Some leaf /\ o_value (err_as_type 6 e) = None /\
  err_as_type_and 5 (fun x => Nat.eqb (g_id x) 6) e = Out 1 None [leaf] /\
  err_as_type_and 5 (fun x => Nat.eqb (g_id x) 1) e = Out 0 None [leaf].
Proof. repeat split. Qed.
