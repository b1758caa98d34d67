(* C07: the Content-Range header (stream/httprange/content_range.go). *)
From Verif Require Import Common ContentRange_Model ContentRange_Spec ContentRange_Proofs.
Open Scope Z_scope.

(* Accepted exactly when the value denotes a range inside a known total, or the
   unsatisfied form; the triple returned is the one written. *)
Theorem C07_accepts_exactly_the_grammar :
  forall v s e t,
    parse_content_range v = Some (s, e, t) <->
    (denotes_range v s e t /\ s <= e /\ e < t /\ t <= max_int64) \/
    (denotes_unsatisfied v t /\ s = -1 /\ e = -1 /\ t <= max_int64).
Proof. exact parse_iff. Qed.
Print Assumptions C07_accepts_exactly_the_grammar.

(* Print-then-parse is the identity on every legal triple. *)
Theorem C07_parse_inverts_print :
  forall s e t, 0 <= s <= e -> e < t <= max_int64 ->
    parse_content_range (print_range s e t) = Some (s, e, t).
Proof. exact parse_print. Qed.
Print Assumptions C07_parse_inverts_print.

Example C07_example :
  print_range 0 499 1234 =
    [98;121;116;101;115;32;48;45;52;57;57;47;49;50;51;52]%N /\
  parse_content_range [32;66;121;84;101;115;32;32;48;45;52;57;57;47;49;50;51;52;9]%N = Some (0, 499, 1234) /\
  parse_content_range [98;121;116;101;115;32;42;47;48]%N = Some (-1, -1, 0) /\
  parse_content_range [98;121;116;101;115;32;48;45;52;57;57;47;42]%N = None /\
  parse_content_range [98;121;116;101;115;32;43;48;45;52;47;57]%N = None.
Proof. repeat split; vm_compute; reflexivity. Qed.
