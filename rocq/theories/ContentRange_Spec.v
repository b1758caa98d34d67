(* The Content-Range grammar (RFC 9110, 14.4) as accepted by httprange. *)
From Verif Require Import Common ContentRange_Model.
Open Scope Z_scope.

(* The value of digits in base [k], least significant first, and as written. *)
Fixpoint low_first (k : Z) (r : list byte) : Z := match r with [] => 0 | b :: r => (Z.of_N b - 48) + k * low_first k r end.
Definition written (k : Z) (s : list byte) : Z := low_first k (rev s).

(* A non-empty digit string denoting [n]. *)
Definition number (s : list byte) (n : Z) : Prop :=
  s <> [] /\ Forall (fun b => (48 <= b <= 57)%N) s /\ written 10 s = n.

(* optional white space / spaces only *)
Definition blank (b : byte) : Prop := In b [9; 10; 11; 12; 13; 32]%N.
Definition ws (s : list byte) : Prop := Forall blank s.
Definition spaces (s : list byte) : Prop := Forall (fun b => b = 32%N) s.

(* "bytes", and in any letter case *)
Definition the_unit : list byte := [98; 121; 116; 101; 115]%N.
Definition bytes_unit (u : list byte) : Prop :=
  Forall2 (fun b l => b = l \/ (b + 32)%N = l) u the_unit.

(* v denotes the range start..end_ of total: OWS bytes SP *SP first "-" last "/" length OWS *)
Definition denotes_range (v : list byte) (start end_ total : Z) : Prop :=
  exists w1 u sp f l t w2,
    v = w1 ++ u ++ [32]%N ++ sp ++ f ++ [45]%N ++ l ++ [47]%N ++ t ++ w2 /\
    ws w1 /\ ws w2 /\ spaces sp /\ bytes_unit u /\
    number f start /\ number l end_ /\ number t total.

(* the unsatisfied form: OWS bytes SP *SP "*" "/" length OWS *)
Definition denotes_unsatisfied (v : list byte) (total : Z) : Prop :=
  exists w1 u sp t w2,
    v = w1 ++ u ++ [32]%N ++ sp ++ [42]%N ++ [47]%N ++ t ++ w2 /\
    ws w1 /\ ws w2 /\ spaces sp /\ bytes_unit u /\ number t total.

(* Canonical decimal rendering, as a server would print the numbers. *)
Fixpoint digits_fuel (fuel : nat) (n : Z) (acc : list byte) : list byte :=
  match fuel with
  | O => acc
  | S fuel' =>
      let acc' := Z.to_N (48 + n mod 10) :: acc in
      if n <? 10 then acc' else digits_fuel fuel' (n / 10) acc'
  end.
Definition print_dec (n : Z) : list byte := digits_fuel 20 n [].
Definition print_range (s e t : Z) : list byte :=
  the_unit ++ [32]%N ++ print_dec s ++ [45]%N ++ print_dec e ++ [47]%N ++ print_dec t.
