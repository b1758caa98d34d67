(* Vocabulary shared by all areas: bytes, int64, slices of byte lists. *)
From Coq Require Export List Arith ZArith NArith Lia Bool.
From Coq Require Export ZifyBool ZifyNat ZifyN.
Export ListNotations.

(* A Go byte. Values are kept below 256 only where a property needs it. *)
Notation byte := N (only parsing).

(* Go's int64 range and the wrap of two's complement addition. *)
Definition max_int64 : Z := 9223372036854775807%Z.
Definition min_int64 : Z := (-9223372036854775808)%Z.
Definition wrap64 (z : Z) : Z :=
  ((z + 9223372036854775808) mod 18446744073709551616 - 9223372036854775808)%Z.
Definition in_int64 (z : Z) : Prop := (min_int64 <= z <= max_int64)%Z.

(* len(p) as an int64. *)
Definition zlen {A} (l : list A) : Z := Z.of_nat (length l).

(* [zslice l off n]: the (up to) n elements of l starting at off. *)
Definition zslice {A} (l : list A) (off n : Z) : list A :=
  firstn (Z.to_nat n) (skipn (Z.to_nat off) l).

(* Element at an offset, [None] outside. *)
Definition zget {A} (l : list A) (i : Z) : option A :=
  if (i <? 0)%Z then None else nth_error l (Z.to_nat i).

(* [v] is an initial part of [w]. *)
Definition prefix_of {A} (v w : list A) : Prop := exists rest, w = v ++ rest.
