(* Specification of tar numbers and sparse maps. *)
From Verif Require Import Common ContentRange_Model ContentRange_Spec TarNum_Model.
Open Scope Z_scope.

Definition bytes_ok (b : list byte) : Prop := Forall (fun c => (c < 256)%N) b.

(* Big-endian value. *)
Definition be_value (b : list byte) : Z := fold_left (fun a c => a * 256 + Z.of_N c) b 0.

(* The base-256 field [b]: without its marker bit, a two's complement number. *)
Definition twos_value (b : list byte) : Z :=
  let w := 8 * zlen b in
  let m := be_value b mod 2 ^ (w - 1) in
  if m <? 2 ^ (w - 2) then m else m - 2 ^ (w - 1).

Definition is_base256 (b : list byte) : Prop := exists b0 r, b = b0 :: r /\ (128 <= b0)%N.

(* Padding: spaces and NULs. *)
Definition pad_byte (c : byte) : Prop := c = 32%N \/ c = 0%N.

(* An octal field: padding, digits, then padding or a NUL and anything. *)
Definition octal_field (b : list byte) (n : Z) : Prop :=
  exists pad digits rest, b = pad ++ digits ++ rest /\ Forall pad_byte pad /\
    digits <> [] /\ Forall (fun c => (48 <= c <= 55)%N) digits /\
    (Forall pad_byte rest \/ exists junk, rest = 0%N :: junk) /\ n = written 8 digits.

(* Encoders, as a writer would fill the fields. *)
Fixpoint be_bytes (n : nat) (x : Z) : list byte :=
  match n with O => [] | S n => be_bytes n (x / 256) ++ [Z.to_N (x mod 256)] end.
Definition base256_field (n : nat) (v : Z) : list byte :=
  be_bytes n (v mod 2 ^ (8 * Z.of_nat n - 1) + 2 ^ (8 * Z.of_nat n - 1)).
Fixpoint octal_digits (n : nat) (x : Z) : list byte :=
  match n with O => [] | S n => octal_digits n (x / 8) ++ [Z.to_N (48 + x mod 8)] end.
Definition octal_text (n : nat) (x : Z) : list byte := octal_digits n x ++ [0%N].

(* Sparse maps as text. *)
Definition map_ok (m : list (Z * Z)) : Prop := Forall (fun e => 0 <= fst e <= max_int64 /\ 0 <= snd e <= max_int64) m.
Definition map_numbers (m : list (Z * Z)) : list Z := concat (map (fun e => [fst e; snd e]) m).
Fixpoint join_on (sep : byte) (l : list (list byte)) : list byte :=
  match l with [] => [] | [x] => x | x :: l => x ++ [sep] ++ join_on sep l end.
Definition map_text_0x1 (m : list (Z * Z)) : list byte := join_on 44 (map print_dec (map_numbers m)).
Definition map_text_1x0 (m : list (Z * Z)) : list byte :=
  concat (map (fun n => print_dec n ++ [10%N]) (zlen m :: map_numbers m)).

(* The old GNU map: numbers in 12-byte fields, 4 entries in the header block, 21 in each
   extension block, then a flag saying that another block follows. *)
Definition zeros (n : Z) : list byte := repeat 0%N (Z.to_nat n).
Definition enc_num (x : Z) : list byte := if x <? 8 ^ 11 then octal_text 11 x else base256_field 12 x.
Definition enc_entry (e : Z * Z) : list byte := enc_num (fst e) ++ enc_num (snd e).
Definition enc_array (k : Z) (es : list (Z * Z)) (more : bool) : list byte :=
  concat (map enc_entry es) ++ zeros (24 * (k - zlen es)) ++ [if more then 1%N else 0%N].
Fixpoint enc_extensions (groups : list (list (Z * Z))) : list byte :=
  match groups with
  | [] => []
  | g :: groups => enc_array 21 g (match groups with [] => false | _ => true end) ++ zeros 7 ++ enc_extensions groups
  end.
Definition enc_header (pre : list byte) (first : list (Z * Z)) (groups : list (list (Z * Z))) (post : list byte) : list byte :=
  pre ++ enc_array 4 first (match groups with [] => false | _ => true end) ++ post.

(* A decimal integer as strconv.ParseInt reads it: digits after an optional sign. *)
Definition int_text (s : list byte) (z : Z) : Prop :=
  number s z \/ (exists t, s = 43%N :: t /\ number t z) \/ (exists t n, s = 45%N :: t /\ number t n /\ z = - n).
(* The numbers of a map, written in any way. *)
Definition texts_of (l : list (list byte)) (m : list (Z * Z)) : Prop := Forall2 (fun s z => int_text s z /\ in_int64 z) l (map_numbers m).
Definition lines (l : list (list byte)) : list byte := concat (map (fun s => s ++ [10%N]) l).
