(* Specification of UTF-8 truncation. *)
From Verif Require Import Common Utf8_Model.
Open Scope Z_scope.

(* The offsets at which a decoder reading [s] from the start stands. *)
Inductive boundary (s : list byte) : nat -> Prop :=
| b_start : boundary s 0
| b_next k : boundary s k -> (k < length s)%nat -> boundary s (k + decode_size (skipn k s)).

(* Unicode scalar values and their encoding (the table of RFC 3629). *)
Definition scalar (c : N) : Prop := (c < 55296 \/ 57344 <= c < 1114112)%N.

Definition encode (c : N) : list byte :=
  if (c <? 128)%N then [c]
  else if (c <? 2048)%N then [192 + c / 64; 128 + c mod 64]%N
  else if (c <? 65536)%N then [224 + c / 4096; 128 + c / 64 mod 64; 128 + c mod 64]%N
  else [240 + c / 262144; 128 + c / 4096 mod 64; 128 + c / 64 mod 64; 128 + c mod 64]%N.

Definition encode_all (cs : list N) : list byte := concat (map encode cs).
