(* Model of fsutil/truncate_utf8.go. *)
From Verif Require Import Common.
Open Scope Z_scope.

Definition between (lo hi b : N) : bool := ((lo <=? b) && (b <=? hi))%N.
Definition cont_byte (b : N) : bool := between 128 191 b.

(* The table "first" of unicode/utf8: size of the sequence a lead byte starts and the range
   its second byte must lie in; None for bytes that start nothing. *)
Definition lead (b : N) : option (nat * (N * N)) :=
  if (b <? 128)%N then Some (1%nat, (0, 0)%N)
  else if between 194 223 b then Some (2%nat, (128, 191)%N)
  else if (b =? 224)%N then Some (3%nat, (160, 191)%N)
  else if between 225 236 b then Some (3%nat, (128, 191)%N)
  else if (b =? 237)%N then Some (3%nat, (128, 159)%N)
  else if between 238 239 b then Some (3%nat, (128, 191)%N)
  else if (b =? 240)%N then Some (4%nat, (144, 191)%N)
  else if between 241 243 b then Some (4%nat, (128, 191)%N)
  else if (b =? 244)%N then Some (4%nat, (128, 143)%N)
  else None.

(* The size DecodeRuneInString returns: 0 for "", 1 for an invalid sequence. *)
Definition decode_size (p : list byte) : nat :=
  match p with
  | [] => 0
  | b0 :: r =>
      match lead b0 with
      | None => 1
      | Some (sz, (lo, hi)) =>
          match sz, r with
          | 2%nat, b1 :: _ => if between lo hi b1 then 2 else 1
          | 3%nat, b1 :: b2 :: _ => if between lo hi b1 && cont_byte b2 then 3 else 1
          | 4%nat, b1 :: b2 :: b3 :: _ => if between lo hi b1 && cont_byte b2 && cont_byte b3 then 4 else 1
          | _, _ => 1
          end
      end
  end%nat.

(* The loop (truncate_utf8.go:18-28, also safe_write.go:262-270); None: out of fuel. *)
Fixpoint trunc_loop (fuel : nat) (part : list byte) (off : nat) (maxb : Z) : option nat :=
  match part with
  | [] => Some off
  | _ =>
      match fuel with
      | O => None
      | S fuel =>
          let n := decode_size part in
          if maxb <? Z.of_nat (off + n) then Some off
          else trunc_loop fuel (skipn n part) (off + n) maxb
      end
  end.

(* TruncateUTF8 (truncate_utf8.go:9-30). *)
Definition truncate_utf8 (s : list byte) (maxb : Z) : option (list byte) :=
  if maxb <=? 0 then Some []
  else if zlen s <=? maxb then Some s
  else option_map (fun off => firstn off s) (trunc_loop (length s) s 0 maxb).
