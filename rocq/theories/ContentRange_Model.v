(* Model of stream/httprange/content_range.go. Strings are byte lists. *)
From Verif Require Import Common.
Open Scope Z_scope.

(* ASCII white space, as strings.TrimSpace strips it. Simplification: TrimSpace also
   strips the non-ASCII white space code points; theorems are about ASCII values. *)
Definition is_ws (b : byte) : bool :=
  (b =? 9)%N || (b =? 10)%N || (b =? 11)%N || (b =? 12)%N || (b =? 13)%N || (b =? 32)%N.

Fixpoint trim_left (p : byte -> bool) (s : list byte) : list byte :=
  match s with
  | [] => []
  | b :: r => if p b then trim_left p r else s
  end.

Definition trim_right (p : byte -> bool) (s : list byte) : list byte := rev (trim_left p (rev s)).

Definition trim_space (s : list byte) : list byte := trim_right is_ws (trim_left is_ws s).

(* strings.Cut(s, sep) for a one-byte separator. *)
Fixpoint cut (sep : byte) (s : list byte) : option (list byte * list byte) :=
  match s with
  | [] => None
  | b :: r =>
      if (b =? sep)%N then Some ([], r)
      else match cut sep r with None => None | Some (x, y) => Some (b :: x, y) end
  end.

(* ASCII lower case. strings.EqualFold(unit, "bytes"): for ASCII input this is equality
   after lower-casing (the only non-ASCII fold, U+017F for s, is excluded with ASCII). *)
Definition lower (b : byte) : byte := if (65 <=? b)%N && (b <=? 90)%N then (b + 32)%N else b.
Definition s_bytes : list byte := [98; 121; 116; 101; 115]%N.   (* "bytes" *)

Fixpoint bytes_eqb (a b : list byte) : bool :=
  match a, b with
  | [], [] => true
  | x :: a', y :: b' => (x =? y)%N && bytes_eqb a' b'
  | _, _ => false
  end.

Definition equal_fold_bytes (unit_ : list byte) : bool := bytes_eqb (map lower unit_) s_bytes.

Definition is_digit (b : byte) : bool := (48 <=? b)%N && (b <=? 57)%N.

(* strconv.ParseInt(s, 10, 64) on a string of digits: its value, error above MaxInt64. *)
Definition dec_value (s : list byte) : Z :=
  fold_left (fun a b => a * 10 + (Z.of_N b - 48)) s 0.

(* parseDecimal (content_range.go:62-72). *)
Definition parse_decimal (s : list byte) : option Z :=
  match s with
  | [] => None
  | _ =>
      if forallb is_digit s then
        (if dec_value s <=? max_int64 then Some (dec_value s) else None)
      else None
  end.

(* parseContentRange (:19-58). *)
Definition parse_content_range (v : list byte) : option (Z * Z * Z) :=
  match cut 32%N (trim_space v) with
  | None => None
  | Some (unit_, spec) =>
      if negb (equal_fold_bytes unit_) then None
      else
        match cut 47%N (trim_left (fun b => (b =? 32)%N) spec) with
        | None => None
        | Some (rangeSpec, totalSpec) =>
            match parse_decimal totalSpec with
            | None => None
            | Some total =>
                if bytes_eqb rangeSpec [42]%N then Some (-1, -1, total)
                else
                  match cut 45%N rangeSpec with
                  | None => None
                  | Some (firstSpec, lastSpec) =>
                      match parse_decimal firstSpec with
                      | None => None
                      | Some start =>
                          match parse_decimal lastSpec with
                          | None => None
                          | Some end_ =>
                              if (end_ <? start) || (total <=? end_) then None
                              else Some (start, end_, total)
                          end
                      end
                  end
            end
        end
  end.
