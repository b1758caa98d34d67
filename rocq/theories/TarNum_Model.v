(* Model of the number and sparse-map parsers in tarfs/copied_go_std.go and headers.go. *)
From Verif Require Import Common ContentRange_Model.
Open Scope Z_scope.

(* ---- numbers ---- *)

Definition is_pad (b : byte) : bool := (b =? 32)%N || (b =? 0)%N.
Definition is_octal (b : byte) : bool := (48 <=? b)%N && (b <=? 55)%N.

(* parseString (copied_go_std.go:302-307). *)
Definition parse_string (s : list byte) : list byte := match cut 0%N s with Some (x, _) => x | None => s end.

Definition oct_value (s : list byte) : Z := fold_left (fun a b => a * 8 + (Z.of_N b - 48)) s 0.

(* strconv.ParseUint(s, 8, 64). *)
Definition parse_uint8 (s : list byte) : option Z :=
  match s with
  | [] => None
  | _ => if forallb is_octal s then (if oct_value s <? 2 ^ 64 then Some (oct_value s) else None) else None
  end.

(* parseOctal (:353-369); [None] means p.err is set. *)
Definition parse_octal (b : list byte) : option Z :=
  let b := trim_right is_pad (trim_left is_pad b) in
  match b with
  | [] => Some 0
  | _ => match parse_uint8 (parse_string b) with Some x => Some (wrap64 x) | None => None end
  end.

(* The loop of parseNumeric (:328-338). x stays below 2^64, so the shift loses nothing. *)
Fixpoint b256_loop (inv : N) (first : bool) (x : Z) (b : list byte) : option Z :=
  match b with
  | [] => Some x
  | c :: b =>
      let c := N.lxor c inv in
      let c := if first then N.land c 127 else c in
      if 0 <? Z.shiftr x 56 then None else b256_loop inv false (x * 256 + Z.of_N c) b
  end.

(* parseNumeric (:312-351). *)
Definition parse_numeric (b : list byte) : option Z :=
  match b with
  | b0 :: _ =>
      if negb (N.land b0 128 =? 0)%N then
        let inv := if negb (N.land b0 64 =? 0)%N then 255%N else 0%N in
        match b256_loop inv true 0 b with
        | None => None
        | Some x => if 0 <? Z.shiftr x 63 then None else if (inv =? 255)%N then Some (Z.lnot x) else Some x
        end
      else parse_octal b
  | [] => parse_octal b
  end.

(* ---- sparse maps ---- *)

(* sparseEntry (:31): offset and length. *)
Notation sparse_map := (list (Z * Z)) (only parsing).

(* strconv.ParseInt(s, 10, 64). *)
Definition parse_int (s : list byte) : option Z :=
  match s with
  | 43%N :: t => parse_decimal t
  | 45%N :: t =>
      match t with
      | [] => None
      | _ => if forallb is_digit t then (if - dec_value t <? min_int64 then None else Some (- dec_value t)) else None
      end
  | _ => parse_decimal s
  end.

(* The entry count, refused when negative or when doubling it overflows (:236-239, :263-266). *)
Definition parse_count (s : list byte) : option Z :=
  match parse_int s with
  | None => None
  | Some n => if (n <? 0) || (wrap64 (2 * n) <? n) then None else Some n
  end.

(* The loop of readGNUSparseMap0x1 (:280-288), also used on the tokens of 1x0 (:248-255). *)
Fixpoint parse_pairs (l : list (list byte)) : option sparse_map :=
  match l with
  | a :: b :: l =>
      match parse_int a, parse_int b with
      | Some off, Some len => match parse_pairs l with Some r => Some ((off, len) :: r) | None => None end
      | _, _ => None
      end
  | _ => Some []
  end.

(* strings.Split(s, sep) for one byte. *)
Fixpoint split_on (sep : byte) (s : list byte) : list (list byte) :=
  match s with
  | [] => [[]]
  | b :: s =>
      if (b =? sep)%N then [] :: split_on sep s
      else match split_on sep s with [] => [[b]] | x :: r => (b :: x) :: r end
  end.

(* readGNUSparseMap0x1 (:259-290) on the two records. *)
Definition read_map_0x1 (numblocks map_ : list byte) : option sparse_map :=
  match parse_count numblocks with
  | None => None
  | Some n =>
      let l := match map_ with [] => [] | _ => split_on 44%N map_ end in
      if zlen l =? 2 * n then parse_pairs l else None
  end.

Definition count_nl (s : list byte) : Z := zlen (filter (fun b => (b =? 10)%N) s).

(* feedTokens (:208-221): whole blocks from the stream until the buffer has n newlines.
   Every round consumes a block, so the stream length bounds the rounds. *)
Fixpoint feed (fuel : nat) (n cnt : Z) (buf s : list byte) : option (Z * list byte * list byte) :=
  if n <=? cnt then Some (cnt, buf, s)
  else
    match fuel with
    | O => None
    | S fuel =>
        if zlen s <? 512 then None
        else feed fuel n (cnt + count_nl (zslice s 0 512)) (buf ++ zslice s 0 512) (skipn 512 s)
    end.

(* nextToken (:225-229): the text before the next newline, and what follows. *)
Definition next_token (buf : list byte) : list byte * list byte :=
  match cut 10%N buf with Some (t, r) => (t, r) | None => (buf, []) end.

(* The entry loop of readGNUSparseMap1x0 (:248-255). [k] counts the entries to go; it is
   bounded by the newlines in the buffer. *)
Fixpoint token_pairs (fuel : nat) (k : Z) (buf : list byte) : option sparse_map :=
  if k <=? 0 then Some []
  else
    match fuel with
    | O => None
    | S fuel =>
        let (a, buf) := next_token buf in
        let (b, buf) := next_token buf in
        match parse_int a, parse_int b with
        | Some off, Some len => match token_pairs fuel (k - 1) buf with Some r => Some ((off, len) :: r) | None => None end
        | _, _ => None
        end
    end.

(* readGNUSparseMap1x0 (:199-257). *)
Definition read_map_1x0 (s : list byte) : option sparse_map :=
  match feed (length s) 1 0 [] s with
  | None => None
  | Some (cnt, buf, s) =>
      let (t, buf) := next_token buf in
      match parse_count t with
      | None => None
      | Some n =>
          match feed (length s) (2 * n) (cnt - 1) buf s with
          | None => None
          | Some (_, buf, _) => token_pairs (length buf) n buf
          end
      end
  end.

(* readOldGNUSparseMap (headers.go:185-213). [arr] is the sparse array of a block: entries
   of 24 bytes and a continuation flag. *)
Fixpoint old_entries (n : nat) (arr : list byte) : option sparse_map :=
  match n with
  | O => Some []
  | S n =>
      match arr with
      | [] => Some []
      | b0 :: _ =>
          if (b0 =? 0)%N then Some []
          else
            match parse_numeric (zslice arr 0 12), parse_numeric (zslice arr 12 12) with
            | Some off, Some len => match old_entries n (skipn 24 arr) with Some r => Some ((off, len) :: r) | None => None end
            | _, _ => None
            end
      end
  end.

Definition is_extended (arr : list byte) : bool :=
  match zget arr (24 * (zlen arr / 24)) with Some b => (0 <? b)%N | None => false end.

Fixpoint old_map (fuel : nat) (arr : list byte) (s : list byte) : option sparse_map :=
  match old_entries (length arr / 24) arr with
  | None => None
  | Some es =>
      if is_extended arr then
        match fuel with
        | O => None
        | S fuel =>
            if zlen s <? 512 then None
            else match old_map fuel (zslice s 0 512) (skipn 512 s) with Some r => Some (es ++ r) | None => None end
        end
      else Some es
  end.

Definition read_map_old (blk s : list byte) : option sparse_map := old_map (length s) (zslice blk 386 97) s.
