(* Model of tarfs/headers.go: Sections and the search for a sparse map in the raw headers. *)
From Verif Require Import Common ContentRange_Model TarNum_Model TarSparse_Model.
Open Scope Z_scope.

(* A *tar.Header as tar.Reader.Next gives it, as far as the code reads it: Typeflag, Size and
   four PAX records, empty when absent. *)
Record thead := TH { th_flag : byte; th_size : Z; th_major : list byte; th_minor : list byte; th_blocks : list byte; th_map : list byte }.

(* Section (headers.go:28-34). *)
Record sect := Sect { s_head : thead; s_start : Z; s_end : Z; s_body_end : Z; s_holes : option (list (Z * Z)) }.

(* x + (-x)&(blockSize-1) (headers.go:79,158,163): the next block boundary. *)
Definition align (x : Z) : Z := x + Z.land (- x) 511.

(* readGNUSparsePAXHeaders (headers.go:215-237). *)
Definition read_pax (h : thead) (s : list byte) : option (list (Z * Z)) :=
  let zero := bytes_eqb (th_major h) [48%N] && (bytes_eqb (th_minor h) [48%N] || bytes_eqb (th_minor h) [49%N]) in
  let one := bytes_eqb (th_major h) [49%N] && bytes_eqb (th_minor h) [48%N] in
  if zero then read_map_0x1 (th_blocks h) (th_map h)
  else if one then read_map_1x0 s
  else if negb (bytes_eqb (th_major h) []) || negb (bytes_eqb (th_minor h) []) then None
  else if negb (bytes_eqb (th_map h) []) then read_map_0x1 (th_blocks h) (th_map h)
  else None.

(* handleSparseFile (headers.go:169-183): [blk] the raw header block, [s] what follows it. *)
Definition handle_sparse (h : thead) (blk s : list byte) : option (list (Z * Z)) :=
  match (if (th_flag h =? 83)%N then read_map_old blk s else read_pax h s) with
  | Some spd => Some (invert spd (th_size h))
  | None => None
  end.

(* The size field of a raw block, with the error ignored (headers.go:154-155,160-161). *)
Definition raw_size (blk : list byte) : Z := match parse_numeric (zslice blk 124 12) with Some x => x | None => 0 end.
Definition is_extension (flag : byte) : bool := (flag =? 120)%N || (flag =? 103)%N || (flag =? 76)%N || (flag =? 75)%N.
(* The loop of reconstructSparse (headers.go:145-166) over the bytes of the header, from
   [pos]; a seek before the start fails and stays. Errors and "no map" are both nil holes to
   the caller. *)
Fixpoint find_map (fuel : nat) (h : thead) (s : list byte) (pos : Z) : option (list (Z * Z)) :=
  match fuel with
  | O => None
  | S fuel =>
      let blk := zslice s pos 512 in
      if zlen blk <? 512 then None
      else match zget blk 156 with
           | None => None
           | Some flag =>
               if is_extension flag then
                 let next := pos + 512 + align (raw_size blk) in
                 find_map fuel h s (if next <? 0 then pos + 512 else next)
               else handle_sparse h blk (skipn (Z.to_nat (pos + 512)) s)
           end
  end.
(* reconstructSparse (headers.go:136-167). *)
Definition reconstruct (arch : list byte) (h : thead) (start fin : Z) : option (list (Z * Z)) :=
  if (th_flag h =? 103)%N then None
  else let s := zslice arch start (fin - start) in find_map (S (length s)) h s 0.

(* The types Sections gives no body (headers.go:85-89): link, symlink, char, block, dir, fifo,
   cont, xheader, xglobalheader, longname, longlink. *)
Definition no_body (flag : byte) : bool :=
  existsb (N.eqb flag) [49; 50; 51; 52; 53; 54; 55; 120; 103; 76; 75]%N.
(* bodyEnd (headers.go:84-104). *)
Definition end_of_body (h : thead) (fin : Z) (holes : option (list (Z * Z))) : Z :=
  if no_body (th_flag h) then fin
  else match holes with Some hs => body_end fin (th_size h) hs | None => fin + th_size h end.

(* Sections (headers.go:54-112). [reads]: what the calls of Next answer until io.EOF, each
   with the count of bytes read by then. *)
Fixpoint sections_from (arch : list byte) (start : Z) (reads : list (thead * Z)) : list sect :=
  match reads with
  | [] => []
  | (h, fin) :: rest =>
      let holes := reconstruct arch h start fin in
      let e := end_of_body h fin holes in
      Sect h start fin e holes :: sections_from arch (align e) rest
  end.
Definition sections (arch : list byte) (reads : list (thead * Z)) : list sect := sections_from arch 0 reads.

(* The bytes a plain section opens as (reader.go:16-18). *)
Definition plain_bytes (arch : list byte) (s : sect) : list byte := zslice arch (s_end s) (s_body_end s - s_end s).
