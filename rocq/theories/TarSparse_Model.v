(* Model of tarfs/copied_go_std.go invertSparseEntries and tarfs/reader.go makeReader. *)
From Verif Require Import Common MultiRead_Model TarNum_Model.
Open Scope Z_scope.

(* invertSparseEntries (copied_go_std.go:72-87). dst reuses src's array, but is never
   longer than the part of src already read, so it is a separate list here. *)
Fixpoint invert_loop (pre : Z) (src : list (Z * Z)) (size : Z) : list (Z * Z) :=
  match src with
  | [] => [(pre, size - pre)]
  | (off, len) :: src =>
      if len =? 0 then invert_loop pre src size
      else if 0 <? off - pre then (pre, off - pre) :: invert_loop (off + len) src size
      else invert_loop (off + len) src size
  end.
Definition invert (src : list (Z * Z)) (size : Z) : list (Z * Z) := invert_loop 0 src size.

(* io.NewSectionReader(r, base, n).ReadAt over a file with bytes [arch]. *)
Definition section (arch : list byte) (base n : Z) : segment :=
  Seg (fun _ len off =>
         if (off <? 0) || (n <=? off) then ([], REof)
         else if n - off <? len then (zslice arch (base + off) (n - off), REof)
         else let d := zslice arch (base + off) len in
              (d, if zlen d <? len then REof else RNil)) n.

(* The same over stream.NewByteRepeater(0), which fills every buffer. *)
Definition zero_section (n : Z) : segment :=
  Seg (fun _ len off =>
         if (off <? 0) || (n <=? off) then ([], REof)
         else if n - off <? len then (repeat 0%N (Z.to_nat (n - off)), REof)
         else (repeat 0%N (Z.to_nat len), RNil)) n.

(* The loop of makeReader (reader.go:23-39): [prev] is the end of the previous hole. *)
Fixpoint make_segs (arch : list byte) (body : Z) (holes : list (Z * Z)) (prev cur size : Z) : list segment * Z :=
  match holes with
  | [] => ([], size)
  | (off, len) :: holes =>
      let space := off - prev in
      if space =? 0 then
        let '(segs, size') := make_segs arch body holes (off + len) cur (size + len) in (zero_section len :: segs, size')
      else
        let '(segs, size') := make_segs arch body holes (off + len) (cur + space) (size + space + len) in
        (section arch (body + cur) space :: zero_section len :: segs, size')
  end.

(* makeReader for a sparse file (:20-46). *)
Definition make_reader (arch : list byte) (body : Z) (holes : list (Z * Z)) (hsize : Z) : list segment :=
  let '(segs, size) := make_segs arch body holes 0 0 0 in
  if size <? hsize then segs ++ [zero_section (hsize - size)] else segs.

(* BodyEnd of a sparse section (headers.go:94-103). *)
Definition body_end (header_end hsize : Z) (holes : list (Z * Z)) : Z :=
  header_end + hsize - fold_left (fun a h => a + snd h) holes 0.
