(* Tar archives as they are written, and what archive/tar's Reader says of them. *)
From Verif Require Import Common ContentRange_Spec TarNum_Model TarNum_Spec TarSparse_Model TarSparse_Spec TarSections_Model.
Open Scope Z_scope.

Definition pad_of (n : Z) : Z := (512 - n mod 512) mod 512.
Definition padded (s : list byte) : list byte := s ++ zeros (pad_of (zlen s)).

(* A header block with size field [size] and type [flag]; the other fields are free. *)
Definition raw_block (blk : list byte) (size : Z) (flag : byte) : Prop :=
  exists a b c, blk = a ++ enc_num size ++ b ++ [flag] ++ c /\ zlen a = 124 /\ zlen b = 20 /\ zlen c = 355.

(* How an entry's sparse map is written. *)
Inductive smap :=
| NoMap
| OldMap (first : list (Z * Z)) (groups : list (list (Z * Z)))
| Map01 (m : list (Z * Z))
| Map10 (m : list (Z * Z)).
Definition the_map (m : smap) : list (Z * Z) := match m with NoMap => [] | OldMap f g => f ++ concat g | Map01 m => m | Map10 m => m end.

(* An entry: extended headers (block and content) before it, its header block, what stands
   between that and the content (continuation blocks, a 1.0 map, the records of a global
   header), the stored bytes. *)
Record entry := Entry { e_exts : list (list byte * list byte); e_block : list byte; e_more : list byte; e_stored : list byte; e_head : thead; e_map : smap }.

Definition ext_ok (x : list byte * list byte) : Prop :=
  zlen (snd x) <= max_int64 - 512 /\ exists flag, In flag [120; 76; 75]%N /\ raw_block (fst x) (zlen (snd x)) flag.

(* Types archive/tar reads no content for (isHeaderOnlyType). *)
Definition header_only (flag : byte) : Prop := In flag [49; 50; 51; 52; 53; 54]%N.
(* The records name no sparse format archive/tar knows (0.0, 0.1 and 1.0, and the maps from before
   versions): a version it does not know is not a sparse file to it. *)
Definition plain_pax (h : thead) : Prop :=
  ~ (th_major h = [48%N] /\ (th_minor h = [48%N] \/ th_minor h = [49%N])) /\
  ~ (th_major h = [49%N] /\ th_minor h = [48%N]) /\
  ~ (th_major h = [] /\ th_minor h = [] /\ th_map h <> []).

Definition entry_ok (e : entry) : Prop :=
  let h := e_head e in
  Forall ext_ok (e_exts e) /\
  (exists size raw, 0 <= size <= max_int64 /\ raw_block (e_block e) size raw /\ (th_flag h = 103%N \/ ~ In raw [120; 103; 76; 75]%N)) /\
  0 <= th_size h <= max_int64 /\
  match e_map e with
  | NoMap =>
      plain_pax h /\ (th_flag h <> 83)%N /\ (~ In (th_flag h) [120; 76; 75]%N) /\
      (th_flag h = 103%N -> th_size h = 0 /\ e_exts e = []) /\ (th_flag h <> 103%N -> e_more e = []) /\
      ((header_only (th_flag h) /\ e_stored e = []) \/ (~ header_only (th_flag h) /\ zlen (e_stored e) = th_size h))
  | OldMap first groups =>
      th_flag h = 83%N /\ map_ok first /\ zlen first <= 4 /\ Forall (fun g => map_ok g /\ zlen g <= 21) groups /\
      (exists pre post, e_block e = enc_header pre first groups post /\ zlen pre = 386 /\ zlen post = 29) /\
      e_more e = enc_extensions groups
  | Map01 m =>
      (th_flag h = 48%N \/ th_flag h = 0%N) /\ map_ok m /\ 2 * zlen m <= max_int64 /\
      th_blocks h = print_dec (zlen m) /\ th_map h = map_text_0x1 m /\
      ((th_major h = [48%N] /\ (th_minor h = [48%N] \/ th_minor h = [49%N])) \/ (th_major h = [] /\ th_minor h = [] /\ m <> [])) /\
      e_more e = []
  | Map10 m =>
      (th_flag h = 48%N \/ th_flag h = 0%N) /\ map_ok m /\ 2 * zlen m <= max_int64 /\
      th_major h = [49%N] /\ th_minor h = [48%N] /\
      (exists fill, e_more e = map_text_1x0 m ++ fill /\ Z.divide 512 (zlen (e_more e)))
  end /\
  match e_map e with
  | NoMap => True
  | m => legal (the_map m) (th_size h) /\ zlen (e_stored e) = stored_len (the_map m)
  end.

Definition ext_bytes (x : list byte * list byte) : list byte := fst x ++ padded (snd x).
Definition head_bytes (e : entry) : list byte := concat (map ext_bytes (e_exts e)) ++ e_block e ++ e_more e.
(* An entry's bytes; the content is filled up to a block. *)
Definition entry_bytes (e : entry) : list byte := padded (head_bytes e ++ e_stored e).
Definition archive (es : list entry) (trailer : list byte) : list byte := concat (map entry_bytes es) ++ trailer.

(* What archive/tar's Next answers, with the bytes read by then. *)
Fixpoint nexts (start : Z) (es : list entry) : list (thead * Z) :=
  match es with
  | [] => []
  | e :: es => (e_head e, start + zlen (head_bytes e)) :: nexts (start + zlen (entry_bytes e)) es
  end.

(* Where things are. *)
Definition place (start : Z) (e : entry) (s : sect) : Prop :=
  s_head s = e_head e /\ s_start s = start /\ s_end s = start + zlen (head_bytes e) /\
  s_body_end s = start + zlen (head_bytes e) + zlen (e_stored e) /\
  s_holes s = match e_map e with NoMap => None | m => Some (invert (the_map m) (th_size (e_head e))) end.
Fixpoint places (start : Z) (es : list entry) (ss : list sect) : Prop :=
  match es, ss with
  | [], [] => True
  | e :: es, s :: ss => place start e s /\ places (start + zlen (entry_bytes e)) es ss
  | _, _ => False
  end.
(* No contiguous file has content. *)
Definition no_cont (e : entry) : Prop := th_flag (e_head e) = 55%N -> e_stored e = [].
