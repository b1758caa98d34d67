(* What a reader made of readers should read as. *)
From Verif Require Import Common MultiRead_Model SeqRead_Model SeqRead_Spec StreamTree_Model.
Open Scope Z_scope.

(* How a call ended: all asked for, the end of the content, or a failure. *)
Inductive ending := Full | End | Failed.
Definition r_ending (e : rerr) : ending := match e with RNil => Full | REof => End | ROther _ => Failed end.
Definition x_ending (e : xerr) : ending := match e with XNil => Full | XEof => End | XErr _ => Failed end.

(* One ReadAt of [len] bytes at [off] on a reader whose content is [d], by the rules of
   io.ReaderAt: the bytes are those at [off]; without an error they are all that was asked
   for; with io.EOF nothing follows them; a failure may cut them short. *)
Definition reads (d : list byte) (len off : Z) (data : list byte) (e : ending) : Prop :=
  if off <? 0 then data = [] /\ e <> Full
  else
    data = zslice d off (zlen data) /\ zlen data <= len /\
    match e with Full => zlen data = len | End => zlen d <= off + zlen data | Failed => True end.

(* The caller's own readers keep those rules; unless [f] is true they do not fail. *)
Definition honest (f : bool) (s : segment) (d : list byte) : Prop :=
  forall t len off, 0 <= len ->
    reads d len off (fst (sg_read s t len off)) (r_ending (snd (sg_read s t len off))) /\
    (f = false -> 0 <= off -> r_ending (snd (sg_read s t len off)) <> Failed).

(* Readers as they are built, with their content. [f] says whether anything may fail. *)
Inductive built (f : bool) : rd -> list byte -> Prop :=
| BLeaf s t d : honest f s d -> built f (RLeaf s t) d
| BRepeat b off n : 0 <= off -> 0 <= n -> off + n <= max_int64 ->
    built f (new_section (RRepeat b) off n) (repeat b (Z.to_nat n))
| BSection r d off n : built f r d -> 0 <= off -> 0 <= n -> off + n <= max_int64 ->
    built f (new_section r off n) (zslice d off n)
| BSeq w : stream_ok w -> (f = false -> fault_free w) ->
    built f (RSeq w (new_seq (zlen (src_data w)))) (src_data w)
| BMulti rs ds : built_all f rs ds -> zlen (concat ds) <= max_int64 -> built f (RMulti rs) (concat ds)
with built_all (f : bool) : list (Z * rd) -> list (list byte) -> Prop :=
| BNil : built_all f [] []
| BCons z r d rs ds : built f r d -> z = zlen d -> built_all f rs ds -> built_all f ((z, r) :: rs) (d :: ds).

(* A call that met no failure is fully determined, but for io.EOF arriving with the last
   bytes or after them. *)
Definition reads_exactly (d : list byte) (len off : Z) (out : list byte * xerr) : Prop :=
  fst out = zslice d off len /\
  (zlen (zslice d off len) < len -> snd out = XEof) /\
  (zlen (zslice d off len) = len -> snd out = XNil \/ (snd out = XEof /\ zlen d <= off + len)).

(* How deep the segments of one reader nest. *)
Definition depth_all (rs : list (Z * rd)) : nat := list_max (map (fun p => depth (snd p)) rs).

(* The offsets at which the stream behind a segment was opened. *)
Definition opens (p : Z * rd) : list Z := match snd p with RSeq _ q => q_opens q | _ => [] end.
(* The documented pattern: once, at its beginning, and not at all when there is nothing. *)
Definition opened_once (w : source) : list Z := if zlen (src_data w) =? 0 then [] else [0].
Definition fresh_seqs (ws : list source) : list (Z * rd) :=
  map (fun w => (zlen (src_data w), RSeq w (new_seq (zlen (src_data w))))) ws.
