(* What reading in batches means: a position in a fixed list. *)
From Verif Require Import Common Paging_Model.
Open Scope Z_scope.

(* One batch from position [p]. *)
Definition page {A} (L : list A) (p n : Z) : pres A :=
  if n <=? 0 then POut (zslice L p (zlen L - p))
  else if p >=? zlen L then PEof
  else POut (zslice L p (Z.min n (zlen L - p))).
Definition advance {A} (p : Z) (r : pres A) : Z := match r with POut l => p + zlen l | _ => p end.

(* What a seek does to the position: rewind, jump to the end, or nothing. *)
Inductive move := MStart | MEnd | MStay.
Definition moved {A} (L : list A) (p : Z) (m : move) : Z := match m with MStart => 0 | MEnd => zlen L | MStay => p end.

Fixpoint pages {A} (mv : Z -> Z -> move) (L : list A) (p : Z) (ops : list pop) : list (pres A) :=
  match ops with
  | [] => []
  | PRead n :: ops => page L p n :: pages mv L (advance p (page L p n)) ops
  | PSeek o w :: ops => pages mv L (moved L p (mv o w)) ops
  end.

(* Which seeks rewind or jump, per implementation. *)
Definition tar_move (off whence : Z) : move := if (whence =? 2) && (off <=? 0) then MEnd else MStart.
Definition synth_move (off whence : Z) : move :=
  if (whence =? 0) && (0 <=? off) then MStart else if (whence =? 2) && (off <=? 0) then MEnd else MStay.
Definition over_move (off whence : Z) : move :=
  if (whence =? 0) && (off =? 0) then MStart else if (whence =? 2) && (off =? 0) then MEnd else MStay.

(* The entries handed out by a run of reads. *)
Definition handed {A} (rs : list (pres A)) : list A := flat_map (fun r => match r with POut l => l | _ => [] end) rs.

(* Batch sizes for which cursor+n stays an int. *)
Definition batch_fits {A} (L : list A) (o : pop) : Prop := match o with PRead n => n + zlen L <= max_int64 | _ => True end.

(* While the directory changes: the listing is the one at the first use after opening or
   rewinding. *)
Definition taken {A} (snap : option (list A)) (all : list A) : list A := match snap with Some l => l | None => all end.
Fixpoint live_pages {A} (mv : Z -> Z -> move) (snap : option (list A)) (p : Z) (ops : list (list A * pop)) : list (pres A) :=
  match ops with
  | [] => []
  | (all, PRead n) :: ops => let L := taken snap all in page L p n :: live_pages mv (Some L) (advance p (page L p n)) ops
  | (all, PSeek o w) :: ops =>
      match mv o w with
      | MStart => live_pages mv None 0 ops
      | MEnd => let L := taken snap all in live_pages mv (Some L) (zlen L) ops
      | MStay => live_pages mv snap p ops
      end
  end.
(* Listings and batch sizes that fit, whichever listing is taken. *)
Definition all_fit {A} (ops : list (list A * pop)) : Prop :=
  forall L o o' all, In (L, o) ops -> In (all, o') ops -> zlen L <= max_int64 /\ batch_fits L o'.
