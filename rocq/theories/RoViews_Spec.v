(* A read-only file: bytes, a declared size, and a position. *)
From Verif Require Import Common Views_Model MemBuf_Model RoViews_Model.
Open Scope Z_scope.

(* The bytes a view stands for: a range of a range of ... of the bytes or the live file. *)
Fixpoint content (env : list byte) (v : view) : list byte :=
  match v with
  | VBytes d => d
  | VMem => env
  | VRange inner o n => zslice (content env inner) o n
  end.

(* The end that Seek counts from. *)
Definition declared (env : list byte) (v : view) : Z :=
  match v with VBytes d => zlen d | VMem => zlen env | VRange _ o n => Z.min n (max_int64 - o) end.

Record cursor := { k_pos : Z; k_closed : bool }.

(* Reading [len] bytes of [c] at [off], a position before the declared size. *)
Definition past_end (c : list byte) (len off : Z) : bool := (zlen c <=? off) || (zlen (zslice c off len) <? len).

Definition ro_step (env : list byte) (v : view) (k : cursor) (o : rop) : mres * cursor :=
  let c := content env v in
  let size := declared env v in
  match o with
  | RClose => (MOk 0 [] e_nil, {| k_pos := k_pos k; k_closed := true |})
  | RStat => (MOk (view_size env v) [] e_nil, k)
  | _ =>
      if k_closed k then (MOk 0 [] e_closed, k)
      else
        match o with
        | RRead len =>
            if size <=? k_pos k then (MOk 0 [] e_eof, k)
            else
              let want := Z.min len (size - k_pos k) in
              let x := zslice c (k_pos k) want in
              (MOk (zlen x) x (if past_end c want (k_pos k) then e_eof else e_nil),
               {| k_pos := k_pos k + zlen x; k_closed := false |})
        | RReadAt len off =>
            (if off <? 0 then MOk 0 [] (match v with VRange _ _ _ => e_eof | _ => e_inval end)
             else let x := zslice c off len in MOk (zlen x) x (if past_end c len off then e_eof else e_nil), k)
        | RSeek off whence =>
            let from := if whence =? 0 then Some 0 else if whence =? 1 then Some (k_pos k)
                        else if whence =? 2 then Some size else None in
            match from with
            | None => (MOk 0 [] e_inval, k)
            | Some b =>
                let p := b + off in
                if (p <? 0) || (max_int64 - (match v with VRange _ o _ => o | _ => 0 end) <? p) then (MOk 0 [] e_inval, k)
                else (MOk p [] e_nil, {| k_pos := p; k_closed := false |})
            end
        | RSync => (MOk 0 [] e_nil, k)
        | RWrite _ | RWriteAt _ _ | RTruncate _ => (MOk 0 [] e_badf, k)
        | RStat | RClose => (MOk 0 [] e_nil, k)
        end
  end.
Fixpoint ro_run (v : view) (k : cursor) (cs : list (list byte * rop)) : list mres * cursor :=
  match cs with
  | [] => ([], k)
  | (env, o) :: cs =>
      let '(r, k1) := ro_step env v k o in
      let '(rs, k2) := ro_run v k1 cs in (r :: rs, k2)
  end.

(* Views as NewBytesView and NewRangedView make them. *)
Fixpoint view_ok (v : view) : Prop :=
  match v with
  | VBytes d => zlen d <= max_int64
  | VMem => True
  | VRange inner o n => view_ok inner /\ 0 <= o <= max_int64 /\ 0 < n <= max_int64
  end.
Definition call_ok (c : list byte * rop) : Prop :=
  zlen (fst c) <= max_int64 /\
  match snd c with
  | RRead len => 0 <= len <= max_int64
  | RReadAt len off => 0 <= len <= max_int64 /\ in_int64 off
  | RSeek off whence => in_int64 off
  | _ => True
  end.

(* Every range lies inside what it is a range of. *)
Fixpoint within (env : list byte) (v : view) : Prop :=
  match v with
  | VRange inner o n => within env inner /\ o + n <= zlen (content env inner)
  | _ => True
  end.
