(* Specification of chunked objects. *)
From Verif Require Import Common MultiRead_Model SeqRead_Model SeqRead_Spec Chunk_Model.
Open Scope Z_scope.

(* The i-th chunk of a file, cut without reference to the code's arithmetic. *)
Definition chunk_of (d : list byte) (chunk i : Z) : list byte := zslice d (i * chunk) chunk.

(* The number of chunks is the least n >= 1 with total <= n * chunk. *)
Definition is_count (total chunk n : Z) : Prop :=
  1 <= n /\ total <= n * chunk /\ forall m, 1 <= m -> total <= m * chunk -> n <= m.

(* Sizes for which int64 arithmetic is exact. *)
Definition sizes_fit (total chunk : Z) : Prop :=
  0 <= total /\ 0 < chunk /\ total + chunk <= max_int64.

(* The server's chunk objects hold the file. *)
Definition srv_holds (srv : Z -> source) (d : list byte) (chunk : Z) : Prop :=
  forall i, 0 <= i -> i * chunk < zlen d ->
    src_data (srv i) = chunk_of d chunk i /\ stream_ok (srv i).

(* Reads of a cursor [c] over [content] with possible failures: every result carries
   the next bytes; io.EOF only at the end. *)
Fixpoint reads_ok (content : list byte) (c : Z) (lens : list Z) (xs : list mres) : Prop :=
  match lens, xs with
  | [], [] => True
  | l :: lens', MOk data e :: xs' =>
      data = zslice content c (zlen data) /\ zlen data <= l /\ c + zlen data <= zlen content /\
      (e = MEof -> c + zlen data = zlen content) /\
      (e = MNil -> 0 < l -> 0 < zlen data) /\
      reads_ok content (c + zlen data) lens' xs'
  | _, _ => False
  end.

Definition no_error (x : mres) : Prop :=
  match x with MOk _ MNil | MOk _ MEof => True | _ => False end.

(* Chunk objects never hold wrong bytes at the right size. *)
Definition store_inv (d : list byte) (name : Z -> Z) (chunk n : Z) (s : objects) : Prop :=
  forall i v, 0 <= i < n -> s (name i) = Some v ->
    zlen v = zlen (chunk_of d chunk i) -> v = chunk_of d chunk i.

(* Names of the n chunks are distinct. *)
Definition names_distinct (name : Z -> Z) (n : Z) : Prop :=
  forall i j, 0 <= i < n -> 0 <= j < n -> name i = name j -> i = j.

Definition clean_env : Z -> chunk_env := fun _ => ChunkEnv false false PutOk.
