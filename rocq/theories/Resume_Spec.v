(* Specification of resumable copies. *)
From Verif Require Import Common ContentRange_Model Resume_Model.
Open Scope Z_scope.

(* ETags as sources hand them out: not empty, no surrounding white space. *)
Definition good_etag (e : list byte) : Prop := e <> [] /\ trim_space e = e.

(* Every version is named by its ETag. A reader opened at [off] delivers an initial part
   of the version's bytes from there; the size, when stated, is the version's; when it is
   not stated, io.EOF comes only at the version's end. *)
Definition honest_answer (content : list byte -> list byte) (off : Z) (a : answer) : Prop :=
  good_etag (a_etag a) /\
  prefix_of (concat (a_chunks a)) (skipn (Z.to_nat off) (content (a_etag a))) /\
  (a_size a = zlen (content (a_etag a)) \/
   (a_size a < 0 /\ (a_eof a = true -> concat (a_chunks a) = skipn (Z.to_nat off) (content (a_etag a))))).

Definition honest_source (content : list byte -> list byte) (src : psource) : Prop :=
  forall i off a, 0 <= off -> src i off = Some a -> honest_answer content off a.

(* What the sidecar says. *)
Definition side_etag (s : files) : list byte :=
  match f_side s with None => [] | Some b => trim_space b end.

(* A non-empty part file is an initial part of the version its sidecar names. *)
Definition part_inv (content : list byte -> list byte) (s : files) : Prop :=
  forall p, f_part s = Some p -> p <> [] ->
    side_etag s <> [] /\ prefix_of p (content (side_etag s)).

(* The ETags the source can report during a call. *)
Definition reported (src : psource) (e : list byte) : Prop :=
  exists i off a, src i off = Some a /\ a_etag a = e.

(* A push of one version: the local reader delivers the file from the offset on, or an
   initial part of that and then an error. *)
Definition honest_push (content : list byte -> list byte) (c : ucall) : Prop :=
  good_etag (uc_etag c) /\ content (uc_etag c) = uc_data c /\
  forall off, 0 <= off ->
    prefix_of (concat (fst (uc_rd c off))) (skipn (Z.to_nat off) (uc_data c)) /\
    (snd (uc_rd c off) = true -> concat (fst (uc_rd c off)) = skipn (Z.to_nat off) (uc_data c)).

(* The sidecar is never left half written. *)
Definition side_safe (e : env) : Prop :=
  forall n, e OSideWrite n = EvOk /\ forall k, e OSideOpen n <> EvCrash (S k).

(* Nothing fails. *)
Definition calm : env := fun _ _ => EvOk.

(* An Open that delivers the whole rest of version [etag] and then io.EOF. *)
Definition full_answer (content : list byte -> list byte) (etag : list byte) (off : Z) (a : answer) : Prop :=
  a_etag a = etag /\ concat (a_chunks a) = skipn (Z.to_nat off) (content etag) /\ a_eof a = true /\
  (a_size a = zlen (content etag) \/ a_size a < 0).

Definition full_source (content : list byte -> list byte) (etag : list byte) (src : psource) : Prop :=
  forall i off, 0 <= off -> exists a, src i off = Some a /\ full_answer content etag off a.

(* A source of a single version [w], with or without ETags. *)
Definition one_version (w : list byte) (src : psource) : Prop :=
  forall i off a, 0 <= off -> src i off = Some a ->
    prefix_of (concat (a_chunks a)) (skipn (Z.to_nat off) w) /\
    (a_size a = zlen w \/ (a_size a < 0 /\ (a_eof a = true -> concat (a_chunks a) = skipn (Z.to_nat off) w))).
