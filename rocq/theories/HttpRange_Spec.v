(* What a reader of a remote object's section promises, in terms of responses received
   and of the object's bytes. *)
From Verif Require Import Common ContentRange_Model ContentRange_Spec MultiRead_Model HttpRange_Model.
Open Scope Z_scope.

(* A body that behaves as an io.Reader: delivers its bytes in order, in pieces of any
   size, makes progress, reports EOF only at its end; it may fail at any point. *)
Definition body_ok (b : body) : Prop :=
  forall k pos len, 0 <= pos <= zlen (bd_data b) -> 0 < len ->
    let '(n, e) := bd_read b k pos len in
    0 <= n <= len /\ pos + n <= zlen (bd_data b) /\
    (e = RNil -> 0 < n) /\ (e = REof -> pos + n = zlen (bd_data b)).

Definition server_ok (srv : server) : Prop :=
  forall k rq r, srv k rq = Some r -> body_ok (rs_body r).

(* [m'] keeps every property [m] states. *)
Definition keeps (a b : list byte) : Prop := a <> [] -> b = a.
Definition extends (m m' : option meta) : Prop :=
  match m, m' with
  | None, _ => True
  | Some _, None => False
  | Some a, Some b =>
      keeps (m_etag a) (m_etag b) /\ keeps (m_lastmod a) (m_lastmod b) /\
      keeps (m_origin a) (m_origin b) /\
      (m_known a = true -> m_known b = true /\ m_size b = m_size a) /\
      (forall h, m_header a = Some h -> m_header b = Some h) /\
      (m_verified a = true -> m_verified b = true)
  end.

(* Everything [r] says about the object, with complete length [total], is what is pinned. *)
Definition pinned_by (m : option meta) (r : resp) (total : Z) : Prop :=
  exists mm, m = Some mm /\ m_known mm = true /\ m_size mm = total /\ m_verified mm = true /\
    keeps (rs_etag r) (m_etag mm) /\ keeps (rs_lastmod r) (m_lastmod mm) /\
    keeps (rs_origin r) (m_origin mm).

(* The bytes came from a 206 whose Content-Range covers exactly where they go, whose body
   holds them at the matching place, and which describes the pinned object. *)
Definition evidenced (log : list (request * option resp)) (m : option meta)
    (abs : Z) (data : list byte) : Prop :=
  data = [] \/
  exists rq r s e t,
    In (rq, Some r) log /\ rs_status r = 206 /\ rs_enc_ok r = true /\
    denotes_range (rs_crange r) s e t /\ s <= abs /\ abs + zlen data <= e + 1 /\ e < t /\
    data = zslice (bd_data (rs_body r)) (abs - s) (zlen data) /\
    pinned_by m r t.

(* A section [base, fin) of an object; New and NewRange only make such views. *)
Definition view_ok (v : view) : Prop :=
  0 <= v_base v <= max_int64 /\ 0 <= v_length v <= max_int64.
Definition section_end (v : view) : Z := Z.min max_int64 (v_base v + v_length v).

(* The io.ReaderAt contract of one read, for any server. *)
Definition read_contract (v : view) (len off : Z) (data : list byte) (e : herr) (s' : st) : Prop :=
  let abs := v_base v + off in
  let reached := abs + zlen data in
  zlen data <= len /\
  (e = HNil -> zlen data = len) /\
  e <> HHang /\
  evidenced (s_log s') (s_meta s') abs data /\
  (data <> [] -> reached <= section_end v) /\
  (e = HEof -> section_end v <= reached \/
               exists mm, s_meta s' = Some mm /\ m_known mm = true /\ m_size mm <= reached).

(* A request stays inside the section; an open-ended one only where the section runs to
   the end of the object. *)
Definition in_window (v : view) (m : option meta) (rq : request) : Prop :=
  v_base v <= rq_start rq < section_end v /\
  match rq_end rq with
  | Some e => rq_start rq <= e < section_end v
  | None => rq_stream rq = true /\
            (section_end v = max_int64 \/
             exists size, known_size m = Some size /\ size <= section_end v)
  end.

(* A server that tells the truth about one object [d], though it may fail, refuse, cut
   bodies short or answer other ranges than asked. *)
Definition truthful (d : list byte) (r : resp) : Prop :=
  (rs_status r = 206 -> forall s e t, denotes_range (rs_crange r) s e t ->
     t = zlen d /\
     forall i x, 0 <= i <= e - s -> zget (bd_data (rs_body r)) i = Some x -> zget d (s + i) = Some x) /\
  (rs_status r = 416 -> forall t, denotes_unsatisfied (rs_crange r) t -> t = zlen d) /\
  (rs_status r = 200 -> rs_crange r = [] -> empty_entity r = true -> d = []).

Definition honest (d : list byte) (srv : server) : Prop :=
  forall k rq r, srv k rq = Some r -> truthful d r.

(* What a local section reader over [d] would be allowed to return. *)
Definition section_contract (d : list byte) (v : view) (len off : Z)
    (data : list byte) (e : herr) : Prop :=
  let abs := v_base v + off in
  let fin := Z.min (section_end v) (zlen d) in
  data = zslice d abs (zlen data) /\
  zlen data <= len /\
  (data <> [] -> abs + zlen data <= fin) /\
  (e = HNil -> zlen data = len) /\
  (e = HEof -> fin <= abs + zlen data).

Definition streams (log : list (request * option resp)) : nat :=
  length (filter (fun p => rq_stream (fst p)) log).

(* A reader just made by New or NewRange, [m] being the caller's prior knowledge. *)
Definition starts (m : option meta) (v : view) (s : st) : Prop :=
  (v, s) = init_whole m \/
  exists off n, in_int64 n /\ off <= max_int64 /\ init_range m off n = Some (v, s).

(* Calls a Go caller can make. *)
Definition op_ok (o : hop) : Prop :=
  match o with OpRead len off => 0 <= len /\ off <= max_int64 | _ => True end.

(* A 200 answer that carries an object: it states a range or its entity is not empty. *)
Definition whole_answer (r : resp) : Prop :=
  rs_enc_ok r = true /\ rs_status r = 200 /\ (rs_crange r <> [] \/ empty_entity r = false).
(* How it is refused: a changed object if the request was conditional, an ignored range if not. *)
Definition refusal (rq : request) : herr := match rq_ifrange rq with [] => HIgnored | _ => HChanged end.
