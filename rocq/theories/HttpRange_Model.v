(* Model of stream/httprange: views, object pinning, bounded reads, the stream lane.
   One reader, calls made one after another; concurrency of pinning is HttpPin_Model. *)
From Verif Require Import Common ContentRange_Model MultiRead_Model.
Open Scope Z_scope.

(* ---------- views: range.go ---------- *)

(* view (range.go:13-16). *)
Record view := { v_base : Z; v_length : Z }.

(* view.end (range.go:21-26). *)
Definition v_end (v : view) : Z :=
  if v_length v >=? wrap64 (max_int64 - v_base v) then max_int64 else wrap64 (v_base v + v_length v).

(* view.locate (range.go:32-41), the buffer being known by its length. *)
Definition locate (v : view) (len off : Z) : option (Z * Z) :=
  if off >=? wrap64 (v_end v - v_base v) then None
  else
    let abs := wrap64 (v_base v + off) in
    let avail := wrap64 (v_end v - abs) in
    Some (if len >? avail then avail else len, abs).

(* New: the whole object (httprange.go:230). *)
Definition whole_view : view := {| v_base := 0; v_length := max_int64 |}.

(* NewRange's section arithmetic (range.go:49-68); None is the negative offset refused. *)
Definition range_view (off n : Z) : option view :=
  if off <? 0 then None
  else
    let limit := if off <=? wrap64 (max_int64 - n) then wrap64 (off + n) else max_int64 in
    Some {| v_base := off; v_length := wrap64 (limit - off) |}.

(* ---------- responses ---------- *)

(* A response body: its bytes, and how call number [k] made at position [pos] with a buffer
   of [len] answers. *)
Record body := { bd_data : list byte; bd_read : nat -> Z -> Z -> Z * rerr }.

(* What the reader looks at in an *http.Response. An absent header is []. rs_enc_ok is
   checkContentEncoding (httprange.go:302-311) finding nothing wrong; rs_header stands
   for the whole header map. *)
Record resp := {
  rs_status : Z; rs_crange : list byte; rs_etag : list byte; rs_lastmod : list byte;
  rs_origin : list byte; rs_header : N; rs_enc_ok : bool; rs_clen : Z; rs_body : body }.

(* A ranged GET: first byte, last byte if bounded, If-Range value ([] for none), and
   whether it is the lane's. *)
Record request := { rq_start : Z; rq_end : option Z; rq_ifrange : list byte; rq_stream : bool }.

(* ---------- object description: httprange.go ---------- *)

(* objectMeta (httprange.go:83-105); the empty string is the unstated case. *)
Record meta := {
  m_etag : list byte; m_lastmod : list byte; m_origin : list byte;
  m_size : Z; m_known : bool; m_header : option N; m_verified : bool }.

Definition stated (s : list byte) : bool := match s with [] => false | _ => true end.

(* metaFromResponse (:109-121). *)
Definition meta_of_resp (r : resp) (total : Z) : meta :=
  {| m_etag := rs_etag r; m_lastmod := rs_lastmod r; m_origin := rs_origin r;
     m_size := total; m_known := true; m_header := Some (rs_header r); m_verified := true |}.

Definition fill (a b : list byte) : list byte := if stated a then a else b.

(* completedBy (:126-157): the description and whether anything was taken from [o]. *)
Definition completed_by (m : option meta) (o : meta) : meta * bool :=
  match m with
  | None => (o, true)
  | Some m =>
      ({| m_etag := fill (m_etag m) (m_etag o);
          m_lastmod := fill (m_lastmod m) (m_lastmod o);
          m_origin := fill (m_origin m) (m_origin o);
          m_size := if m_known m then m_size m else if m_known o then m_size o else m_size m;
          m_known := m_known m || m_known o;
          m_header := match m_header m with Some h => Some h | None => m_header o end;
          m_verified := m_verified m || m_verified o |},
       (negb (stated (m_etag m)) && stated (m_etag o))
       || (negb (stated (m_lastmod m)) && stated (m_lastmod o))
       || (negb (stated (m_origin m)) && stated (m_origin o))
       || (negb (m_known m) && m_known o)
       || (negb (m_verified m) && m_verified o)
       || (match m_header m, m_header o with None, Some _ => true | _, _ => false end))
  end.

(* both sides state it and differ *)
Definition differ (got want : list byte) : bool :=
  stated got && stated want && negb (bytes_eqb got want).

(* mismatch (reader_at.go:250-268); true is a non-empty reason. *)
Definition mismatch (m : option meta) (r : resp) (total : Z) : bool :=
  match m with
  | None => false
  | Some m =>
      (m_known m && negb (total =? m_size m))
      || differ (rs_etag r) (m_etag m)
      || differ (rs_lastmod r) (m_lastmod m)
      || differ (rs_origin r) (m_origin m)
  end.

(* pinOrVerify (httprange.go:173-185) with nobody else writing the cell: the new cell, or
   None for a contradiction. *)
Definition pin_or_verify (m : option meta) (r : resp) (total : Z) : option (option meta) :=
  if mismatch m r total then None
  else
    let '(filled, took) := completed_by m (meta_of_resp r total) in
    if took then Some (Some filled) else Some m.

(* knownSize (:189-195). *)
Definition known_size (m : option meta) : option Z :=
  match m with Some m => if m_known m then Some (m_size m) else None | None => None end.

(* ifRangeValue (reader_at.go:275-283); "W/" marks a weak ETag. *)
Definition weak (e : list byte) : bool :=
  match e with 87%N :: 47%N :: _ => true | _ => false end.
Definition if_range_value (m : option meta) : list byte :=
  match m with
  | None => []
  | Some m => if stated (m_etag m) && negb (weak (m_etag m)) then m_etag m else m_lastmod m
  end.

(* emptyEntity (httprange.go:327-338). *)
Definition empty_entity (r : resp) : bool :=
  if rs_clen r =? 0 then true
  else if rs_clen r =? -1 then
    match bd_read (rs_body r) 0 0 1 with (0, REof) => true | _ => false end
  else false.

(* ---------- reads ---------- *)

(* Errors, by the sentinel they wrap. HHang: the body reader never makes progress. *)
Inductive herr :=
| HNil | HEof | HUnexpectedEof | HChanged | HIgnored | HStatus (code : Z)
| HProto | HTransport | HBody (code : N) | HNegative | HHang.

(* The lane (stream.go:19-69): pending, open on a body at position [bpos] after [calls]
   reads whose next byte belongs at [pos], granted up to [limit]; or dead. LNone is a
   reader without one. The dead flag and state are one thing here, since a detached close
   is only delayed and both are consulted before serving. *)
Inductive lane :=
| LNone
| LPending (pos : Z)
| LOpen (b : body) (bpos : Z) (calls : nat) (pos limit : Z)
| LDead.

Record st := { s_meta : option meta; s_lane : lane; s_log : list (request * option resp) }.

(* The Doer: how request number [k] is answered; None is a transport error. *)
Definition server := nat -> request -> option resp.

Definition send (srv : server) (s : st) (rq : request) : option resp * st :=
  let a := srv (length (s_log s)) rq in
  (a, {| s_meta := s_meta s; s_lane := s_lane s; s_log := s_log s ++ [(rq, a)] |}).

Definition set_meta (s : st) (m : option meta) : st :=
  {| s_meta := m; s_lane := s_lane s; s_log := s_log s |}.
Definition set_lane (s : st) (l : lane) : st :=
  {| s_meta := s_meta s; s_lane := l; s_log := s_log s |}.

(* 416: readUnsatisfied (reader_at.go:134-152) and streamUnsatisfied (stream.go:366-384). *)
Definition read_unsatisfied (m : option meta) (r : resp) (off : Z) : herr * option meta :=
  match parse_content_range (rs_crange r) with
  | None => (HStatus (rs_status r), m)
  | Some (start, _, total) =>
      if negb (start =? -1) then (HStatus (rs_status r), m)
      else
        match pin_or_verify m r total with
        | None => (HChanged, m)
        | Some m' => if off <? total then (HChanged, m') else (HEof, m')
        end
  end.

(* The 200 branch, shared by ReadAt (reader_at.go:74-99) and checkStream (stream.go:307-331). *)
Definition read_whole (m : option meta) (r : resp) (conditional : bool) : herr * option meta :=
  if negb (stated (rs_crange r)) && empty_entity r then
    match pin_or_verify m r 0 with
    | None => (HChanged, m)
    | Some m' => (HEof, m')
    end
  else if conditional then (HChanged, m) else (HIgnored, m).

(* Status dispatch common to both: inl the error to return, or inr for a 206
   (reader_at.go:60-102, stream.go:296-334). *)
Definition gate (m : option meta) (r : resp) (off : Z) (conditional : bool)
    : (herr * option meta) + unit :=
  if negb (rs_enc_ok r) then inl (HProto, m)
  else if rs_status r =? 206 then inr tt
  else if rs_status r =? 416 then inl (read_unsatisfied m r off)
  else if rs_status r =? 200 then inl (read_whole m r conditional)
  else inl (HStatus (rs_status r), m).

(* checkPartial (reader_at.go:216-243): bytes carried and complete length. *)
Definition check_partial (m : option meta) (r : resp) (off len : Z)
    : (herr * option meta) + (Z * Z * option meta) :=
  match parse_content_range (rs_crange r) with
  | None => inl (HProto, m)
  | Some (start, end_, total) =>
      let wantEnd := wrap64 (off + len - 1) in
      if negb (start =? off) || (end_ >? wantEnd)
         || (negb (end_ =? wantEnd) && negb (end_ =? total - 1))
      then inl (HChanged, m)
      else
        match pin_or_verify m r total with
        | None => inl (HChanged, m)
        | Some m' => inr (end_ - start + 1, total, m')
        end
  end.

(* io.ReadFull over the body: bytes read and RNil when [want] were. *)
Fixpoint read_full (fuel : nat) (b : body) (k : nat) (pos want : Z) (acc : list byte)
    : option (list byte * rerr) :=
  match fuel with
  | O => None
  | S fuel' =>
      if want <=? 0 then Some (acc, RNil)
      else
        let '(n, e) := bd_read b k pos want in
        let acc' := acc ++ zslice (bd_data b) pos n in
        match e with
        | RNil => read_full fuel' b (S k) (pos + n) (want - n) acc'
        | _ => if n >=? want then Some (acc', RNil) else Some (acc', e)
        end
  end.

Definition body_err (e : rerr) : herr :=
  match e with RNil => HNil | REof => HUnexpectedEof | ROther c => HBody c end.

(* openStream (stream.go:233-279) with checkStream (:291-359); the lane must be pending.
   None: open; Some e: the error, the lane now dead. *)
Definition open_stream (srv : server) (v : view) (s : st) : option herr * st :=
  let start := v_base v in
  let wantEnd :=
    if negb (v_end v =? max_int64) then
      match known_size (s_meta s) with
      | Some size => if v_end v <? size then v_end v - 1 else -1
      | None => v_end v - 1
      end
    else -1 in
  let ifr := if_range_value (s_meta s) in
  let rq := {| rq_start := start; rq_end := if wantEnd <? 0 then None else Some wantEnd;
               rq_ifrange := ifr; rq_stream := true |} in
  let '(a, s1) := send srv s rq in
  match a with
  | None => (Some HTransport, set_lane s1 LDead)
  | Some r =>
      let fail e m := (Some e, set_lane (set_meta s1 m) LDead) in
      match gate (s_meta s1) r start (stated ifr) with
      | inl (e, m) => fail e m
      | inr _ =>
          match parse_content_range (rs_crange r) with
          | None => fail HProto (s_meta s1)
          | Some (first, last, total) =>
              if negb (first =? start) || ((0 <=? wantEnd) && (last >? wantEnd))
                 || (negb (last =? wantEnd) && negb (last =? total - 1))
              then fail HChanged (s_meta s1)
              else
                match pin_or_verify (s_meta s1) r total with
                | None => fail HChanged (s_meta s1)
                | Some m' =>
                    (None, set_lane (set_meta s1 m') (LOpen (rs_body r) 0 0 start (last + 1)))
                end
          end
      end
  end.

(* The loop of streamReadAt (stream.go:187-221): [n] bytes already in [acc]. *)
Fixpoint stream_loop (fuel : nat) (b : body) (bpos : Z) (calls : nat) (pos limit want : Z)
    (acc : list byte) : list byte * herr * lane :=
  match fuel with
  | O => (acc, HHang, LDead)
  | S fuel' =>
      let remaining := limit - pos in
      if remaining <=? 0 then (acc, HEof, LDead)
      else if want <=? 0 then (acc, HNil, LOpen b bpos calls pos limit)
      else
        let len := if want >? remaining then remaining else want in
        let '(n, e) := bd_read b calls bpos len in
        let acc' := acc ++ zslice (bd_data b) bpos n in
        match e with
        | RNil => stream_loop fuel' b (bpos + n) (S calls) (pos + n) limit (want - n) acc'
        | REof => if pos + n >=? limit then (acc', HEof, LDead)
                  else (acc', HUnexpectedEof, LDead)
        | ROther c => (acc', HBody c, LDead)
        end
  end.

(* laneReadAt and streamReadAt (stream.go:129-222); None: not served, state possibly
   changed by closing the lane. *)
Definition lane_read_at (srv : server) (v : view) (s : st) (len abs : Z)
    : option (list byte * herr) * st :=
  match s_lane s with
  | LNone | LDead => (None, s)
  | LPending pos =>
      if negb (pos =? abs) then (None, set_lane s LDead)
      else
        let '(oe, s1) := open_stream srv v s in
        match oe with
        | Some e => (Some ([], e), s1)
        | None =>
            match s_lane s1 with
            | LOpen b bpos calls pos limit =>
                let '(acc, e, l) := stream_loop (S (Z.to_nat len)) b bpos calls pos limit len [] in
                (Some (acc, e), set_lane s1 l)
            | _ => (None, s1)
            end
        end
  | LOpen b bpos calls pos limit =>
      if negb (pos =? abs) then (None, set_lane s LDead)
      else
        let '(acc, e, l) := stream_loop (S (Z.to_nat len)) b bpos calls pos limit len [] in
        (Some (acc, e), set_lane s l)
  end.

(* The bounded request of ReadAt (reader_at.go:48-125). *)
Definition bounded_read (srv : server) (v : view) (s : st) (len abs : Z)
    : list byte * herr * st :=
  let ifr := if_range_value (s_meta s) in
  let rq := {| rq_start := abs; rq_end := Some (wrap64 (abs + len - 1)); rq_ifrange := ifr;
               rq_stream := false |} in
  let '(a, s1) := send srv s rq in
  match a with
  | None => ([], HTransport, s1)
  | Some r =>
      match gate (s_meta s1) r abs (stated ifr) with
      | inl (e, m) => ([], e, set_meta s1 m)
      | inr _ =>
          match check_partial (s_meta s1) r abs len with
          | inl (e, m) => ([], e, set_meta s1 m)
          | inr (avail, total, m') =>
              let s2 := set_meta s1 m' in
              match read_full (S (Z.to_nat avail)) (rs_body r) 0 0 avail [] with
              | None => ([], HHang, s2)
              | Some (data, RNil) =>
                  let reached := wrap64 (abs + zlen data) in
                  if (reached =? total) || (reached =? v_end v) then (data, HEof, s2)
                  else (data, HNil, s2)
              | Some (data, e) => (data, body_err e, s2)
              end
          end
      end
  end.

(* ReaderAt.ReadAt (reader_at.go:21-126). *)
Definition read_at (srv : server) (v : view) (s : st) (len off : Z) : list byte * herr * st :=
  if off <? 0 then ([], HNegative, s)
  else
    match locate v len off with
    | None => ([], HEof, s)
    | Some (len1, abs) =>
        let go len2 :=
          if len2 =? 0 then ([], HNil, s)
          else
            match lane_read_at srv v s len2 abs with
            | (Some (data, e), s1) => (data, e, s1)
            | (None, s1) => bounded_read srv v s1 len2 abs
            end in
        match known_size (s_meta s) with
        | None => go len1
        | Some size =>
            if abs >=? size then ([], HEof, s)
            else
              let avail := size - abs in
              go (if len1 >? avail then avail else len1)
        end
    end.

(* probe (probe.go:42-132). *)
Definition probe (srv : server) (s : st) : herr * st :=
  let rq := {| rq_start := 0; rq_end := Some 0; rq_ifrange := []; rq_stream := false |} in
  let '(a, s1) := send srv s rq in
  match a with
  | None => (HTransport, s1)
  | Some r =>
      if negb (rs_enc_ok r) then (HProto, s1)
      else if rs_status r =? 206 then
        match parse_content_range (rs_crange r) with
        | None => (HProto, s1)
        | Some (start, end_, total) =>
            if negb (start =? 0) || negb (end_ =? 0) then (HChanged, s1)
            else match pin_or_verify (s_meta s1) r total with
                 | None => (HChanged, s1)
                 | Some m' => (HNil, set_meta s1 m')
                 end
        end
      else if rs_status r =? 416 then
        match parse_content_range (rs_crange r) with
        | None => (HStatus (rs_status r), s1)
        | Some (start, _, total) =>
            if negb (start =? -1) then (HStatus (rs_status r), s1)
            else match pin_or_verify (s_meta s1) r total with
                 | None => (HChanged, s1)
                 | Some m' => (if total >? 0 then HChanged else HNil, set_meta s1 m')
                 end
        end
      else if rs_status r =? 200 then
        if stated (rs_crange r) || negb (empty_entity r) then (HIgnored, s1)
        else match pin_or_verify (s_meta s1) r 0 with
             | None => (HChanged, s1)
             | Some m' => (HNil, set_meta s1 m')
             end
      else (HStatus (rs_status r), s1)
  end.

(* Prior knowledge handed to New (httprange.go:234-252). *)
Definition prior_meta (etag lastmod : list byte) (size : Z) : option meta :=
  if stated etag || stated lastmod || (size >? 0) then
    Some {| m_etag := etag; m_lastmod := lastmod; m_origin := []; m_size := size;
            m_known := size >? 0; m_header := None; m_verified := false |}
  else None.

(* New / NewRange: lane only for a section of positive length (range.go:69-71). *)
Definition init_whole (m : option meta) : view * st :=
  (whole_view, {| s_meta := m; s_lane := LNone; s_log := [] |}).
Definition init_range (m : option meta) (off n : Z) : option (view * st) :=
  match range_view off n with
  | None => None
  | Some v =>
      Some (v, {| s_meta := m;
                  s_lane := if v_length v >? 0 then LPending (v_base v) else LNone;
                  s_log := [] |})
  end.

Inductive hop := OpRead (len off : Z) | OpProbe | OpClose.

(* Close kills the lane (reader_at.go:190-202); that requests fail afterwards is the
   server's doing (context cancelled). *)
Definition hstep (srv : server) (v : view) (s : st) (o : hop) : (list byte * herr) * st :=
  match o with
  | OpRead len off => let '(d, e, s') := read_at srv v s len off in ((d, e), s')
  | OpProbe => let '(e, s') := probe srv s in (([], e), s')
  | OpClose => (([], HNil), match s_lane s with LNone => s | _ => set_lane s LDead end)
  end.

Fixpoint hrun (srv : server) (v : view) (s : st) (ops : list hop) : list (list byte * herr) * st :=
  match ops with
  | [] => ([], s)
  | o :: ops' =>
      let '(r, s1) := hstep srv v s o in
      let '(rs, s2) := hrun srv v s1 ops' in (r :: rs, s2)
  end.
