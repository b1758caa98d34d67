(* What concurrent pinning promises. *)
From Verif Require Import Common ContentRange_Model ContentRange_Spec MultiRead_Model HttpRange_Model HttpRange_Spec HttpPin_Model.
Open Scope nat_scope.

(* The response, with its complete length, contradicts the description on something both state. *)
Definition contradicts (m : option meta) (r : resp) (total : Z) : Prop :=
  exists mm, m = Some mm /\
    (m_known mm = true /\ m_size mm <> total \/
     rs_etag r <> [] /\ m_etag mm <> [] /\ rs_etag r <> m_etag mm \/
     rs_lastmod r <> [] /\ m_lastmod mm <> [] /\ rs_lastmod r <> m_lastmod mm \/
     rs_origin r <> [] /\ m_origin mm <> [] /\ rs_origin r <> m_origin mm).

(* Two accepted responses can only be describing one object. *)
Definition same_object (r1 : resp) (t1 : Z) (r2 : resp) (t2 : Z) : Prop :=
  t1 = t2 /\
  (rs_etag r1 <> [] -> rs_etag r2 <> [] -> rs_etag r1 = rs_etag r2) /\
  (rs_lastmod r1 <> [] -> rs_lastmod r2 <> [] -> rs_lastmod r1 = rs_lastmod r2) /\
  (rs_origin r1 <> [] -> rs_origin r2 <> [] -> rs_origin r1 = rs_origin r2).

(* What thread [i] received and how its verification ended, if it has. *)
Definition verdict (w : world) (i : nat) (r : resp) (total : Z) (ok : bool) : Prop :=
  nth_error (snd w) i = Some {| th_resp := r; th_total := total; th_pc := PDone ok |}.

(* Probing asks for the first byte; these answers describe an object of [total] bytes. *)
Definition asks_first_byte (rq : request) : Prop := rq_start rq = 0%Z /\ rq_end rq = Some 0%Z /\ rq_stream rq = false /\ rq_ifrange rq = [].
Definition bodiless (r : resp) : Prop :=
  rs_clen r = 0%Z \/ (rs_clen r = (-1)%Z /\ bd_read (rs_body r) 0 0%Z 1%Z = (0%Z, REof)).
Definition describes (r : resp) (total : Z) : Prop :=
  rs_enc_ok r = true /\
  (rs_status r = 206%Z /\ denotes_range (rs_crange r) 0 0 total /\ (0 < total <= max_int64)%Z \/
   rs_status r = 416%Z /\ denotes_unsatisfied (rs_crange r) 0 /\ total = 0%Z \/
   rs_status r = 200%Z /\ rs_crange r = [] /\ bodiless r /\ total = 0%Z).
