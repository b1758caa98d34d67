(* What a server finds in a request of httprange, and what a body arriving as the object's own
   bytes means. *)
From Verif Require Import Common ContentRange_Spec HttpRange_Model HttpWire_Model.
Open Scope Z_scope.

(* Field names are compared without regard to letter case (RFC 9110, 5.1). *)
Definition small (b : byte) : byte := if ((64 <? b) && (b <? 91))%N then (b + 32)%N else b.
Definition same (a b : list byte) : bool := if list_eq_dec N.eq_dec (map small a) (map small b) then true else false.

(* The values of the lines of a message whose name is [f]. *)
Definition lines (f : list byte) (h : header) : list (list byte) :=
  concat (map snd (filter (fun e => same f (fst e)) h)).

Definition range_f : list byte := [82; 97; 110; 103; 101]%N.
Definition if_range_f : list byte := [73; 102; 45; 82; 97; 110; 103; 101]%N.
Definition accept_f : list byte := [65; 99; 99; 101; 112; 116; 45; 69; 110; 99; 111; 100; 105; 110; 103]%N.
Definition content_f : list byte := [67; 111; 110; 116; 101; 110; 116; 45; 69; 110; 99; 111; 100; 105; 110; 103]%N.
Definition identity_v : list byte := [105; 100; 101; 110; 116; 105; 116; 121]%N.
Definition reserved : list (list byte) := [range_f; if_range_f; accept_f].

(* A configuration spelling the three reserved names, if it has them, as net/http's own
   methods spell them. *)
Definition well_spelt (h : header) : Prop :=
  forall k vs r, In (k, vs) h -> In r reserved -> same r k = true -> k = r.

(* A byte range as a server reads it: "bytes=first-last" or "bytes=first-". *)
Definition asks (v : list byte) (first : Z) (last : option Z) : Prop :=
  exists f l, v = the_unit ++ [61]%N ++ f ++ [45]%N ++ l /\ number f first /\
    match last with Some e => number l e | None => l = [] end.

(* A request for an existing stretch of bytes. *)
Definition sensible (rq : request) : Prop :=
  0 <= rq_start rq <= max_int64 /\ (forall e, rq_end rq = Some e -> rq_start rq <= e <= max_int64).

(* What a server finds: the one range, no coding but identity, the condition if there is one,
   and of everything else exactly what was configured. *)
Definition found (h : header) (rq : request) (w : header) : Prop :=
  (exists v, lines range_f w = [v] /\ asks v (rq_start rq) (rq_end rq)) /\
  lines if_range_f w = (match rq_ifrange rq with [] => [] | v => [v] end) /\
  lines accept_f w = [identity_v] /\
  (forall f, (forall r, In r reserved -> same f r = false) -> lines f w = lines f h).

(* A weak entity tag, and the validator that goes with a request about the object described by
   [m]: its tag if strong, else its date, if it has one. *)
Definition weak_tag (e : list byte) : Prop := exists r, e = [87; 47]%N ++ r.
Definition condition (m : option meta) (v : list byte) : Prop :=
  match m with
  | None => v = []
  | Some m => (m_etag m <> [] /\ ~ weak_tag (m_etag m) /\ v = m_etag m) \/
              ((m_etag m = [] \/ weak_tag (m_etag m)) /\ v = m_lastmod m)
  end.

(* The calls net/http offers on headers. *)
Inductive hcall := CSet (k v : list byte) | CAdd (k v : list byte) | CDel (k : list byte).
Definition hdo (h : header) (c : hcall) : header :=
  match c with CSet k v => h_set k v h | CAdd k v => h_add k v h | CDel k => h_del k h end.

(* The codings a message lists: its Content-Encoding lines cut at commas, blanks around each
   dropped, other than identity. *)
Definition listed (h : header) (c : list byte) : Prop :=
  exists v pre post w1 w2, In v (lines content_f h) /\
    v = pre ++ w1 ++ c ++ w2 ++ post /\ ws w1 /\ ws w2 /\
    (pre = [] \/ exists p, pre = p ++ [44]%N) /\ (post = [] \/ exists p, post = [44]%N ++ p) /\ ~ In 44%N c.
Definition coded (h : header) : Prop :=
  exists c, listed h c /\ (exists b, In b c /\ ~ blank b) /\ same c identity_v = false.

(* The values of a message as net/http hands them over: no blanks at either end, and names
   spelt its way, each once. *)
Definition trimmed (v : list byte) : Prop := (forall b r, v = b :: r -> ~ blank b) /\ (forall b r, v = r ++ [b] -> ~ blank b).
Definition received (h : header) : Prop :=
  NoDup (map fst h) /\ (forall k vs, In (k, vs) h -> vs <> [] /\ (same content_f k = true -> k = content_f) /\ Forall trimmed vs).
