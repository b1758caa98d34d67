(* The requests stream/httprange puts on the wire and the headers it reads back. *)
From Verif Require Import Common ContentRange_Model MultiRead_Model HttpRange_Model.
Open Scope Z_scope.

(* http.Header: a map from field name, as spelt by whoever put it there, to values. *)
Definition header := list (list byte * list (list byte)).

(* net/textproto validHeaderFieldByte: the token bytes of RFC 9110. *)
Definition token_byte (b : byte) : bool :=
  ((97 <=? b) && (b <=? 122) || (65 <=? b) && (b <=? 90) || (48 <=? b) && (b <=? 57)
   || existsb (N.eqb b) [33; 35; 36; 37; 38; 39; 42; 43; 45; 46; 94; 95; 96; 124; 126])%N.

(* net/textproto CanonicalMIMEHeaderKey: upper case first and after each dash, lower case
   otherwise; a name holding any other byte is left alone. *)
Definition to_lower (b : byte) : byte := if ((65 <=? b) && (b <=? 90))%N then (b + 32)%N else b.
Definition to_upper (b : byte) : byte := if ((97 <=? b) && (b <=? 122))%N then (b - 32)%N else b.
Fixpoint canon (up : bool) (s : list byte) : list byte :=
  match s with
  | [] => []
  | b :: s => (if up then to_upper b else to_lower b) :: canon (b =? 45)%N s
  end.
Definition canonical (s : list byte) : list byte := if forallb token_byte s then canon true s else s.

(* net/http Header.Del, Set, Add, Get. *)
Definition is_key (k : list byte) (e : list byte * list (list byte)) : bool := bytes_eqb (fst e) (canonical k).
Definition h_del (k : list byte) (h : header) : header := filter (fun e => negb (is_key k e)) h.
Definition h_set (k v : list byte) (h : header) : header := (canonical k, [v]) :: h_del k h.
Definition h_add (k v : list byte) (h : header) : header :=
  if existsb (is_key k) h then map (fun e => if is_key k e then (fst e, snd e ++ [v]) else e) h
  else (canonical k, [v]) :: h.
Definition h_get (k : list byte) (h : header) : list byte :=
  match find (is_key k) h with Some (_, v :: _) => v | _ => [] end.

(* "Range", "If-Range", "Accept-Encoding", "Content-Encoding", "identity" *)
Definition k_range : list byte := [82; 97; 110; 103; 101]%N.
Definition k_if_range : list byte := [73; 102; 45; 82; 97; 110; 103; 101]%N.
Definition k_accept : list byte := [65; 99; 99; 101; 112; 116; 45; 69; 110; 99; 111; 100; 105; 110; 103]%N.
Definition k_content : list byte := [67; 111; 110; 116; 101; 110; 116; 45; 69; 110; 99; 111; 100; 105; 110; 103]%N.
Definition v_identity : list byte := [105; 100; 101; 110; 116; 105; 116; 121]%N.

(* newRequest (httprange.go:283-296): the headers of the request. *)
Definition new_request (h : header) : header :=
  h_set k_accept v_identity (h_del k_if_range (h_del k_range h)).

(* fmt's %d of an int64 *)
Fixpoint digits (fuel : nat) (n : Z) (acc : list byte) : list byte :=
  match fuel with
  | O => acc
  | S fuel =>
      let acc := Z.to_N (48 + n mod 10) :: acc in
      if n <? 10 then acc else digits fuel (n / 10) acc
  end.
Definition show (n : Z) : list byte := if n <? 0 then 45%N :: digits 20 (- n) [] else digits 20 n [].

(* The Range values of probe (probe.go:47), ReadAt (reader_at.go:51) and openStream
   (stream.go:251-255): "bytes=%d-%d" or "bytes=%d-". *)
Definition range_value (start : Z) (last : option Z) : list byte :=
  [98; 121; 116; 101; 115; 61]%N ++ show start ++ 45%N :: match last with Some e => show e | None => [] end.

(* The headers handed to Do for the request [rq] of a reader configured with [h]
   (probe.go:43-51, reader_at.go:47-55, stream.go:237-259). *)
Definition wire (h : header) (rq : request) : header :=
  let q := h_set k_range (range_value (rq_start rq) (rq_end rq)) (new_request h) in
  if stated (rq_ifrange rq) then h_set k_if_range (rq_ifrange rq) q else q.

(* checkContentEncoding (httprange.go:302-311): nothing wrong. EqualFold against "identity",
   whose letters fold with no byte outside ASCII. *)
Definition encoding_ok (uncompressed : bool) (h : header) : bool :=
  if uncompressed then false
  else
    let enc := h_get k_content h in
    negb (stated enc) || bytes_eqb (map to_lower enc) v_identity.

(* originOf (httprange.go:201-206): the request the response records, if any, and its URL, if
   any, by scheme and host. *)
Definition origin_of (req : option (option (list byte * list byte))) : list byte :=
  match req with
  | Some (Some (scheme, host)) => scheme ++ [58; 47; 47]%N ++ host
  | _ => []
  end.

(* validateURL (httprange.go:258-277) over url.Parse, which gives scheme and host. *)
Definition validate_url (parse : list byte -> option (list byte * list byte)) (raw : list byte) : bool :=
  match raw with
  | [] => false
  | _ =>
      match parse raw with
      | None => false
      | Some (scheme, host) =>
          (bytes_eqb scheme [104; 116; 116; 112]%N || bytes_eqb scheme [104; 116; 116; 112; 115]%N) && stated host
      end
  end.
