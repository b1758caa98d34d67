(* Model of stream/fileserver/client.go: HTTPClient. Strings are byte lists. net/http is an
   oracle: a Doer answers one request with a response or with an error. *)
From Verif Require Import Common ContentRange_Model.
Open Scope Z_scope.

Notation str := (list byte).

(* net/url shouldEscape(c, encodePathSegment): letters, digits, - _ . ~ and $ & + = : @ stay. *)
Definition plain_byte (b : byte) : bool :=
  ((97 <=? b)%N && (b <=? 122)%N) || ((65 <=? b)%N && (b <=? 90)%N) || ((48 <=? b)%N && (b <=? 57)%N) ||
  existsb (N.eqb b) [45; 95; 46; 126; 36; 38; 43; 61; 58; 64]%N.

(* "0123456789ABCDEF"[n] *)
Definition hex_digit (n : N) : byte := if (n <? 10)%N then (48 + n)%N else (55 + n)%N.

(* url.PathEscape. *)
Definition escape_byte (b : byte) : str :=
  if plain_byte b then [b] else [37%N; hex_digit (b / 16)%N; hex_digit (b mod 16)%N].
Definition path_escape (s : str) : str := flat_map escape_byte s.

(* objectURL (client.go:96-105); [base] is BaseURL.String(). *)
Definition slash : byte := 47%N.
Definition object_url (base name : str) : str :=
  trim_right (N.eqb slash) base ++ [slash] ++ path_escape name.

Inductive hmethod := MGet | MHead | MPut.

(* What is sent: the method, the URL, the Range header, and a body of a declared length. *)
Record hreq := HReq { h_method : hmethod; h_url : str; h_range : option str; h_body : option (Z * str) }.

(* What comes back: StatusCode, ContentLength (-1 unknown), the Content-Range header, the body. *)
Record hresp := HResp { p_status : Z; p_length : Z; p_range : str; p_body : str }.

(* Do: a response, or an error that may itself wrap fs.ErrNotExist. *)
Inductive doing := DoErr (not_exist : bool) | DoResp (r : hresp).

(* What is done with the body of the response. *)
Inductive bev := Drain | CloseBody | HandOver.

(* Errors as callers can tell them apart: wrapping fs.ErrNotExist or not. *)
Inductive cerr := CNotExist | COther.

(* fmt.Sprintf of "bytes=%d-" (:171). *)
Fixpoint dec_loop (fuel : nat) (n : Z) (acc : str) : str :=
  match fuel with
  | O => acc
  | S fuel =>
      let acc := Z.to_N (48 + n mod 10) :: acc in
      if n / 10 =? 0 then acc else dec_loop fuel (n / 10) acc
  end.
Definition fmt_dec (n : Z) : str := dec_loop 20 n [].
Definition range_header (off : Z) : str := s_bytes ++ [61%N] ++ fmt_dec off ++ [45%N].

(* strings.CutPrefix and strings.TrimPrefix. *)
Fixpoint cut_prefix (p s : str) : option str :=
  match p, s with
  | [], _ => Some s
  | x :: p', y :: s' => if (x =? y)%N then cut_prefix p' s' else None
  | _ :: _, [] => None
  end.
Definition trim_prefix (p s : str) : str := match cut_prefix p s with Some r => r | None => s end.

(* s[strings.LastIndex(s, sep)+1:], None without one. *)
Fixpoint after_last (sep : byte) (s : str) : option str :=
  match s with
  | [] => None
  | b :: r =>
      match after_last sep r with
      | Some t => Some t
      | None => if (b =? sep)%N then Some r else None
      end
  end.

(* strconv.ParseInt(s, 10, 64): an optional sign, digits, and a value that fits. *)
Definition parse_int (s : str) : option Z :=
  let number neg ds :=
    match ds with
    | [] => None
    | _ => if forallb is_digit ds then
             let v := if neg : bool then - dec_value ds else dec_value ds in
             if (min_int64 <=? v) && (v <=? max_int64) then Some v else None
           else None
    end in
  match s with
  | 43%N :: ds => number false ds
  | 45%N :: ds => number true ds
  | _ => number false s
  end.

(* parseTotalFromContentRange (:296-317). *)
Definition parse_total (s : str) : option Z :=
  match s with
  | [] => None
  | _ =>
      match after_last slash (trim_prefix (s_bytes ++ [32%N]) s) with
      | None => None
      | Some t => if bytes_eqb t [42%N] then None else parse_int t
      end
  end.

(* Get (:153-220). *)
Inductive gres := GErr (e : cerr) | GOk (body : str) (total : Z).
Definition get_req (base name : str) (off : Z) : hreq :=
  HReq MGet (object_url base name) (if 0 <? off then Some (range_header off) else None) None.
Definition get_answer (off : Z) (x : doing) : gres * list bev :=
  match x with
  | DoErr ne => (GErr (if ne then CNotExist else COther), [])
  | DoResp r =>
      if p_status r =? 200 then
        if 0 <? off then (GErr COther, [Drain; CloseBody])
        else (GOk (p_body r) (p_length r), [HandOver])
      else if p_status r =? 206 then
        match parse_total (p_range r) with
        | None => (GErr COther, [Drain; CloseBody])
        | Some total => (GOk (p_body r) total, [HandOver])
        end
      else if (p_status r =? 404) || (p_status r =? 410) then (GErr CNotExist, [Drain; CloseBody])
      else (GErr COther, [Drain; CloseBody])
  end.

(* Stat (:225-258). *)
Inductive tres := TErr (e : cerr) | TOk (size : Z).
Definition stat_req (base name : str) : hreq := HReq MHead (object_url base name) None None.
Definition stat_answer (x : doing) : tres * list bev :=
  match x with
  | DoErr ne => (TErr (if ne then CNotExist else COther), [])
  | DoResp r =>
      (if (p_status r =? 200) || (p_status r =? 204) then
         if p_length r <? 0 then TErr COther else TOk (p_length r)
       else if (p_status r =? 404) || (p_status r =? 410) then TErr CNotExist
       else TErr COther, [CloseBody])
  end.

(* Put (:263-292): None is success. *)
Definition put_req (base name : str) (size : Z) (data : str) : hreq :=
  HReq MPut (object_url base name) None (Some (size, data)).
Definition put_answer (x : doing) : option cerr * list bev :=
  match x with
  | DoErr ne => (Some (if ne then CNotExist else COther), [])
  | DoResp r => (if (p_status r <? 200) || (300 <=? p_status r) then Some COther else None, [Drain; CloseBody])
  end.

(* ---- calls against a server ---- *)

Inductive fop := FGet (name : str) (off : Z) | FStat (name : str) | FPut (name : str) (size : Z) (data : str).
Inductive fres := RGet (r : gres) | RStat (r : tres) | RPut (r : option cerr).

(* A server with state [S]: what it answers to a request and what it becomes. *)
Definition client_step {S} (srv : S -> hreq -> doing * S) (base : str) (s : S) (o : fop) : fres * S :=
  match o with
  | FGet n off => let (x, s') := srv s (get_req base n off) in (RGet (fst (get_answer off x)), s')
  | FStat n => let (x, s') := srv s (stat_req base n) in (RStat (fst (stat_answer x)), s')
  | FPut n size data => let (x, s') := srv s (put_req base n size data) in (RPut (fst (put_answer x)), s')
  end.
Fixpoint client_run {S} (srv : S -> hreq -> doing * S) (base : str) (s : S) (ops : list fop) : list fres * S :=
  match ops with
  | [] => ([], s)
  | o :: ops =>
      let (r, s1) := client_step srv base s o in
      let (rs, s2) := client_run srv base s1 ops in (r :: rs, s2)
  end.
