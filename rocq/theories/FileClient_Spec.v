(* What an HTTP store is, and what using it through HTTPClient should amount to. *)
From Verif Require Import Common ContentRange_Model ContentRange_Spec FileClient_Model.
Open Scope Z_scope.

(* The part of a URL a server picks the object by: what precedes the fragment, which is not
   sent, and the query. *)
Fixpoint before (stop : byte -> bool) (s : str) : str :=
  match s with [] => [] | b :: r => if stop b then [] else b :: before stop r end.
Definition query_mark : byte := 63%N.
Definition hash_mark : byte := 35%N.
Definition url_sent (u : str) : str := before (N.eqb hash_mark) u.
Definition url_path (u : str) : str := before (N.eqb query_mark) (url_sent u).

(* A base URL without query and fragment. *)
Definition plain_base (base : str) : Prop := ~ In query_mark base /\ ~ In hash_mark base.

(* Bytes of a Go string. *)
Definition octets (s : str) : Prop := Forall (fun b => (b < 256)%N) s.

(* Percent-decoding (RFC 3986, 2.1), upper and lower case digits; None if malformed. *)
Definition unhex (b : byte) : option N :=
  if (48 <=? b)%N && (b <=? 57)%N then Some (b - 48)%N
  else if (65 <=? b)%N && (b <=? 70)%N then Some (b - 55)%N
  else if (97 <=? b)%N && (b <=? 102)%N then Some (b - 87)%N
  else None.
Fixpoint unescape (s : str) : option str :=
  match s with
  | [] => Some []
  | 37%N :: a :: b :: r =>
      match unhex a, unhex b, unescape r with
      | Some x, Some y, Some t => Some ((16 * x + y)%N :: t)
      | _, _, _ => None
      end
  | b :: r =>
      if (b =? 37)%N then None
      else match unescape r with Some t => Some (b :: t) | None => None end
  end.

(* Percent-encoding normalisation (RFC 3986, 6.2.2.1-2): upper case digits, and no escape for
   letters, digits, - . _ and ~. *)
Definition unreserved (b : byte) : bool :=
  (97 <=? b)%N && (b <=? 122)%N || (65 <=? b)%N && (b <=? 90)%N || (48 <=? b)%N && (b <=? 57)%N ||
  (b =? 45)%N || (b =? 46)%N || (b =? 95)%N || (b =? 126)%N.
Definition upper_hex (b : byte) : byte := if (97 <=? b)%N && (b <=? 102)%N then (b - 32)%N else b.
Fixpoint pct_normalise (s : str) : str :=
  match s with
  | 37%N :: a :: b :: r =>
      match unhex a, unhex b with
      | Some x, Some y =>
          if unreserved (16 * x + y)%N then (16 * x + y)%N :: pct_normalise r
          else 37%N :: upper_hex a :: upper_hex b :: pct_normalise r
      | _, _ => 37%N :: a :: b :: pct_normalise r
      end
  | b :: r => b :: pct_normalise r
  | [] => []
  end.

(* A Range header asking for everything from [off] on. *)
Definition asks_from (h : str) (off : Z) : Prop :=
  exists ds, h = the_unit ++ [61%N] ++ ds ++ [45%N] /\ number ds off.

(* The plain store: objects by the URL's path. Whole objects, or from the byte asked for to
   the end; 416 beyond the end; PUT replaces the object if the body is as long as declared. *)
Definition store := str -> option str.
Definition store_set (s : store) (k v : str) : store := fun k' => if bytes_eqb k' k then Some v else s k'.

Definition read_range (h : str) : option Z :=
  match cut_prefix (the_unit ++ [61%N]) h with
  | Some r => match cut 45%N r with Some (ds, []) => parse_decimal ds | _ => None end
  | None => None
  end.

Definition plain_server (s : store) (q : hreq) : doing * store :=
  let k := url_path (h_url q) in
  match h_method q with
  | MGet =>
      (DoResp match s k with
              | None => HResp 404 0 [] []
              | Some d =>
                  match h_range q with
                  | None => HResp 200 (zlen d) [] d
                  | Some h =>
                      match read_range h with
                      | None => HResp 200 (zlen d) [] d
                      | Some off =>
                          if off <? zlen d
                          then HResp 206 (zlen d - off) (print_range off (zlen d - 1) (zlen d)) (skipn (Z.to_nat off) d)
                          else HResp 416 0 [] []
                      end
                  end
              end, s)
  | MHead =>
      (DoResp match s k with None => HResp 404 (-1) [] [] | Some d => HResp 200 (zlen d) [] [] end, s)
  | MPut =>
      match h_body q with
      | Some (size, d) =>
          if size =? zlen d then (DoResp (HResp 201 0 [] []), store_set s k d) else (DoErr false, s)
      | None => (DoErr false, s)
      end
  end.

(* The map of names to contents that the client is meant to be. *)
Definition fmap := str -> option str.
Definition map_set (m : fmap) (k v : str) : fmap := fun k' => if bytes_eqb k' k then Some v else m k'.
Definition map_step (m : fmap) (o : fop) : fres * fmap :=
  match o with
  | FGet n off =>
      (RGet match m n with
            | None => GErr CNotExist
            | Some d => if off <=? 0 then GOk d (zlen d)
                        else if off <? zlen d then GOk (skipn (Z.to_nat off) d) (zlen d) else GErr COther
            end, m)
  | FStat n => (RStat match m n with None => TErr CNotExist | Some d => TOk (zlen d) end, m)
  | FPut n size d => if size =? zlen d then (RPut None, map_set m n d) else (RPut (Some COther), m)
  end.
Fixpoint map_run (m : fmap) (ops : list fop) : list fres * fmap :=
  match ops with
  | [] => ([], m)
  | o :: ops => let (r, m1) := map_step m o in let (rs, m2) := map_run m1 ops in (r :: rs, m2)
  end.

(* The store as seen by names, under a base. *)
Definition named (base : str) (s : store) : fmap := fun n => s (object_url base n).

(* Names and sizes as Go gives them. *)
Definition op_name (o : fop) : str := match o with FGet n _ | FStat n | FPut n _ _ => n end.
Definition op_fits (o : fop) : Prop :=
  octets (op_name o) /\ match o with FGet _ off => off <= max_int64 | _ => True end.
Definition fits (s : store) : Prop := forall k d, s k = Some d -> zlen d <= max_int64.
Definition op_small (o : fop) : Prop := match o with FPut _ _ d => zlen d <= max_int64 | _ => True end.

(* "bytes a-b/*": a range of an object whose length is not told. *)
Definition print_open_range (a b : Z) : str :=
  the_unit ++ [32]%N ++ print_dec a ++ [45]%N ++ print_dec b ++ [47; 42]%N.
(* A response that tells the truth about an object [d]: 200 carries all of it and its length
   or none, 206 carries the range that its Content-Range names, with the length or a star. *)
Definition truthful (d : str) (r : hresp) : Prop :=
  (p_status r = 200 -> p_body r = d /\ (p_length r = zlen d \/ p_length r = -1)) /\
  (p_status r = 206 -> exists a b, 0 <= a <= b /\ b < zlen d /\
                                   (p_range r = print_range a b (zlen d) \/ p_range r = print_open_range a b) /\
                                   p_body r = zslice d a (b - a + 1)).
(* ... and answers a request for everything from [off] on with exactly that. *)
Definition exact (d : str) (off : Z) (r : hresp) : Prop :=
  (p_status r = 200 -> p_body r = d /\ p_length r = zlen d) /\
  (p_status r = 206 -> off < zlen d /\ p_range r = print_range off (zlen d - 1) (zlen d) /\
                       p_body r = skipn (Z.to_nat off) d).
