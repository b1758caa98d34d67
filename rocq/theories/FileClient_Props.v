(* C57, C58: HTTPClient of stream/fileserver/client.go. *)
From Verif Require Import Common ContentRange_Model ContentRange_Spec PathLex_Model
  FileClient_Model FileClient_Spec FileClient_Proofs.
Open Scope Z_scope.

(* C57: a name is one segment of the URL's path, after the base, and decodes to the name. *)
Theorem C57_name_is_one_segment :
  forall base name, plain_base base -> octets name ->
    exists seg, url_path (object_url base name) = trim_right (N.eqb slash) base ++ [slash] ++ seg /\
      ~ In slash seg /\ unescape seg = Some name /\ pct_normalise seg = seg.
Proof. exact one_segment. Qed.
Print Assumptions C57_name_is_one_segment.

(* C57: different names are different objects. *)
Theorem C57_names_do_not_collide :
  forall base n1 n2, plain_base base -> octets n1 -> octets n2 -> n1 <> n2 ->
    url_path (object_url base n1) <> url_path (object_url base n2).
Proof. exact addresses_differ. Qed.
Print Assumptions C57_names_do_not_collide.

(* C57: a server or proxy that removes dot segments and double slashes still finds the same
   object under the same base, for names other than the empty one, "." and "..". *)
Theorem C57_survives_normalising :
  forall base name, plain_base base -> octets name -> trim_right (N.eqb slash) base <> [] ->
    name <> [] -> name <> [46%N] -> name <> [46; 46]%N ->
    let u := clean (url_path (object_url base name)) in
    dir u = clean base /\ unescape (PathLex_Model.base u) = Some name.
Proof. exact segment_survives. Qed.
Print Assumptions C57_survives_normalising.

(* C57: against a plain store the client is a map from names to contents: every history of
   Get, Stat and Put answers as the map does and ends in the same map. *)
Theorem C57_client_is_a_map :
  forall base ops, plain_base base -> forall s, fits s -> Forall op_fits ops -> Forall op_small ops ->
    fst (client_run plain_server base s ops) = fst (map_run (named base s) ops) /\
    (forall n, octets n ->
       named base (snd (client_run plain_server base s ops)) n = snd (map_run (named base s) ops) n).
Proof. exact client_is_map. Qed.
Print Assumptions C57_client_is_a_map.

(* C57: a Put changes nothing in the store but the named object. *)
Theorem C57_put_touches_only_its_object :
  forall base s n size d k, plain_base base -> octets n ->
    k <> object_url base n -> snd (client_step plain_server base s (FPut n size d)) k = s k.
Proof. exact put_frame. Qed.
Print Assumptions C57_put_touches_only_its_object.

(* Finding: BaseURL may have a query, as presigned URLs do. The name then goes into the query
   and all names have one path; a second Put replaces the first one's object. *)
Theorem C57_base_with_query_refuted :
  exists base n1 n2, ~ In hash_mark base /\ octets n1 /\ octets n2 /\ n1 <> n2 /\
    url_path (object_url base n1) = url_path (object_url base n2).
Proof. exact query_shares. Qed.
Print Assumptions C57_base_with_query_refuted.

Theorem C57_base_with_query_overwrites_refuted :
  exists base n1 n2, octets n1 /\ octets n2 /\ n1 <> n2 /\
    fst (client_run plain_server base (fun _ => None) [FPut n1 1 [1%N]; FPut n2 1 [2%N]; FGet n1 0]) =
    [RPut None; RPut None; RGet (GOk [2%N] 1)].
Proof. exact query_overwrites. Qed.
Print Assumptions C57_base_with_query_overwrites_refuted.

(* Finding: with a fragment the name is not sent at all. *)
Theorem C57_base_with_fragment_refuted :
  exists base n1 n2, ~ In query_mark base /\ octets n1 /\ octets n2 /\ n1 <> n2 /\
    url_sent (object_url base n1) = url_sent (object_url base n2).
Proof. exact hash_shares. Qed.
Print Assumptions C57_base_with_fragment_refuted.

(* Finding: the name ".." is not escaped; normalised, its URL is the base's parent. *)
Theorem C57_dotdot_name_refuted :
  exists base name, plain_base base /\ octets name /\ name <> [] /\
    clean (url_path (object_url base name)) = dir base.
Proof. exact dotdot_leaves. Qed.
Print Assumptions C57_dotdot_name_refuted.

(* "/a/b/" and "x/y?": one segment, "x%2Fy%3F". A history over it. *)
Example C57_example :
  plain_base [47; 97; 47; 98; 47]%N /\ octets [120; 47; 121; 63]%N /\
  object_url [47; 97; 47; 98; 47]%N [120; 47; 121; 63]%N = [47; 97; 47; 98; 47; 120; 37; 50; 70; 121; 37; 51; 70]%N /\
  fst (client_run plain_server [47; 97]%N (fun _ => None)
         [FPut [120; 47]%N 3 [1; 2; 3]%N; FGet [120; 47]%N 1; FStat [120; 47]%N; FGet [120; 47]%N 3;
          FPut [120]%N 5 [1]%N; FGet [120]%N 0]) =
  [RPut None; RGet (GOk [2; 3]%N 3); RStat (TOk 3); RGet (GErr COther); RPut (Some COther); RGet (GErr CNotExist)].
Proof.
  split; [split; vm_compute; intuition discriminate|]. split; [repeat constructor|]. split; vm_compute; reflexivity.
Qed.

(* C58: the Range header names the offset. *)
Theorem C58_range_names_the_offset :
  forall base name off, off <= max_int64 ->
    match h_range (get_req base name off) with
    | Some h => 0 < off /\ asks_from h off
    | None => off <= 0
    end.
Proof. exact get_range. Qed.
Print Assumptions C58_range_names_the_offset.

(* C58: from a server that answers ranges exactly, Get delivers the object from the offset on
   and the object's size, or fails. *)
Theorem C58_get_delivers_from_offset :
  forall d off r b t, zlen d <= max_int64 -> 0 <= off -> exact d off r ->
    fst (get_answer off (DoResp r)) = GOk b t -> b = skipn (Z.to_nat off) d /\ t = zlen d.
Proof. exact get_exact. Qed.
Print Assumptions C58_get_delivers_from_offset.

(* C58: from a server that only tells the truth the size is right, or -1 for a whole object
   of unknown length. *)
Theorem C58_get_size_is_right :
  forall d off r b t, zlen d <= max_int64 -> truthful d r ->
    fst (get_answer off (DoResp r)) = GOk b t -> t = zlen d \/ (p_status r = 200 /\ t = -1).
Proof. exact get_truthful_total. Qed.
Print Assumptions C58_get_size_is_right.

(* C58: a server that ignores the range is noticed by its status. *)
Theorem C58_ignored_range_is_an_error :
  forall off r, 0 < off -> p_status r = 200 -> get_answer off (DoResp r) = (GErr COther, [Drain; CloseBody]).
Proof. exact get_ignored. Qed.
Print Assumptions C58_ignored_range_is_an_error.

(* C58: fs.ErrNotExist exactly for 404 and 410, or when the Doer says so. *)
Theorem C58_not_exist_is_404_or_410 :
  forall off x,
    (fst (get_answer off x) = GErr CNotExist <->
     x = DoErr true \/ exists r, x = DoResp r /\ (p_status r = 404 \/ p_status r = 410)) /\
    (fst (stat_answer x) = TErr CNotExist <->
     x = DoErr true \/ exists r, x = DoResp r /\ (p_status r = 404 \/ p_status r = 410)).
Proof. exact not_exist_both. Qed.
Print Assumptions C58_not_exist_is_404_or_410.

(* C58: a body is handed to the caller with success, or drained and closed once. *)
Theorem C58_get_settles_the_body :
  forall off x,
    match x with
    | DoErr _ => snd (get_answer off x) = [] /\ exists e, fst (get_answer off x) = GErr e
    | DoResp r =>
        (exists total, fst (get_answer off x) = GOk (p_body r) total /\ snd (get_answer off x) = [HandOver]) \/
        (exists e, fst (get_answer off x) = GErr e /\ snd (get_answer off x) = [Drain; CloseBody])
    end.
Proof. exact get_bodies. Qed.
Print Assumptions C58_get_settles_the_body.

Theorem C58_stat_and_put_close_the_body :
  forall x,
    match x with
    | DoErr _ => snd (stat_answer x) = [] /\ snd (put_answer x) = []
    | DoResp _ => snd (stat_answer x) = [CloseBody] /\ snd (put_answer x) = [Drain; CloseBody]
    end.
Proof. exact stat_put_bodies. Qed.
Print Assumptions C58_stat_and_put_close_the_body.

(* C58: Stat's size is the length a 200 or 204 stated, never negative; Put succeeds on 2xx only. *)
Theorem C58_stat_reports_stated_length :
  forall x n, fst (stat_answer x) = TOk n ->
    0 <= n /\ exists r, x = DoResp r /\ (p_status r = 200 \/ p_status r = 204) /\ p_length r = n.
Proof. exact stat_size. Qed.
Print Assumptions C58_stat_reports_stated_length.

Theorem C58_put_succeeds_on_2xx :
  forall x, fst (put_answer x) = None <-> exists r, x = DoResp r /\ 200 <= p_status r < 300.
Proof. exact put_ok. Qed.
Print Assumptions C58_put_succeeds_on_2xx.

(* Finding: the range a 206 names is not compared with the one asked for. A truthful 206 that
   starts elsewhere is delivered as the bytes from the offset on. *)
Theorem C58_wrong_start_accepted_refuted :
  exists d off r b t, 0 < off < zlen d /\ truthful d r /\
    fst (get_answer off (DoResp r)) = GOk b t /\ b <> skipn (Z.to_nat off) d.
Proof. exact wrong_start. Qed.
Print Assumptions C58_wrong_start_accepted_refuted.

(* Finding: a 206 to a request without Range is taken for the whole object. *)
Theorem C58_partial_taken_for_whole_refuted :
  exists d r b t, truthful d r /\ fst (get_answer 0 (DoResp r)) = GOk b t /\ b <> d /\ t = zlen d.
Proof. exact short_whole. Qed.
Print Assumptions C58_partial_taken_for_whole_refuted.

(* Finding: a 200 without a length is a success with size -1. *)
Theorem C58_unknown_size_is_minus_one_refuted :
  exists d r b, truthful d r /\ fst (get_answer 0 (DoResp r)) = GOk b (-1).
Proof. exact negative_total. Qed.
Print Assumptions C58_unknown_size_is_minus_one_refuted.

Example C58_example :
  exact ten 4 (HResp 206 6 (print_range 4 9 10) [4;5;6;7;8;9]%N) /\
  truthful ten (HResp 206 6 (print_range 4 9 10) [4;5;6;7;8;9]%N) /\
  fst (get_answer 4 (DoResp (HResp 206 6 (print_range 4 9 10) [4;5;6;7;8;9]%N))) = GOk [4;5;6;7;8;9]%N 10 /\
  h_range (get_req [47]%N [97]%N 120) = Some [98;121;116;101;115;61;49;50;48;45]%N /\
  fst (stat_answer (DoResp (HResp 200 10 [] []))) = TOk 10.
Proof.
  split; [split; [discriminate|intros _; repeat split]|]. split.
  - split; [discriminate|]. intros _. exists 4, 9. split; [lia|]. split; [vm_compute; reflexivity|]. split; [left|]; reflexivity.
  - repeat split.
Qed.
