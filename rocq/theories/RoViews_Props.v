(* C59: synthfs's read-only views (NewBytesView, NewRangedView). *)
From Verif Require Import Common Views_Model MemBuf_Model RoViews_Model RoViews_Spec RoViews_Proofs.
Open Scope Z_scope.

(* Every history of calls on a handle, ranges of ranges included, over bytes or over a file that
   changes between the calls, is a cursor over exactly the bytes of the range. *)
Theorem C59_handle_is_a_cursor_over_the_range :
  forall fl v flag h cs, view_ok v -> fh_open fl v flag = Some h -> Forall call_ok cs ->
    fst (fh_run fl h cs) = fst (ro_run v {| k_pos := 0; k_closed := false |} cs).
Proof. exact handle_is_cursor. Qed.
Print Assumptions C59_handle_is_a_cursor_over_the_range.

(* A range is accepted exactly if it begins at 0 or after and has a byte, and is then the view
   of that range. *)
Theorem C59_ranges_accepted :
  forall inner off n v, view_ok inner -> in_int64 off -> in_int64 n ->
    (new_ranged inner off n = Some v <-> v = VRange inner off n /\ view_ok v).
Proof. exact ranges_accepted. Qed.
Print Assumptions C59_ranges_accepted.

(* It opens exactly without write flags. *)
Theorem C59_opens_for_reading_only :
  forall fl v flag, v <> VMem -> (fh_open fl v flag <> None <-> write_op fl flag = false).
Proof. exact opens_for_reading. Qed.
Print Assumptions C59_opens_for_reading_only.

(* While the range lies inside what it is a range of, Stat and Seek know its length. *)
Theorem C59_size_is_length_within_partial :
  forall env v, zlen env <= max_int64 -> view_ok v -> within env v ->
    view_size env v = zlen (content env v) /\ declared env v = zlen (content env v).
Proof. exact size_is_length. Qed.
Print Assumptions C59_size_is_length_within_partial.

Theorem C59_whole_read_is_the_range_partial :
  forall env fl v flag h n, zlen env <= max_int64 -> view_ok v -> fh_open fl v flag = Some h -> within env v ->
    zlen (content env v) <= n <= max_int64 ->
    fst (fh_run fl h [(env, RReadAt n 0); (env, RStat)]) =
    [MOk (zlen (content env v)) (content env v)
       (if (zlen (content env v) <=? 0) || (zlen (content env v) <? n) then e_eof else e_nil);
     MOk (zlen (content env v)) [] e_nil].
Proof. exact read_all. Qed.
Print Assumptions C59_whole_read_is_the_range_partial.

(* Finding: otherwise Stat reports the length asked for, not the bytes there are. *)
Theorem C59_size_past_the_end_refuted :
  exists fl v flag h env, new_ranged VMem 0 10 = Some v /\ view_ok v /\ fh_open fl v flag = Some h /\
    fst (fh_run fl h [(env, RStat); (env, RSeek 0 2); (env, RReadAt 10 0)]) =
    [MOk 10 [] e_nil; MOk 10 [] e_nil; MOk 3 [1; 2; 3]%N e_eof].
Proof. exact size_disagrees. Qed.
Print Assumptions C59_size_past_the_end_refuted.

(* A range of a range of a file that grows between the calls. *)
Example C59_example :
  exists h, view_ok (VRange (VRange VMem 1 5) 1 3) /\
    fh_open lin (VRange (VRange VMem 1 5) 1 3) 0 = Some h /\
    within [0; 1; 2; 3; 4; 5; 6]%N (VRange (VRange VMem 1 5) 1 3) /\
    fst (fh_run lin h [([0; 1; 2]%N, RRead 2); ([0; 1; 2; 3; 4; 5; 6]%N, RRead 9); ([0; 1; 2; 3; 4; 5; 6]%N, RSeek (-2) 2);
                       ([0; 1; 2; 3; 4; 5; 6]%N, RRead 1); ([]%list, RWrite [7%N]); ([]%list, RClose); ([]%list, RRead 1)]) =
    [MOk 1 [2]%N e_eof; MOk 2 [3; 4]%N e_nil; MOk 1 [] e_nil; MOk 1 [3]%N e_nil; MOk 0 [] e_badf; MOk 0 [] e_nil; MOk 0 [] e_closed].
Proof.
  eexists. split; [cbn [view_ok]; unfold max_int64; lia|]. split; [reflexivity|].
  split; [repeat split; vm_compute; discriminate|]. vm_compute. reflexivity.
Qed.
