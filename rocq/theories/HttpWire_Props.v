(* C84: the requests httprange sends and the responses it takes as the object's own bytes. *)
From Verif Require Import Common ContentRange_Model ContentRange_Spec MultiRead_Model HttpRange_Model HttpRange_Spec
  HttpWire_Model HttpWire_Spec HttpWire_Proofs.
Open Scope Z_scope.

(* Any request of any history of reads, probes and closes asks for an existing stretch of
   bytes, and a server reading its headers finds that range and no other, the condition if
   there is one, identity as the only coding, and every other configured field unchanged. *)
Theorem C84_on_the_wire : forall srv m v s ops rs s1 rq a h,
  server_ok srv -> starts m v s -> Forall op_ok ops -> hrun srv v s ops = (rs, s1) -> In (rq, a) (s_log s1) ->
  well_spelt h -> sensible rq /\ found h rq (wire h rq).
Proof. exact history_wire. Qed.
Print Assumptions C84_on_the_wire.

(* The range in a request is read in one way only. *)
Theorem C84_read_back : forall v a e a' e', asks v a e -> asks v a' e' -> a = a' /\ e = e'.
Proof. exact asks_once. Qed.
Print Assumptions C84_read_back.

(* Headers made with Set, Add and Del, in any order, are spelt as needed. *)
Theorem C84_made_by_calls : forall cs, well_spelt (fold_left hdo cs []).
Proof. exact made_by_calls. Qed.
Print Assumptions C84_made_by_calls.

(* A read names in If-Range the object pinned when it started: its tag if that is a strong one,
   otherwise its date, never a weak tag; a probe names nothing. *)
Theorem C84_condition : forall srv v s o res s', hstep srv v s o = (res, s') ->
  exists new, s_log s' = s_log s ++ new /\
    Forall (fun p => match o with OpProbe => rq_ifrange (fst p) = [] | _ => condition (s_meta s) (rq_ifrange (fst p)) end) new.
Proof. exact step_condition. Qed.
Print Assumptions C84_condition.

(* A response is taken exactly when the transport did not decompress it and its first
   Content-Encoding line, if any, is empty or says identity in any letter case. *)
Theorem C84_encoding : forall un h, received h ->
  encoding_ok un h = true <-> un = false /\ (lines content_f h = [] \/ exists v vs, lines content_f h = v :: vs /\ (v = [] \/ same v identity_v = true)).
Proof. exact encoding_first. Qed.
Print Assumptions C84_encoding.

(* One with at most one such line lists no coding when taken. *)
Theorem C84_taken_is_uncoded_partial : forall h, received h -> (length (lines content_f h) <= 1)%nat -> encoding_ok false h = true -> ~ coded h.
Proof. exact one_line_sound. Qed.
Print Assumptions C84_taken_is_uncoded_partial.

(* Two responses are of one origin exactly when scheme and host agree; one whose request is not
   recorded states none. *)
Theorem C84_origin :
  (forall s h s' h', ~ In 58%N s -> ~ In 58%N s' ->
     origin_of (Some (Some (s, h))) = origin_of (Some (Some (s', h'))) <-> s = s' /\ h = h') /\
  (forall q, origin_of q = [] <-> (forall s h, q <> Some (Some (s, h)))).
Proof. exact (conj origins_apart origin_unstated). Qed.
Print Assumptions C84_origin.

(* A reader is made exactly for URLs that parse, are http or https and have a host. *)
Theorem C84_url : forall parse raw, validate_url parse raw = true <->
  raw <> [] /\ exists scheme host, parse raw = Some (scheme, host) /\ host <> [] /\
    (scheme = [104; 116; 116; 112]%N \/ scheme = [104; 116; 116; 112; 115]%N).
Proof. exact url_accepted. Qed.
Print Assumptions C84_url.

(* A configuration of two fields of its own and a stray Range, and a read of bytes 7 to 12 of
   the object tagged "x". *)
Definition ex_h : header :=
  fold_left hdo [CSet [114; 65; 78; 71; 69]%N [98]%N; CAdd [120; 45; 97]%N [49]%N; CAdd [88; 45; 65]%N [50]%N] [].
Definition ex_rq : request := {| rq_start := 7; rq_end := Some 12; rq_ifrange := [34; 120; 34]%N; rq_stream := false |}.
Example C84_met :
  lines range_f ex_h = [[98]%N] /\ sensible ex_rq /\
  lines range_f (wire ex_h ex_rq) = [[98; 121; 116; 101; 115; 61; 55; 45; 49; 50]%N] /\
  lines if_range_f (wire ex_h ex_rq) = [[34; 120; 34]%N] /\ lines accept_f (wire ex_h ex_rq) = [identity_v] /\
  lines [120; 45; 65]%N (wire ex_h ex_rq) = [[49]%N; [50]%N] /\
  encoding_ok false [(content_f, [[73; 68; 69; 78; 84; 73; 84; 89]%N])] = true /\
  encoding_ok false [(content_f, [[103; 122; 105; 112]%N])] = false /\
  received [(content_f, [[103; 122; 105; 112]%N])] /\
  condition (prior_meta [87; 47; 34; 34]%N [68]%N 0) [68]%N.
Proof.
  split; [reflexivity|]. split; [split; [cbn; unfold max_int64; lia|intros e E; injection E as <-; cbn; unfold max_int64; lia]|].
  do 5 (split; [reflexivity|]). split; [reflexivity|]. split.
  - split; [repeat constructor; intros []|]. intros k vs [E|[]]. injection E as <- <-. split; [discriminate|]. split; [reflexivity|].
    repeat constructor.
    + intros b r E. injection E as <- _. cbn. intros K. repeat (destruct K as [K|K]; [discriminate|]). exact K.
    + intros b r E. change ([103; 122; 105; 112]%N) with ([103; 122; 105]%N ++ [112]%N) in E. apply app_inj_tail in E as [_ <-].
      cbn. intros K. repeat (destruct K as [K|K]; [discriminate|]). exact K.
  - right. split; [right; exists [34; 34]%N; reflexivity|reflexivity].
Qed.

(* A stray range in the configuration does survive when its name is spelt another way: the
   methods of http.Header look for one spelling only, the wire knows no difference. *)
Theorem C84_stray_range_refuted : ~ (forall h rq, sensible rq -> found h rq (wire h rq)).
Proof.
  intros H. destruct (H [([114; 97; 110; 103; 101]%N, [[98]%N])] ex_rq (proj1 (proj2 C84_met))) as ((v & E & _) & _). discriminate E.
Qed.
Print Assumptions C84_stray_range_refuted.

(* A response listing its codings on two lines, identity first, is taken though it is coded. *)
Theorem C84_coded_is_refused_refuted : ~ (forall h, received h -> encoding_ok false h = true -> ~ coded h).
Proof.
  intros H. apply (H [(content_f, [identity_v; [103; 122; 105; 112]%N])]).
  - split; [repeat constructor; intros []|]. intros k vs [E|[]]. injection E as <- <-. split; [discriminate|]. split; [reflexivity|].
    repeat constructor.
    1,3: intros b r E; injection E as <- _; cbn; intros K; repeat (destruct K as [K|K]; [discriminate|]); exact K.
    + intros b r E. change identity_v with ([105; 100; 101; 110; 116; 105; 116]%N ++ [121]%N) in E. apply app_inj_tail in E as [_ <-].
      cbn. intros K. repeat (destruct K as [K|K]; [discriminate|]). exact K.
    + intros b r E. change ([103; 122; 105; 112]%N) with ([103; 122; 105]%N ++ [112]%N) in E. apply app_inj_tail in E as [_ <-].
      cbn. intros K. repeat (destruct K as [K|K]; [discriminate|]). exact K.
  - reflexivity.
  - exists [103; 122; 105; 112]%N. split; [|split; [|reflexivity]].
    + exists [103; 122; 105; 112]%N, [], [], [], []. split; [right; left; reflexivity|]. split; [reflexivity|].
      split; [constructor|]. split; [constructor|]. split; [left; reflexivity|]. split; [left; reflexivity|].
      intros K. cbn in K. repeat (destruct K as [K|K]; [discriminate|]). exact K.
    + exists 103%N. split; [left; reflexivity|]. cbn. intros K. repeat (destruct K as [K|K]; [discriminate|]). exact K.
Qed.
Print Assumptions C84_coded_is_refused_refuted.
