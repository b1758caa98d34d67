(* C12: error texts do not disclose the URL's userinfo, query or fragment. *)
From Verif Require Import Common Redact_Model Redact_Spec Redact_Proofs.

(* For every URL parser, printer and quoting: requests to two URLs differing only in
   userinfo, query and fragment, or both unparsable, that fail the same way are reported
   in the same words. *)
Theorem C12_request_errors_do_not_disclose :
  forall parse render quote raw1 raw2 e1 e2,
    indistinct parse raw1 raw2 -> same_failure raw1 raw2 e1 e2 -> under_url e1 <> None ->
    text quote (redact_error parse render e1) = text quote (redact_error parse render e2).
Proof. exact redact_noninterference. Qed.
Print Assumptions C12_request_errors_do_not_disclose.

(* The same for the reader's own messages naming the URL. *)
Theorem C12_own_messages_do_not_disclose :
  forall parse render quote pre post raw1 raw2 e1 e2,
    indistinct parse raw1 raw2 -> same_failure raw1 raw2 e1 e2 ->
    (under_url e1 = None -> e1 = e2) ->
    text quote (own_message parse render pre post raw1 e1) = text quote (own_message parse render pre post raw2 e2).
Proof. exact own_noninterference. Qed.
Print Assumptions C12_own_messages_do_not_disclose.

(* What is shown in its place: the scheme, host and path of the URL and nothing else, or a
   fixed text when it does not parse. *)
Theorem C12_what_is_shown :
  forall parse render op raw inner e, within_messages (GUrl op raw inner) e ->
    match parse raw with
    | Some u => exists v, same_public u v /\ bare v /\ redact_error parse render e = GUrl op (render v) inner
    | None => redact_error parse render e = GUrl op [91;114;101;100;97;99;116;101;100;32;117;114;108;93]%N inner
    end.
Proof. exact redacted_shows. Qed.
Print Assumptions C12_what_is_shown.
Example C12_shown_ex : within_messages (GUrl [71%N] [104%N] (GLeaf [])) (GWrap [120%N] (GUrl [71%N] [104%N] (GLeaf []))).
Proof. repeat constructor. Qed.

(* Redacting keeps the cause, so errors.Is and errors.As still find it. *)
Theorem C12_cause_survives_redaction :
  forall parse render c e, cause_of c e -> cause_of c (redact_error parse render e).
Proof. exact redact_keeps_cause. Qed.
Print Assumptions C12_cause_survives_redaction.

(* Finding: a *url.Error inside a *url.Error keeps its URL (a Doer built on another client). *)
Theorem C12_nested_url_error_refuted :
  exists parse render quote raw1 raw2 op inner1 inner2,
    indistinct parse raw1 raw2 /\ same_failure raw1 raw2 inner1 inner2 /\
    text quote (redact_error parse render (GUrl op raw1 inner1)) <>
    text quote (redact_error parse render (GUrl op raw2 inner2)).
Proof. exact nested_discloses. Qed.
Print Assumptions C12_nested_url_error_refuted.

(* Finding: the file server client's copy prints an unparsable URL as it is. *)
Theorem C12_fileserver_unparsable_url_refuted :
  exists parse render quote raw1 raw2 op inner,
    indistinct parse raw1 raw2 /\
    text quote (fs_redact_error parse render (GUrl op raw1 inner)) <>
    text quote (fs_redact_error parse render (GUrl op raw2 inner)).
Proof. exact fs_redact_discloses. Qed.
Print Assumptions C12_fileserver_unparsable_url_refuted.

(* Two URLs with different passwords and queries, told apart before redaction. *)
Example C12_example :
  indistinct ex_parse [1%N] [2%N] /\
  same_failure [1%N] [2%N] (GWrap [3%N] (GUrl [4%N] [1%N] (GLeaf [5%N]))) (GWrap [6%N] (GUrl [4%N] [2%N] (GLeaf [5%N]))) /\
  text (fun s => s) (redact_error ex_parse ex_render (GUrl [4%N] [1%N] (GLeaf [5%N]))) = [4;32;58;32;5]%N /\
  option_map ex_render (ex_parse [1%N]) <> option_map ex_render (ex_parse [2%N]).
Proof. split; [repeat split|]. split; [repeat constructor|]. split; [reflexivity|]. vm_compute. discriminate. Qed.
