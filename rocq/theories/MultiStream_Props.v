(* Property theorems for C98: streams read one after the other. *)
From Verif Require Import Common MultiStream_Model MultiStream_Spec MultiStream_Proofs.
Open Scope nat_scope.

(* One Read, whatever the readers do. Bytes come off the front of what is left and none is
   lost, also when it fails; no more than asked for; io.EOF only when no reader is left. A
   failure is one a reader reported. Readers after the one read are not touched. *)
Theorem C98_one_read :
  forall ss len data e ss', multi_read ss len = (data, e, ss') ->
  content ss = data ++ content ss' /\ length data <= len /\ (e = SEof -> ss' = []) /\
  (forall c, e = SFault c -> exists s t l, In s ss /\ s_plan s = t :: l /\ t_fault t = Some c) /\
  left_of ss ss' /\
  (Forall willing ss -> Forall willing ss' /\ (forall c, e <> SFault c) /\ (1 <= len -> e = SNil -> data <> [])).
Proof. exact multi_read_spec. Qed.
Print Assumptions C98_one_read.

(* No answer is swallowed or made up: readers at their end are passed over, and the answer is
   the one of the first that is not, with io.EOF left out while others follow. That reader is
   dropped if it ended and is read again otherwise, also after a failure. *)
Theorem C98_answers_handed_on :
  forall ss len d e ss', multi_read ss len = (d, e, ss') ->
  (Forall (ends len) ss /\ d = [] /\ e = SEof /\ ss' = []) \/
  exists before s after e0 s', ss = before ++ s :: after /\ Forall (ends len) before /\ src_read s len = (d, e0, s') /\
    ~ (d = [] /\ e0 = SEof) /\ e = said (match after with [] => false | _ => true end) e0 /\
    ss' = (match e0 with SEof => after | _ => s' :: after end).
Proof. exact multi_read_passes. Qed.
Print Assumptions C98_answers_handed_on.

(* Any history of Read and Close on NewMultiReadCloser: what was read and what is left make
   the readers' bytes in order; every Close closes every reader, in order, however far reading
   had come; after io.EOF all has been read and only io.EOF follows. *)
Theorem C98_histories :
  forall l acts m gs, do_acts (new_mrc l) acts = (m, gs) ->
  concat (map got gs) ++ content (m_readers m) = concat (map (fun x => s_rest (fst x)) l) /\
  length gs = length acts /\
  (forall i, nth_error acts i = Some AClose -> nth_error gs i = Some (GotClose (map snd l))) /\
  (forall i len, nth_error acts i = Some (ARead len) -> exists d e, nth_error gs i = Some (GotRead d e) /\ length d <= len) /\
  (forall i j d g, i < j -> nth_error gs i = Some (GotRead d SEof) -> nth_error gs j = Some g -> got g = [] /\ (forall d' e, g = GotRead d' e -> e = SEof)) /\
  (forall i d, nth_error gs i = Some (GotRead d SEof) -> concat (map got gs) = concat (map (fun x => s_rest (fst x)) l)).
Proof. exact new_mrc_acts. Qed.
Print Assumptions C98_histories.

(* Reading to the end, with any buffer, of readers that do not fail and do make progress: all
   the bytes, io.EOF, and no more calls than bytes and one. *)
Theorem C98_read_to_end :
  forall l len fuel, 1 <= len -> Forall (fun x => willing (fst x)) l -> length (concat (map (fun x => s_rest (fst x)) l)) < fuel ->
  read_to_end fuel (m_readers (new_mrc l)) len [] = Some (concat (map (fun x => s_rest (fst x)) l), SEof).
Proof. exact new_mrc_read_to_end. Qed.
Print Assumptions C98_read_to_end.

(* A short reader, one ending eagerly, an empty one and one that fails once, with a Close in
   the middle. *)
Example C98_met :
  let l := [(Src [1; 2; 3]%N [Turn 2 None false], 10); (Src [4]%N [Turn 5 None true], 11); (Src [] [], 12);
            (Src [5; 6]%N [Turn 1 (Some 7) false], 13)] in
  snd (do_acts (new_mrc l) [ARead 8; ARead 8; ARead 8; AClose; ARead 8; ARead 8; ARead 8; ARead 0]) =
    [GotRead [1; 2]%N SNil; GotRead [3]%N SNil; GotRead [4]%N SNil; GotClose [10; 11; 12; 13];
     GotRead [5]%N (SFault 7); GotRead [6]%N SNil; GotRead [] SEof; GotRead [] SEof].
Proof. reflexivity. Qed.
Example C98_end_met :
  let l := [(Src [1; 2; 3]%N [Turn 2 None false], 10); (Src [4]%N [Turn 5 None true], 11); (Src [] [], 12)] in
  Forall (fun x => willing (fst x)) l /\ read_to_end 5 (m_readers (new_mrc l)) 2 [] = Some ([1; 2; 3; 4]%N, SEof).
Proof. split; [|reflexivity]. repeat constructor. Qed.
