(* C73: wrapping errors. *)
From Verif Require Import Common CommonLemmas ContentRange_Model Errors_Model Errors_Spec Errors_Proofs.
Open Scope nat_scope.

(* Some errors: 0 is "nf", 1 opens f over it, 2 renames a to b over 1, 3 is the escape error of package os,
   4 opens x over 3, 5 renames a to b over 3, 6 renames a to b over 4, 7 is vroot.ErrPathEscapes. *)
Definition w (l : list nat) : str := map N.of_nat l.
Definition errs : heap :=
  [NLeaf (w [110; 102]); NPath (w [111]) (w [102]) (Some 0); NLink (w [114]) (w [97]) (w [98]) (Some 1); NLeaf escape_text;
   NPath (w [111]) (w [120]) (Some 3); NLink (w [114]) (w [97]) (w [98]) (Some 3); NLink (w [114]) (w [97]) (w [98]) (Some 4); NLeaf (w [69])].
Definition plain : nat -> nat -> bool := fun _ _ => false.
Lemma errs_wf : wf errs.
Proof.
  intros a n b Ha Hb. do 8 (destruct a as [|a]; [cbn in Ha; apply some_inj in Ha; subst n; cbn in Hb; repeat (destruct Hb as [Hb|Hb]; [try discriminate; apply some_inj in Hb; subst b; lia|]); destruct Hb|]).
  destruct a; discriminate.
Qed.
Lemma errs_valid a : a < 8 -> valid errs (Some a).
Proof. intros H x E. apply some_inj in E. subst x. exact H. Qed.

(* errors.Is finds exactly the errors reached through Unwrap, leaf Is methods included. *)
Theorem C73_is_reaches also h e t : wf h -> valid h e -> (errors_is also h e t = true <-> caused also h e t).
Proof. exact (errors_is_spec also h e t). Qed.
Print Assumptions C73_is_reaches.
Example C73_is_reaches_met : wf errs /\ valid errs (Some 2) /\ errors_is plain errs (Some 2) 0 = true /\ errors_is plain errs (Some 2) 3 = false /\
  errors_is (fun a t => (a =? 0) && (t =? 7)) errs (Some 2) 7 = true.
Proof. split; [exact errs_wf|]. split; [apply errs_valid; lia|]. repeat split. Qed.

(* WrapPathErr: nil for nil; the same causes as before, for the result and for every older error; only a PathError given to it changes. *)
Theorem C73_wrap_path also h op path e h' r : wf h -> valid h e -> wrap_path_err h op path e = (h', r) ->
  (r = None <-> e = None) /\ wf h' /\ valid h' r /\
  (forall t, t < length h -> (caused also h' r t <-> caused also h e t)) /\
  (forall x t, x < length h -> (caused also h' (Some x) t <-> caused also h (Some x) t)) /\
  (forall x n, nth_error h x = Some n -> ~ (e = Some x /\ path_error n) -> nth_error h' x = Some n).
Proof. exact (wrap_path_all also h op path e h' r). Qed.
Print Assumptions C73_wrap_path.
(* The result names the operation and path given, where they are given. *)
Theorem C73_wrap_path_fields h op path a h' r : a < length h -> wrap_path_err h op path (Some a) = (h', r) ->
  exists b, r = Some b /\
  match nth_error h a with
  | Some (NPath op0 path0 e0) => b = a /\ nth_error h' b = Some (NPath (given op op0) (given path path0) e0)
  | _ => b = length h /\ nth_error h' b = Some (NPath op path (Some a))
  end.
Proof. exact (wrap_path_fields h op path a h' r). Qed.
Print Assumptions C73_wrap_path_fields.
Example C73_wrap_path_met : wf errs /\ valid errs (Some 2) /\
  error_text (fst (wrap_path_err errs (w [115]) (w [99]) (Some 2))) (snd (wrap_path_err errs (w [115]) (w [99]) (Some 2))) =
    w [115; 32; 99; 58; 32; 114; 32; 97; 32; 98; 58; 32; 111; 32; 102; 58; 32; 110; 102] /\
  error_text (fst (wrap_path_err errs [] (w [99]) (Some 1))) (snd (wrap_path_err errs [] (w [99]) (Some 1))) = w [111; 32; 99; 58; 32; 110; 102].
Proof. split; [exact errs_wf|]. split; [apply errs_valid; lia|]. split; reflexivity. Qed.

Theorem C73_wrap_link also h op old new_ e h' r : wf h -> valid h e -> wrap_link_err h op old new_ e = (h', r) ->
  (r = None <-> e = None) /\ wf h' /\ valid h' r /\
  (forall t, t < length h -> (caused also h' r t <-> caused also h e t)) /\
  (forall x t, x < length h -> (caused also h' (Some x) t <-> caused also h (Some x) t)) /\
  (forall x n, nth_error h x = Some n -> ~ (e = Some x /\ link_error n) -> nth_error h' x = Some n).
Proof. exact (wrap_link_all also h op old new_ e h' r). Qed.
Print Assumptions C73_wrap_link.
Theorem C73_wrap_link_fields h op old new_ a h' r : a < length h -> wrap_link_err h op old new_ (Some a) = (h', r) ->
  exists b, r = Some b /\
  match nth_error h a with
  | Some (NLink op0 old0 new0 e0) => b = a /\ nth_error h' b = Some (NLink (given op op0) (given old old0) (given new_ new0) e0)
  | _ => b = length h /\ nth_error h' b = Some (NLink op old new_ (Some a))
  end.
Proof. exact (wrap_link_fields h op old new_ a h' r). Qed.
Print Assumptions C73_wrap_link_fields.
Example C73_wrap_link_met : wf errs /\ valid errs (Some 2) /\
  error_text (fst (wrap_link_err errs [] (w [99]) [] (Some 2))) (snd (wrap_link_err errs [] (w [99]) [] (Some 2))) =
    w [114; 32; 99; 32; 98; 58; 32; 111; 32; 102; 58; 32; 110; 102].
Proof. split; [exact errs_wf|]. split; [apply errs_valid; lia|]. reflexivity. Qed.

(* Nobody else's error text changes, if what is wrapped is not itself a PathError. *)
Theorem C73_wrap_leaves_other_texts_partial h op path e h' r : wf h -> valid h e -> (forall a n, e = Some a -> nth_error h a = Some n -> ~ path_error n) ->
  wrap_path_err h op path e = (h', r) -> forall x, x < length h -> error_text h' (Some x) = error_text h (Some x).
Proof. exact (wrap_path_quiet h op path e h' r). Qed.
Print Assumptions C73_wrap_leaves_other_texts_partial.
Example C73_wrap_leaves_other_texts_met : wf errs /\ valid errs (Some 2) /\ (forall a n, Some 2 = Some a -> nth_error errs a = Some n -> ~ path_error n).
Proof.
  split; [exact errs_wf|]. split; [apply errs_valid; lia|]. intros a n E Hn. apply some_inj in E. subst a. cbn in Hn. apply some_inj in Hn. subst n. intros (x & y & z & H). discriminate.
Qed.
(* If it is, an error someone already holds (here 2, which wraps it) reads differently afterwards. *)
Theorem C73_wrap_leaves_other_texts_refuted :
  ~ forall h op path e h' r, wf h -> valid h e -> wrap_path_err h op path e = (h', r) -> forall x, x < length h -> error_text h' (Some x) = error_text h (Some x).
Proof.
  intros H. specialize (H errs [] (w [103]) (Some 1) _ _ errs_wf (errs_valid 1 ltac:(lia)) eq_refl 2). cbn in H. specialize (H ltac:(lia)). vm_compute in H. discriminate.
Qed.
Print Assumptions C73_wrap_leaves_other_texts_refuted.

(* serr: Prefix, Gather, GatherChecked, GatherPrefixed. *)
Theorem C73_prefix also h p e h' r : wf h -> valid h e -> prefix_err h p e = (h', r) ->
  wf h' /\ kept h h' /\ (r = None <-> e = None) /\ (forall t, t < length h -> (caused also h' r t <-> caused also h e t)) /\
  (e <> None -> error_text h' r = p ++ error_text h e).
Proof. exact (prefix_spec also h p e h' r). Qed.
Print Assumptions C73_prefix.
Theorem C73_gather also h es h' r : wf h -> Forall (valid h) es -> gather h es = (h', r) ->
  wf h' /\ kept h h' /\ (r = None <-> Forall (fun e => e = None) es) /\
  (forall t, t < length h -> (caused also h' r t <-> exists e, In e es /\ caused also h e t)) /\
  (r <> None -> error_text h' r = listed (map (error_text h) (filter (fun e => match e with Some _ => true | None => false end) es))).
Proof. exact (gather_spec also h es h' r). Qed.
Print Assumptions C73_gather.
Theorem C73_gather_checked also h es h' r : wf h -> Forall (valid h) es -> gather_checked h es = (h', r) ->
  wf h' /\ kept h h' /\ (r = None <-> Forall (fun e => e = None) es) /\
  (forall t, t < length h -> (caused also h' r t <-> exists e, In e es /\ caused also h e t)) /\
  (r <> None -> error_text h' r = listed (map (error_text h) es)).
Proof. exact (gather_checked_spec also h es h' r). Qed.
Print Assumptions C73_gather_checked.
Theorem C73_gather_prefixed also h pes h' r : wf h -> Forall (fun pe => valid h (snd pe)) pes -> gather_prefixed h pes = (h', r) ->
  wf h' /\ kept h h' /\ (r = None <-> Forall (fun pe => snd pe = None) pes) /\
  (forall t, t < length h -> (caused also h' r t <-> exists pe, In pe pes /\ caused also h (snd pe) t)) /\
  (r <> None -> error_text h' r = listed (map (fun pe => fst pe ++ error_text h (snd pe)) pes)).
Proof. exact (gather_prefixed_spec also h pes h' r). Qed.
Print Assumptions C73_gather_prefixed.
Example C73_gather_met : wf errs /\ Forall (valid errs) [None; Some 2; None; Some 0] /\
  (let '(h, r) := gather errs [None; Some 2; None; Some 0] in error_text h r) = w [114; 32; 97; 32; 98; 58; 32; 111; 32; 102; 58; 32; 110; 102; 44; 32; 110; 102] /\
  (let '(h, r) := gather_checked errs [Some 0; None] in error_text h r) = w [110; 102; 44; 32; 37; 33; 115; 40; 60; 110; 105; 108; 62; 41] /\
  (let '(h, r) := gather_prefixed errs [(w [49], Some 0); (w [50], Some 0)] in error_text h r) = w [49; 110; 102; 44; 32; 50; 110; 102] /\
  gather errs [None; None] = (errs, None).
Proof.
  split; [exact errs_wf|]. split; [|repeat split]. apply Forall_cons; [discriminate|]. apply Forall_cons; [apply errs_valid; lia|]. apply Forall_cons; [discriminate|]. apply Forall_cons; [apply errs_valid; lia|apply Forall_nil].
Qed.

(* translateEscape: an error that does not end in the escape error of package os is returned as it is. *)
Theorem C73_translate_leaves_others h esc a l : wf h -> ends h a l -> error_text h (Some l) <> w [112; 97; 116; 104; 32; 101; 115; 99; 97; 112; 101; 115; 32; 102; 114; 111; 109; 32; 112; 97; 114; 101; 110; 116] ->
  translate_escape h esc (Some a) = (h, Some a).
Proof. exact (translate_other h esc a l). Qed.
Print Assumptions C73_translate_leaves_others.
(* One that does becomes an error caused by ErrPathEscapes and by nothing older besides; errors held elsewhere are untouched. *)
Theorem C73_translate_escapes also h esc a l h' r : wf h -> esc < length h -> ends h a l -> error_text h (Some l) = escape_text -> translate_escape h esc (Some a) = (h', r) ->
  wf h' /\ kept h h' /\ (forall t, t < length h -> (caused also h' r t <-> caused also h (Some esc) t)).
Proof. exact (translate_escapes also h esc a l h' r). Qed.
Print Assumptions C73_translate_escapes.
Theorem C73_translate_keeps_path h esc a l op path e h' r : wf h -> ends h a l -> error_text h (Some l) = escape_text -> translate_escape h esc (Some a) = (h', r) ->
  outermost h a (NPath op path e) -> exists b, r = Some b /\ nth_error h' b = Some (NPath op path (Some esc)).
Proof. exact (translate_path h esc a l op path e h' r). Qed.
Print Assumptions C73_translate_keeps_path.
Theorem C73_translate_keeps_link_partial h esc a l op old new_ e h' r : wf h -> ends h a l -> error_text h (Some l) = escape_text -> translate_escape h esc (Some a) = (h', r) ->
  outermost h a (NLink op old new_ e) -> (forall b n, reaches h a b -> nth_error h b = Some n -> ~ path_error n) ->
  exists b, r = Some b /\ nth_error h' b = Some (NLink op old new_ (Some esc)).
Proof. exact (translate_link_all h esc a l op old new_ e h' r). Qed.
Print Assumptions C73_translate_keeps_link_partial.
Lemma errs_ends5 : ends errs 5 3.
Proof. apply (E_next errs 5 _ 3 3 eq_refl eq_refl). apply (E_last errs 3 _ eq_refl eq_refl). Qed.
Lemma errs_ends6 : ends errs 6 3.
Proof. apply (E_next errs 6 _ 4 3 eq_refl eq_refl). apply (E_next errs 4 _ 3 3 eq_refl eq_refl). apply (E_last errs 3 _ eq_refl eq_refl). Qed.
Example C73_translate_met : wf errs /\ 7 < length errs /\ ends errs 4 3 /\ error_text errs (Some 3) = escape_text /\ outermost errs 4 (NPath (w [111]) (w [120]) (Some 3)) /\
  outermost errs 5 (NLink (w [114]) (w [97]) (w [98]) (Some 3)) /\ (forall b n, reaches errs 5 b -> nth_error errs b = Some n -> ~ path_error n) /\ ends errs 2 0 /\
  (let '(h, r) := translate_escape errs 7 (Some 5) in error_text h r) = w [114; 32; 97; 32; 98; 58; 32; 69].
Proof.
  split; [exact errs_wf|]. split; [cbn; lia|]. split; [exact (E_next errs 4 _ 3 3 eq_refl eq_refl (E_last errs 3 _ eq_refl eq_refl))|]. split; [reflexivity|].
  split; [exact (O_path errs 4 _ _ _ eq_refl)|]. split; [exact (O_link errs 5 _ _ _ _ eq_refl)|]. split; [|split; [|reflexivity]].
  - intros b n Hr Hn. inversion Hr as [? Ha|? m c ? Hm Hc Hrc]; subst.
    + cbn in Hn. apply some_inj in Hn. subst n. intros (x & y & z & H). discriminate.
    + cbn in Hm. apply some_inj in Hm. subst m. destruct Hc as [Hc|[]]. apply some_inj in Hc. subst c. inversion Hrc as [? Ha|? m c ? Hm Hc Hrc']; subst.
      * cbn in Hn. apply some_inj in Hn. subst n. intros (x & y & z & H). discriminate.
      * cbn in Hm. apply some_inj in Hm. subst m. destruct Hc.
  - exact (E_next errs 2 _ 1 0 eq_refl eq_refl (E_next errs 1 _ 0 0 eq_refl eq_refl (E_last errs 0 _ eq_refl eq_refl))).
Qed.
(* A LinkError over a PathError becomes a PathError: Old and New are gone. *)
Theorem C73_translate_keeps_link_refuted :
  ~ forall h esc a l op old new_ e h' r, wf h -> esc < length h -> ends h a l -> error_text h (Some l) = escape_text -> translate_escape h esc (Some a) = (h', r) ->
    outermost h a (NLink op old new_ e) -> exists b, r = Some b /\ nth_error h' b = Some (NLink op old new_ (Some esc)).
Proof.
  intros H. destruct (H errs 7 6 3 (w [114]) (w [97]) (w [98]) (Some 4) _ _ errs_wf ltac:(cbn; lia) errs_ends6 eq_refl eq_refl (O_link errs 6 _ _ _ _ eq_refl)) as (b & E & Hb).
  vm_compute in E. apply some_inj in E. subst b. vm_compute in Hb. discriminate.
Qed.
Print Assumptions C73_translate_keeps_link_refuted.
