(* C86: building an overlay: the layout of a layer, its store, stacking, emptying "work/", closing. *)
From Verif Require Import Common ContentRange_Model Stack_Model Stack_Spec Stack_Proofs.
From Verif Require Masks_Model.
Open Scope nat_scope.

(* Making the layout of a layer adds at most the two directories, under free names, and changes
   nothing else, whatever fails; a success leaves both there; with both there nothing is written; a
   backend that refuses writes is never changed. *)
Theorem C86_layout frozen r fs r' fs' e : proper_root r -> ensure_canonical frozen r fs = (r', fs', e) ->
  grown r r' the_two /\ (frozen = true -> r' = r) /\
  (e = None -> forall n, In n the_two -> a_directory r' n) /\
  ((forall n, In n the_two -> a_directory r n) -> r' = r).
Proof. exact (layout_does frozen r fs r' fs' e). Qed.
Print Assumptions C86_layout.

(* Nothing failing, it succeeds when each of the two is a directory or free to be made, and reports
   a layout that cannot be made only for a file in the way. *)
Theorem C86_layout_answers frozen r fs r' fs' e : quiet fs -> proper_root r -> ensure_canonical frozen r fs = (r', fs', e) ->
  ((forall n, In n the_two -> a_directory r n \/ (absent r n /\ frozen = false)) -> e = None) /\
  (e = Some ENotCanonical -> exists n, In n the_two /\ a_file r' n) /\
  (forall n, In n the_two -> a_file r n -> e <> None).
Proof. exact (layout_answers frozen r fs r' fs' e). Qed.
Print Assumptions C86_layout_answers.

Definition ex_root : root := [(ex_x, File [1; 2]%N); (work, Link [119]%N); ([119]%N, Dir [(ex_x, File [])])].
Example C86_layout_example :
  ensure_canonical false ex_root [] = (ex_root ++ [(merged, Dir [])], [], None) /\
  ensure_canonical true ex_root [] = (ex_root, [], Some EROFS) /\
  ensure_canonical false [(merged, File [])] [] = ([(merged, File [])], [], Some ENotCanonical).
Proof. repeat split. Qed.

(* Opening the schema of a store: a success keeps every mark and every other table and row and
   leaves the version; a database of another version is refused and left as it was; a failure
   leaves the database as it was unless it is a commit that landed, which leaves the schema. *)
Theorem C86_schema landed d fs d' fs' e : proper_db d -> init_schema landed d fs = (d', fs', e) ->
  (e = None -> finished d d' /\ (says d one \/ forall v, ~ says d v)) /\
  (e <> None -> d' = d \/ (landed = true /\ finished d d' /\ (says d one \/ forall v, ~ says d v))) /\
  (forall v, says d v -> v <> one -> e <> None /\ d' = d) /\
  proper_db d'.
Proof. exact (schema_does landed d fs d' fs' e). Qed.
Print Assumptions C86_schema.

(* Nothing failing, a database of this package is taken as it is, and one that was not there is made
   with no marks. *)
Theorem C86_schema_taken landed fs : quiet fs ->
  (forall d, proper_db d -> ours d -> exists fs', init_schema landed d fs = (d, fs', None) /\ quiet fs') /\
  (exists d fs', init_schema landed no_tables fs = (d, fs', None) /\ quiet fs' /\ ours d /\ proper_db d /\ rows d = []).
Proof. exact (fun Q => conj (fun d P O => schema_ours landed d fs Q P O) (schema_fresh landed fs Q)). Qed.
Print Assumptions C86_schema_taken.

(* Finding: "an existing database must carry the schema version this package writes; anything else
   is an error" (metadatastore_sqlite.go:53-55) - a database of some other program, with no version
   at all, is taken, and the tables are added to it. *)
Theorem C86_foreign_database_refuted : exists d d', proper_db d /\ d <> no_tables /\ (forall v, ~ says d v) /\
  init_schema false d [] = (d', [], None) /\ d' <> d.
Proof. exact foreign_taken. Qed.
Print Assumptions C86_foreign_database_refuted.

Definition ex_v2 : db := Db (Some (true, [])) true (Some (true, [(k_version, [50]%N)])) [].
Definition ex_v1 : db :=
  Db (Some (true, [{| Masks_Model.r_path := ex_x; Masks_Model.r_wh := true; Masks_Model.r_op := false |}])) true (Some (true, [(k_version, [49]%N)])) [].
Example C86_schema_example :
  init_schema false ex_v2 [] = (ex_v2, [], Some ESchema) /\
  init_schema false ex_v1 [] = (ex_v1, [], None) /\
  init_schema false no_tables [None; None; None; Some (EOther 1)] = (no_tables, [], Some (EOther 1)).
Proof. repeat split. Qed.

(* Opening a layer's store: writable, it is what stood there brought up to the schema; read-only,
   only because a write was refused, and it is what stands there at this version. A refusal says
   what the attempt to open for writing said. A backend that refuses writes keeps its file, and a
   database of another version is never taken nor changed. *)
Theorem C86_store landed frozen f fs f' fs' x : proper_file f -> open_store landed frozen f fs = (f', fs', x) ->
  proper_file f' /\
  (forall d, x = inl (d, false) -> frozen = false /\ f' = Some (Database d) /\ brought_up f d /\ ours d) /\
  (forall d, x = inl (d, true) -> f' = Some (Database d) /\ says d one /\
     exists f1 fs1 e, store_writable landed frozen f fs = (f1, fs1, inr e) /\ (is EROFS e = true \/ is EPermission e = true)) /\
  (forall e, x = inr e -> exists f1 fs1 e1, store_writable landed frozen f fs = (f1, fs1, inr e1) /\ forall t, is t e1 = true -> is t e = true) /\
  (frozen = true -> f' = f) /\
  (forall d0 v, f = Some (Database d0) -> says d0 v -> v <> one -> f' = f /\ exists e, x = inr e).
Proof. exact (store_does landed frozen f fs f' fs' x). Qed.
Print Assumptions C86_store.

Example C86_store_example :
  open_store false true (Some (Database ex_v1)) [] = (Some (Database ex_v1), [], inl (ex_v1, true)) /\
  open_store false false (Some (Database ex_v1)) [Some EPermission] = (Some (Database ex_v1), [], inl (ex_v1, true)) /\
  open_store false true None [] = (None, [], inr (EJoin EROFS ENotExist)) /\
  open_store false false (Some NotADatabase) [] = (Some NotADatabase, [], inr (EOther 0)).
Proof. repeat split. Qed.

(* A layer over a backend that refuses writes is built exactly when its layout and a store of this
   version are there, as a read-only one, and nothing is changed either way. *)
Theorem C86_read_only_layer landed r f fs r' f' fs' x : quiet fs -> proper_root r -> proper_file f ->
  new_canonical landed true r f fs = (r', f', fs', x) ->
  r' = r /\ f' = f /\
  forall s, x = inl s <-> (forall n, In n the_two -> a_directory r n) /\
    exists d, f = Some (Database d) /\ says d one /\ s = Source r true true (Some d) true 0 0.
Proof. exact (frozen_layer landed r f fs r' f' fs' x). Qed.
Print Assumptions C86_read_only_layer.

(* A layer built once, whatever its backend was and whatever failed, is built again as it was left,
   with the same marks, and read-only on a backend that refuses writes. *)
Theorem C86_built_again landed landed' r f fs r' f' fs' s gs : proper_root r -> proper_file f -> quiet gs ->
  new_canonical landed false r f fs = (r', f', fs', inl s) -> so_read_only s = false ->
  (exists gs', new_canonical landed' false r' f' gs = (r', f', gs', inl s)) /\
  (exists gs', new_canonical landed' true r' f' gs = (r', f', gs', inl (Source r' true true (so_store s) true 0 0))).
Proof. exact (reopened landed landed' r f fs r' f' fs' s gs). Qed.
Print Assumptions C86_built_again.

Definition ex_layer : source :=
  Source [(merged, Dir [(ex_x, File [7]%N)]); (work, Dir [(ex_x, File []); ([121]%N, Dir [])])] false true (Some ex_v1) false 0 0.
Example C86_built_example :
  new_canonical false false (so_root ex_layer) (Some (Database ex_v1)) [] = (so_root ex_layer, Some (Database ex_v1), [], inl ex_layer).
Proof. reflexivity. Qed.

(* New succeeds only over a canonical top with a writable store, no nil lower and readable stores;
   it keeps every lower, every store and the order of the layers, empties "work/" of the top and
   touches nothing else there; the masks of each layer are the marks of its store. *)
Theorem C86_stacked_partial top lowers fs ls o : new_overlay top lowers fs = (ls, inl o) ->
  exists t t', top = Some t /\ a_top t /\ so_read_only t = false /\ (forall x, In x lowers -> x <> None) /\
    ls = Some t' :: lowers /\ same_but_root t t' /\ map Some (ov_layers o) = ls /\ ov_owner o = true /\
    Forall readable (t :: somes lowers) /\
    (Forall (fun s => forall d, so_store s = Some d -> rows_clean d) (t :: somes lowers) -> Forall2 marks_of (ov_layers o) (ov_masks o)) /\
    (forall es, proper_root (so_root t) -> In (the_work, Dir es) (so_root t) -> thinned (so_root t) (so_root t') the_work /\
       (nothing_missing fs -> In (the_work, Dir []) (so_root t'))).
Proof. exact (new_does top lowers fs ls o). Qed.
Print Assumptions C86_stacked_partial.

(* Nothing failing, that is also enough. *)
Theorem C86_stacks t lowers fs es : quiet fs -> a_top t -> so_read_only t = false -> (forall x, In x lowers -> x <> None) ->
  Forall readable (t :: somes lowers) -> proper_root (so_root t) -> In (the_work, Dir es) (so_root t) -> so_frozen t = false ->
  exists ls o, new_overlay (Some t) lowers fs = (ls, inl o).
Proof. exact (new_succeeds t lowers fs es). Qed.
Print Assumptions C86_stacks.

(* What a refusal says - a top that is none, the first nil lower, a read-only top - and leaves: every
   layer as it was, but for entries of the top's "work/" when emptying it failed. *)
Theorem C86_refused top lowers fs ls e : new_overlay top lowers fs = (ls, inr e) ->
  ((forall t, top = Some t -> ~ a_top t) -> e = ENotCanonical /\ ls = top :: lowers) /\
  (forall t i, top = Some t -> a_top t -> nth_error lowers i = Some None -> (forall j, j < i -> exists s, nth_error lowers j = Some (Some s)) ->
     e = EInvalidLower i /\ ls = top :: lowers) /\
  (forall t, top = Some t -> so_read_only t = true -> ls = top :: lowers) /\
  (forall t, quiet fs -> top = Some t -> a_top t -> (forall x, In x lowers -> x <> None) -> Forall readable (t :: somes lowers) ->
     so_read_only t = true -> e = ETopReadOnly) /\
  exists t', ls = t' :: lowers /\ (t' = top \/ exists t s, top = Some t /\ t' = Some s /\ a_top t /\ so_read_only t = false /\ same_but_root t s /\
     forall es, proper_root (so_root t) -> In (the_work, Dir es) (so_root t) -> thinned (so_root t) (so_root s) the_work).
Proof. exact (new_refuses top lowers fs ls e). Qed.
Print Assumptions C86_refused.

Definition ex_lower : source := new_plain true [(ex_x, File [3]%N)].
Example C86_stacked_example :
  new_overlay (Some ex_layer) [Some ex_lower] [] =
    (let t := with_root ex_layer [(merged, Dir [(ex_x, File [7]%N)]); (work, Dir [])] in
     ([Some t; Some ex_lower], inl (Overlay [t; ex_lower] [{| Masks_Model.m_wh := [ex_x]; Masks_Model.m_op := [] |}; no_marks] true))) /\
  new_overlay (Some ex_layer) [Some ex_lower; None] [] = ([Some ex_layer; Some ex_lower; None], inr (EInvalidLower 1)) /\
  new_overlay (Some ex_lower) [Some ex_layer] [] = ([Some ex_lower; Some ex_layer], inr ENotCanonical) /\
  snd (new_overlay (Some ex_layer) [] [None; None; None; Some (EOther 5)]) = inr (EOther 5).
Proof. repeat split. Qed.

(* Finding: the check of the layout follows links, and so does emptying "work/": with "work" a link to
   "merged" the layer is taken and building the overlay deletes the layer's content. *)
Theorem C86_sweep_through_a_link_refuted : exists r f r' s t o, proper_root r /\ In (merged, Dir [(ex_x, File [7]%N)]) r /\
  new_canonical false false r None [] = (r, f, [], inl s) /\ so_root s = r /\
  new_overlay (Some s) [] [] = ([Some t], inl o) /\ so_root t = r' /\ In (merged, Dir []) r' /\ ~ thinned r r' the_work.
Proof. exact swept_through. Qed.
Print Assumptions C86_sweep_through_a_link_refuted.

(* A plain layer is the fs it was given, with no store, and nothing of it closed. *)
Theorem C86_plain_layer frozen r s : new_plain frozen r = s ->
  so_root s = r /\ so_frozen s = frozen /\ so_canonical s = false /\ so_store s = None /\ so_read_only s = false /\ so_store_closed s = 0 /\ so_fs_closed s = 0.
Proof. exact (plain_layer frozen r s). Qed.
Print Assumptions C86_plain_layer.

(* Close closes every layer's store and fs once more, whatever fails on the way, and reports exactly
   what failed; closing a view opened from the overlay does nothing. *)
Theorem C86_closed o fs ls e : close_overlay o fs = (ls, e) ->
  (ov_owner o = true -> Forall2 closed_once (ov_layers o) ls /\
     (e = None <-> forall x, In x (firstn (close_calls (ov_layers o)) fs) -> x = None) /\
     (forall t, (exists x, e = Some x /\ is t x = true) <-> exists x, In (Some x) (firstn (close_calls (ov_layers o)) fs) /\ is t x = true)) /\
  (ov_owner o = false -> ls = ov_layers o /\ e = None).
Proof. exact (close_does o fs ls e). Qed.
Print Assumptions C86_closed.

Example C86_closed_example :
  snd (close_overlay (Overlay [ex_layer; ex_lower] [] true) [Some (EOther 1); None; Some (EOther 2)]) = Some (EJoin (EOther 1) (EOther 2)) /\
  map so_fs_closed (fst (close_overlay (Overlay [ex_layer; ex_lower] [] true) [Some (EOther 1)])) = [1; 1] /\
  close_overlay (sub_view (Overlay [ex_layer] [] true)) [Some (EOther 1)] = ([ex_layer], None).
Proof. repeat split. Qed.
