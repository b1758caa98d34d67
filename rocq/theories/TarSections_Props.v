(* C67: every entry of an archive is found where it is, and opens as its own content. *)
From Verif Require Import Common MultiRead_Model MultiRead_Spec TarNum_Spec TarSparse_Model TarSparse_Spec TarSections_Model TarSections_Spec TarSections_Proofs.
Open Scope Z_scope.

(* Whatever stands before an entry: its header begins and ends, and its stored bytes end,
   where they were written; the holes are those of the map written for it, in each of the
   formats, and none for a file without a map. *)
Theorem C67_finds_every_entry_partial : forall trailer es,
  Forall entry_ok es -> Forall no_cont es -> places 0 es (sections (archive es trailer) (nexts 0 es)).
Proof. exact sections_places. Qed.
Print Assumptions C67_finds_every_entry_partial.

(* A file without a map opens as its stored bytes. *)
Theorem C67_plain_content_partial : forall trailer es i e,
  Forall entry_ok es -> Forall no_cont es -> nth_error es i = Some e -> e_map e = NoMap ->
  exists s, nth_error (sections (archive es trailer) (nexts 0 es)) i = Some s /\ s_head s = e_head e /\ s_holes s = None /\
  plain_bytes (archive es trailer) s = e_stored e.
Proof. exact plain_content. Qed.
Print Assumptions C67_plain_content_partial.

(* A file with a map reads, through any history of Read, ReadAt and Seek, as one cursor over
   the file that map describes. *)
Theorem C67_sparse_content_partial : forall trailer es i e ops,
  Forall entry_ok es -> Forall no_cont es -> nth_error es i = Some e -> e_map e <> NoMap -> Forall op_ok ops ->
  exists s holes, nth_error (sections (archive es trailer) (nexts 0 es)) i = Some s /\ s_head s = e_head e /\ s_holes s = Some holes /\
  exists content, is_sparse_file (the_map (e_map e)) (e_stored e) (th_size (e_head e)) content /\
  let m := new_multi (make_reader (archive es trailer) (s_end s) holes (th_size (s_head s))) in
  cur_run content 0 ops (fst (mrun m ops)) (m_off (snd (mrun m ops))).
Proof. exact sparse_content. Qed.
Print Assumptions C67_sparse_content_partial.

(* Finding: a contiguous file ('7') has content for archive/tar and none for Sections. It
   opens empty, and the sparse file after it, with 3 stored bytes, is looked for inside that
   content and opens as zeros. *)
Theorem C67_contiguous_file_refuted : exists es s t,
  Forall entry_ok es /\ map (fun e => zlen (e_stored e)) es = [512; 3] /\
  sections (archive es (zeros 1024)) (nexts 0 es) = [s; t] /\
  plain_bytes (archive es (zeros 1024)) s = [] /\
  ~ place (zlen (entry_bytes (hd ex_old es))) (nth 1 es ex_cont) t /\
  map e_map es = [NoMap; OldMap [(2, 3)] []] /\ s_holes t = Some [(0, 6)].
Proof. exact contiguous_breaks. Qed.
Print Assumptions C67_contiguous_file_refuted.

(* An archive with an entry of each kind. *)
Example C67_hypotheses_met : Forall entry_ok ex_all /\ Forall no_cont ex_all /\
  map (fun s => (s_start s, s_end s, s_body_end s)) (sections (archive ex_all (zeros 1024)) (nexts 0 ex_all)) =
  [(0, 532, 532); (1024, 1536, 1536); (1536, 4608, 5308); (5632, 6656, 6663); (7168, 8704, 8708); (9216, 11264, 11268); (11776, 12288, 12288); (12288, 12800, 12803)] /\
  map e_map ex_all = [NoMap; NoMap; NoMap; OldMap [(2, 3); (7, 1); (9, 1); (11, 1)] [[(13, 1); (20, 0)]]; Map01 [(0, 1); (5, 3)]; Map10 [(0, 1); (5, 3)]; NoMap; OldMap [(2, 3)] []].
Proof. split; [exact (proj1 ex_all_ok)|]. split; [exact (proj2 ex_all_ok)|]. split; vm_compute; reflexivity. Qed.
