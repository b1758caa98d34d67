(* C94: the tree tarfs shows is the one that extracting the archive would leave. *)
From Verif Require Import Common CommonLemmas ContentRange_Model PathLex_Model PathLex_Proofs CopyFs_Model TarFs_Model TarFs_Spec TarFs_Proofs TarFs_Props Views_Spec TarExtract_Spec TarExtract_Proofs.
Open Scope nat_scope.

(* "d/f" before its directory, "d", "e", "e/l" -> "../d/f", "d/f" once more under another
   spelling, hard link "h" = "d/f", a link out of the tree. *)
Definition arch2 : list hdr :=
  [Hdr ndf TReg [] 1; Hdr nd TDir [] 2; Hdr ne TDir [] 3; Hdr nel TSym up_df 4; Hdr (dot :: sep :: ndf) TReg [] 6; Hdr nh TLink ndf 5; Hdr [120%N] TSym [sep] 7].

(* Every place holds the same kind of thing from the same entry, and nothing else is there. *)
Theorem C94_tree_partial o arch c : tame o arch -> c <> [] ->
  matches (tar_new o arch) (extract arch c) (tfind (tar_new o arch) c).
Proof. exact (tree_matches o arch c). Qed.
Print Assumptions C94_tree_partial.

(* Opening a name reads the bytes and reports the header that following it on the disk finds,
   and opens nothing else. *)
Theorem C94_open_partial o arch rt sub name : tame o arch -> sub = [] \/ (exists h, extract arch sub = Some (XDir h)) -> Forall proper (split_sep name) ->
  (forall n q, xwalk (extract arch) rt sub sub (split_sep name) n q -> n <= 40 ->
     exists r f0, reads (extract arch) q r /\ forall f, f0 <= f -> tar_open f (tar_new o arch) rt sub name = r) /\
  (forall f, (exists d i, tar_open f (tar_new o arch) rt sub name = OpFile d i) \/ (exists d i, tar_open f (tar_new o arch) rt sub name = OpDir d i) ->
     exists n q, xwalk (extract arch) rt sub sub (split_sep name) n q /\ n <= 40 /\ reads (extract arch) q (tar_open f (tar_new o arch) rt sub name)).
Proof. exact (open_extracted o arch rt sub name). Qed.
Print Assumptions C94_open_partial.

(* Lstat does not follow the last name. *)
Theorem C94_lstat_partial o arch rt sub name dirs x n d h : tame o arch -> Forall proper (split_sep name) -> split_sep name = dirs ++ [x] ->
  xwalk (extract arch) rt sub sub dirs n d -> n <= 40 -> xhead (extract arch (d ++ [x])) = Some h ->
  exists f0, forall f, f0 <= f -> tar_lstat f (tar_new o arch) rt sub name = LsInfo h.
Proof. exact (lstat_extracted o arch rt sub name dirs x n d h). Qed.
Print Assumptions C94_lstat_partial.

(* A directory lists exactly the names extraction leaves in it, each once. *)
Theorem C94_listing_partial o arch c : tame o arch -> all_named arch -> c = [] \/ (exists h, extract arch c = Some (XDir h)) ->
  exists h files ordered hs, tfind (tar_new o arch) c = Some (NDir h files ordered) /\ list_dir (NDir h files ordered) = Some hs /\ NoDup (map place hs) /\
    forall h', In h' hs <-> exists n, xhead (extract arch (c ++ [n])) = Some h'.
Proof. exact (listing_extracted o arch c). Qed.
Print Assumptions C94_listing_partial.

Lemma only_link pre x post a h b : Forall (fun y => h_type y <> TLink) pre -> Forall (fun y => h_type y <> TLink) post -> pre ++ x :: post = a ++ h :: b -> h_type h = TLink ->
  a = pre /\ h = x /\ b = post.
Proof.
  intros Hpre Hpost. revert a. induction Hpre as [|y pre Hy Hpre IH]; intros [|z a] E Ht; cbn in E.
  - repeat split; congruence.
  - exfalso. assert (In h post) as Hin by (assert (post = a ++ h :: b) as -> by congruence; apply in_elt). rewrite Forall_forall in Hpost. exact (Hpost h Hin Ht).
  - exfalso. apply Hy. congruence.
  - destruct (IH a) as (-> & -> & ->); [congruence|exact Ht|]. repeat split; congruence.
Qed.
Definition treeb (arch : list hdr) : bool :=
  forallb (fun h => forallb (fun h' => match h_type h with TDir => true | _ => match place h with [] => false | _ => negb (is_above (place h) (place h')) end end) arch) arch.
Lemma treeb_ok arch : treeb arch = true -> forall h h', In h arch -> In h' arch -> h_type h <> TDir -> place h <> [] /\ ~ above (place h) (place h').
Proof.
  intros H h h' Hh Hh' Ht. unfold treeb in H. rewrite forallb_forall in H. specialize (H h Hh). rewrite forallb_forall in H. specialize (H h' Hh').
  destruct (h_type h); try contradiction; (destruct (place h) eqn:E; [discriminate|]; split; [discriminate|]; intros Ha; apply above_spec in Ha; rewrite Ha in H; discriminate).
Qed.
Lemma arch2_tame : tame opts arch2.
Proof.
  constructor.
  - apply no_dottedb_ok. reflexivity.
  - unfold arch2. repeat (apply Forall_cons; [split; [reflexivity|split; [vm_compute; discriminate|vm_compute; exact I || reflexivity]]|]). apply Forall_nil.
  - apply treeb_ok. vm_compute. reflexivity.
  - intros a h b E Ht. destruct (only_link (firstn 5 arch2) (Hdr nh TLink ndf 5) [Hdr [120%N] TSym [sep] 7] a h b) as (-> & -> & ->).
    + unfold arch2. cbn [firstn]. repeat (apply Forall_cons; [discriminate|]). apply Forall_nil.
    + apply Forall_cons; [discriminate|apply Forall_nil].
    + exact E.
    + exact Ht.
    + split; [split; [reflexivity|match goal with |- Forall proper ?l => change (Forall proper [nd; [102%N]]) end; apply Forall_cons; [|apply Forall_cons; [|apply Forall_nil]]; (split; [discriminate|split; [discriminate|split; [discriminate|intros [H|[]]; discriminate]]])]|]. split.
      * repeat (apply Forall_cons; [vm_compute; discriminate|]). apply Forall_nil.
      * exists (firstn 4 arch2), (Hdr (dot :: sep :: ndf) TReg [] 6), []. repeat split. apply Forall_nil.
  - intros h H Ht Hr. unfold arch2 in H. cbn [In] in H. repeat (destruct H as [<-|H]; [try discriminate|]); [|destruct H].
    exists [[dot; dot]; nd], [102%N]. split; [reflexivity|discriminate].
Qed.
Lemma arch2_places c : extract arch2 c = Some (XDir None) -> c = [].
Proof.
  intros H. destruct (extract_shows opts arch2 arch2_tame) as [_ S1 _ _ S4]. destruct c as [|x c]; [reflexivity|exfalso]. set (p := x :: c) in *. assert (p <> []) as Hp by discriminate. clearbody p. clear x c.
  destruct (has_dec arch2 p) as [Hh|Hh].
  - destruct Hh as (h & Hin & E). unfold arch2 in Hin. cbn [In] in Hin. repeat (destruct Hin as [<-|Hin]; [subst p; vm_compute in H; discriminate|]). destruct Hin.
  - destruct (under_dec arch2 p) as [(h & Hin & x & r & E)|Hu]; [|rewrite (S4 p Hp Hh Hu) in H; discriminate]. unfold arch2 in Hin. cbn [In] in Hin. destruct p as [|a p]; [contradiction|].
    repeat (destruct Hin as [<-|Hin]; [vm_compute in E; destruct p as [|b [|b2 p]]; cbn in E; try discriminate; apply (f_equal (hd [])) in E; cbn in E; subst a; vm_compute in H; discriminate|]). destruct Hin.
Qed.
Example C94_met : tame opts arch2 /\ all_named arch2 /\
  xwalk (extract arch2) true [] [] (split_sep nel) 1 (split_sep ndf) /\ extract arch2 (split_sep ndf) = Some (XFile (Hdr (dot :: sep :: ndf) TReg [] 6)) /\
  extract arch2 [nh] = Some (XHard (Hdr nh TLink ndf 5) (Hdr (dot :: sep :: ndf) TReg [] 6)) /\
  tar_open 60 (tar_new opts arch2) true [] nh = OpFile (Hdr (dot :: sep :: ndf) TReg [] 6) (Hdr nh TLink ndf 5).
Proof.
  split; [exact arch2_tame|]. split; [intros c Hc E; apply Hc, arch2_places; exact E|]. split; [|repeat split; vm_compute; reflexivity].
  change (split_sep nel) with [ne; [108%N]]. eapply XWDir; [discriminate|vm_compute; reflexivity|]. eapply XWSym; [discriminate|vm_compute; reflexivity|reflexivity|].
  change (link_place (Hdr nel TSym up_df 4) ++ []) with [[dot; dot]; nd; [102%N]]. apply XWUp; [discriminate|discriminate|]. cbn [removelast app]. eapply XWDir; [discriminate|vm_compute; reflexivity|]. eapply XWFile; [discriminate|vm_compute; reflexivity].
Qed.

(* An entry with a leading slash: extraction drops the slash, tarfs never finds it. *)
Theorem C94_absolute_name_refuted : exists arch h, arch = [h] /\ h_type h = TReg /\ extract arch [nd] = Some (XFile h) /\
  forall f, tar_open (S f) (tar_new opts arch) true [] nd = OpErr ENotExist.
Proof. exists [Hdr (sep :: nd) TReg [] 1], (Hdr (sep :: nd) TReg [] 1). repeat split. Qed.
Print Assumptions C94_absolute_name_refuted.

(* A file that comes again after a hard link to it: the link keeps the bytes of the earlier
   entry on disk, and shows those of the later one in tarfs. *)
Theorem C94_link_to_replaced_refuted : exists d1 l d2, file_type d1 /\ file_type d2 /\ d1 <> d2 /\
  extract [d1; l; d2] [nh] = Some (XHard l d1) /\
  forall f, tar_open (S (S f)) (tar_new opts [d1; l; d2]) true [] nh = OpFile d2 l.
Proof. exists (Hdr nd TReg [] 1), (Hdr nh TLink nd 2), (Hdr nd TReg [] 3). repeat split; try discriminate. Qed.
Print Assumptions C94_link_to_replaced_refuted.
