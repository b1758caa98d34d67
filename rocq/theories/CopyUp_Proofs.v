(* Copy-ups leave whole files, clean up after themselves, and never collide. *)
From Verif Require Import Common CommonLemmas ContentRange_Model ContentRange_Proofs TempName_Model TempName_Proofs Overlay_Model Overlay_Spec Overlay_Proofs CopyUp_Model CopyUp_Spec.
Open Scope nat_scope.

(* --- files --- *)
Lemma get_put f p x q : get (put f p x) q = if path_eqb q p then Some x else get f q.
Proof.
  unfold put. cbn [get]. destruct (path_eqb q p) eqn:E; [reflexivity|].
  induction f as [|[r y] f IH]; [reflexivity|]. cbn [filter fst]. destruct (path_eqb p r) eqn:Er; cbn [negb get].
  - apply path_eqb_eq in Er. subst r. rewrite E. exact IH.
  - destruct (path_eqb q r); [reflexivity|exact IH].
Qed.
Lemma get_del f p q : get (del f p) q = if path_eqb q p then None else get f q.
Proof.
  unfold del. induction f as [|[r y] f IH]; [destruct (path_eqb q p); reflexivity|]. cbn [filter fst]. destruct (path_eqb p r) eqn:Er; cbn [negb get].
  - apply path_eqb_eq in Er. subst r. rewrite IH. destruct (path_eqb q p); reflexivity.
  - rewrite IH. destruct (path_eqb q p) eqn:E; [|reflexivity]. apply path_eqb_eq in E. subst q. rewrite Er. reflexivity.
Qed.
Lemma get_del_all f p q : get (del_all f p) q = if within p q then None else get f q.
Proof.
  unfold del_all. induction f as [|[r y] f IH]; [destruct (within p q); reflexivity|]. cbn [filter fst]. destruct (within p r) eqn:Er; cbn [negb get].
  - rewrite IH. destruct (within p q) eqn:E; [reflexivity|]. destruct (path_eqb q r) eqn:Eq; [|reflexivity]. apply path_eqb_eq in Eq. congruence.
  - rewrite IH. destruct (within p q) eqn:E; [|reflexivity]. destruct (path_eqb q r) eqn:Eq; [|reflexivity]. apply path_eqb_eq in Eq. congruence.
Qed.
Lemma a_dir_iff f p : a_dir f p = true <-> is_dir_in f p.
Proof.
  unfold a_dir, is_dir_in. destruct p as [|c q]; [tauto|]. split.
  - destruct (get f (c :: q)) as [[m t|m t d|t|m]|] eqn:E; try discriminate. intros _. right. exists m, t. reflexivity.
  - intros [H | (m & t & ->)]; [discriminate|reflexivity].
Qed.

(* --- triples --- *)
(* From P, with answers of the kind ok, m ends in Q, having used up a beginning of the answers. *)
Definition triple {A} (ok : answer -> Prop) (P : world -> Prop) (m : M A) (Q : res A -> world -> Prop) : Prop :=
  forall w s w' s' r, Forall ok s -> P w -> m w s = (w', s', r) -> (exists u, s = u ++ s') /\ Q r w'.

Lemma triple_weak {A} ok (P P' : world -> Prop) (m : M A) (Q Q' : res A -> world -> Prop) :
  triple ok P m Q -> (forall w, P' w -> P w) -> (forall r w, Q r w -> Q' r w) -> triple ok P' m Q'.
Proof. intros H HP HQ w s w' s' r Hs Hw E. destruct (H w s w' s' r Hs (HP _ Hw) E) as [H1 H2]. split; [exact H1|apply HQ, H2]. Qed.
Lemma triple_ret {A} ok (a : A) (Q : res A -> world -> Prop) : triple ok (Q (Val a)) (ret a) Q.
Proof. intros w s w' s' r Hs Hw E. unfold ret in E. inversion E; subst. split; [exists []; reflexivity|exact Hw]. Qed.
Lemma triple_fail {A} ok (Q : res A -> world -> Prop) : triple ok (Q Err) fail Q.
Proof. intros w s w' s' r Hs Hw E. unfold fail in E. inversion E; subst. split; [exists []; reflexivity|exact Hw]. Qed.
Lemma triple_pure {A} ok (P : world -> Prop) (C : Prop) (m : M A) Q : (C -> triple ok P m Q) -> triple ok (fun w => P w /\ C) m Q.
Proof. intros H w s w' s' r Hs [Hw Hc] E. exact (H Hc w s w' s' r Hs Hw E). Qed.
Lemma forall_tail {X} (ok : X -> Prop) u s : Forall ok (u ++ s) -> Forall ok s.
Proof. intros H. apply Forall_app in H. apply H. Qed.
Lemma triple_bind {A B} ok P (m : M A) (k : A -> M B) (R : res A -> world -> Prop) Q :
  triple ok P m R -> (forall a, triple ok (R (Val a)) (k a) Q) -> (forall w, R Err w -> Q Err w) -> (forall w, R Died w -> Q Died w) ->
  triple ok P (bind m k) Q.
Proof.
  intros Hm Hk He Hd w s w' s' r Hs Hw E. unfold bind in E. destruct (m w s) as [[w1 s1] r1] eqn:E1.
  destruct (Hm _ _ _ _ _ Hs Hw E1) as [[u Hu] H1]. destruct r1 as [a| |].
  - assert (Hs1 : Forall ok s1) by (rewrite Hu in Hs; exact (forall_tail _ _ _ Hs)).
    destruct (Hk a _ _ _ _ _ Hs1 H1 E) as [[v Hv] H2]. split; [|exact H2]. exists (u ++ v). rewrite Hu, Hv, app_assoc. reflexivity.
  - inversion E; subst. split; [exists u; reflexivity|apply He, H1].
  - inversion E; subst. split; [exists u; reflexivity|apply Hd, H1].
Qed.
(* A call, answer by answer. *)
Lemma triple_call (ok : answer -> Prop) (P : world -> Prop) op (Q : res unit -> world -> Prop) :
  (forall w, P w -> Q Died w) ->
  (forall w, P w -> (ok Refused \/ op w = None) -> Q Err w) ->
  (forall w w', P w -> op w = Some w' -> Q (Val tt) w') ->
  (forall w w' k, P w -> ok (Late k) -> op w = Some w' -> Q Err w') ->
  triple ok P (call op) Q.
Proof.
  intros H1 H2 H3 H4 w s w' s' r Hs Hw E. unfold call in E. destruct s as [|[k| |k] s].
  - inversion E; subst. split; [exists []; reflexivity|apply H1, Hw].
  - destruct (op w) as [w1|] eqn:Eo; inversion E; subst; (split; [eexists [_]; reflexivity|]); [apply (H3 w); assumption|apply H2; auto].
  - inversion E; subst. split; [eexists [_]; reflexivity|]. apply H2; [exact Hw|]. left. inversion Hs; assumption.
  - inversion Hs as [|a l Ha Hl]; subst.
    destruct (op w) as [w1|] eqn:Eo; inversion E; subst; (split; [eexists [_]; reflexivity|]); [apply (H4 w w' k); assumption|apply H2; auto].
Qed.
Lemma triple_ask {A} ok (P : world -> Prop) (v : world -> A) (Q : res A -> world -> Prop) :
  (forall w, P w -> Q Died w) -> (forall w, P w -> (ok Refused \/ exists k, ok (Late k)) -> Q Err w) -> (forall w, P w -> Q (Val (v w)) w) -> triple ok P (ask v) Q.
Proof.
  intros H1 H2 H3 w s w' s' r Hs Hw E. unfold ask in E. destruct s as [|[k| |k] s]; inversion E; subst.
  - split; [exists []; reflexivity|apply H1, Hw].
  - split; [eexists [_]; reflexivity|apply H3, Hw].
  - split; [eexists [_]; reflexivity|]. apply H2; [exact Hw|]. left. inversion Hs; assumption.
  - split; [eexists [_]; reflexivity|]. apply H2; [exact Hw|]. right. exists k. inversion Hs; assumption.
Qed.
Lemma triple_ignore ok (P : world -> Prop) m (Q R : res unit -> world -> Prop) :
  triple ok P m R -> (forall w, R Err w -> Q (Val tt) w) -> (forall w, R (Val tt) w -> Q (Val tt) w) -> (forall w, R Died w -> Q Died w) ->
  triple ok P (ignore m) Q.
Proof.
  intros H He Hv Hd w s w' s' r Hs Hw E. unfold ignore in E. destruct (m w s) as [[w1 s1] r1] eqn:E1.
  destruct (H _ _ _ _ _ Hs Hw E1) as [Hu H1]. destruct r1 as [[]| |]; inversion E; subst; (split; [exact Hu|]); [apply Hv|apply He|apply Hd]; exact H1.
Qed.
Lemma triple_is_ok ok (P : world -> Prop) m (Q : res bool -> world -> Prop) (R : res unit -> world -> Prop) :
  triple ok P m R -> (forall w, R Err w -> Q (Val false) w) -> (forall w, R (Val tt) w -> Q (Val true) w) -> (forall w, R Died w -> Q Died w) ->
  triple ok P (is_ok m) Q.
Proof.
  intros H He Hv Hd w s w' s' r Hs Hw E. unfold is_ok in E. destruct (m w s) as [[w1 s1] r1] eqn:E1.
  destruct (H _ _ _ _ _ Hs Hw E1) as [Hu H1]. destruct r1 as [[]| |]; inversion E; subst; (split; [exact Hu|]); [apply Hv|apply He|apply Hd]; exact H1.
Qed.
Lemma triple_or_clean {A} ok P (m : M A) c (R : res A -> world -> Prop) (C : res unit -> world -> Prop) (Q : res A -> world -> Prop) :
  triple ok P m R -> triple ok (R Err) c C -> (forall a w, R (Val a) w -> Q (Val a) w) -> (forall w, R Died w -> Q Died w) ->
  (forall w, C Err w -> Q Err w) -> (forall w, C (Val tt) w -> Q Err w) -> (forall w, C Died w -> Q Died w) ->
  triple ok P (or_clean m c) Q.
Proof.
  intros Hm Hc H1 H2 H3 H4 H5 w s w' s' r Hs Hw E. unfold or_clean in E. destruct (m w s) as [[w1 s1] r1] eqn:E1.
  destruct (Hm _ _ _ _ _ Hs Hw E1) as [[u Hu] Hr]. destruct r1 as [a| |].
  - inversion E; subst. split; [exists u; reflexivity|apply H1, Hr].
  - assert (Hs1 : Forall ok s1) by (rewrite Hu in Hs; exact (forall_tail _ _ _ Hs)).
    destruct (c w1 s1) as [[w2 s2] r2] eqn:E2. destruct (Hc _ _ _ _ _ Hs1 Hr E2) as [[v Hv] Hr2].
    assert (Hx : exists x, s = x ++ s2) by (exists (u ++ v); rewrite Hu, Hv, app_assoc; reflexivity).
    destruct r2 as [[]| |]; inversion E; subst w' s' r; (split; [exact Hx|]); auto.
  - inversion E; subst. split; [exists u; reflexivity|apply H2, Hr].
Qed.

(* --- attributes --- *)
Definition strict (ok : answer -> Prop) : Prop := ~ ok Refused /\ forall k, ~ ok (Late k).
Definition builder (B : N -> Z -> item) : Prop := forall q w m1 t1, get (k_fs w) q = Some (B m1 t1) ->
  (forall m, f_chmod q m w = Some (set_fs (put (k_fs w) q (B m t1)) w)) /\ (forall t, f_chtimes q t w = Some (set_fs (put (k_fs w) q (B m1 t)) w)).
Lemma builder_dir : builder IDir.
Proof. intros q w m1 t1 H. unfold f_chmod, f_chtimes. rewrite H. split; reflexivity. Qed.
Lemma builder_file d : builder (fun m t => IFile m t d).
Proof. intros q w m1 t1 H. unfold f_chmod, f_chtimes. rewrite H. split; reflexivity. Qed.
(* Only q changes between w and w'. *)
Definition upd (w w' : world) (q : path) (x : item) : Prop :=
  k_next w' = k_next w /\ forall a, get (k_fs w') a = if path_eqb a q then Some x else get (k_fs w) a.
Lemma upd_put w q x : upd w (set_fs (put (k_fs w) q x) w) q x.
Proof. split; [reflexivity|]. intros a. cbn [k_fs set_fs]. apply get_put. Qed.
Lemma upd_at w w' q x : upd w w' q x -> get (k_fs w') q = Some x.
Proof. intros [_ H]. rewrite H, path_eqb_refl. reflexivity. Qed.

Lemma attrs_triple ok (I : world -> Prop) B q m t m1 t1 : builder B ->
  (forall w w' a b c d, I w -> get (k_fs w) q = Some (B a b) -> upd w w' q (B c d) -> I w') ->
  triple ok (fun w => I w /\ get (k_fs w) q = Some (B m1 t1)) (copy_attrs q m t)
    (fun r w => I w /\ r <> Err /\ exists m' t', get (k_fs w) q = Some (B m' t') /\ (m' = m1 \/ m' = N.land m 511) /\ (t' = t1 \/ t' = t) /\
       (r = Val tt -> strict ok -> m' = N.land m 511 /\ t' = t)).
Proof.
  intros HB HI. unfold copy_attrs. change (perm m) with (N.land m 511).
  apply (triple_bind _ _ _ _ (fun r w => I w /\ r <> Err /\ exists m', get (k_fs w) q = Some (B m' t1) /\ (m' = m1 \/ m' = N.land m 511) /\ (r = Val tt -> strict ok -> m' = N.land m 511))).
  - apply (triple_ignore _ _ _ _ (fun r w => I w /\ exists m', get (k_fs w) q = Some (B m' t1) /\ (m' = m1 \/ m' = N.land m 511) /\ (strict ok -> r <> Died -> m' = N.land m 511))).
    + apply triple_call.
      * intros w [Hw Hg]. split; [exact Hw|]. exists m1. split; [exact Hg|]. split; [left; reflexivity|]. intros _ H. contradiction.
      * intros w [Hw Hg] Hr. split; [exact Hw|]. exists m1. split; [exact Hg|]. split; [left; reflexivity|]. intros [H1 _] _.
        destruct Hr as [Hr|Hr]; [contradiction|]. destruct (HB _ _ _ _ Hg) as [Hc _]. rewrite Hc in Hr. discriminate.
      * intros w w' [Hw Hg] Ho. destruct (HB _ _ _ _ Hg) as [Hc _]. rewrite Hc in Ho. apply some_inj in Ho. subst w'.
        pose proof (upd_put w q (B (N.land m 511) t1)) as Hu. split; [exact (HI _ _ _ _ _ _ Hw Hg Hu)|]. exists (N.land m 511). split; [exact (upd_at _ _ _ _ Hu)|]. auto.
      * intros w w' k [Hw Hg] Hk Ho. destruct (HB _ _ _ _ Hg) as [Hc _]. rewrite Hc in Ho. apply some_inj in Ho. subst w'.
        pose proof (upd_put w q (B (N.land m 511) t1)) as Hu. split; [exact (HI _ _ _ _ _ _ Hw Hg Hu)|]. exists (N.land m 511). split; [exact (upd_at _ _ _ _ Hu)|]. auto.
    + intros w [Hw (m' & H1 & H2 & H3)]. split; [exact Hw|]. split; [discriminate|]. exists m'. split; [exact H1|]. split; [exact H2|]. intros _ Hs. apply H3; [exact Hs|discriminate].
    + intros w [Hw (m' & H1 & H2 & H3)]. split; [exact Hw|]. split; [discriminate|]. exists m'. split; [exact H1|]. split; [exact H2|]. intros _ Hs. apply H3; [exact Hs|discriminate].
    + intros w [Hw (m' & H1 & H2 & H3)]. split; [exact Hw|]. split; [discriminate|]. exists m'. split; [exact H1|]. split; [exact H2|]. discriminate.
  - intros a. apply (triple_ignore _ _ _ _ (fun r w => I w /\ exists m' t', get (k_fs w) q = Some (B m' t') /\ (m' = m1 \/ m' = N.land m 511) /\ (t' = t1 \/ t' = t) /\ (strict ok -> r <> Died -> m' = N.land m 511 /\ t' = t))).
    + apply triple_call.
      * intros w (Hw & _ & m' & Hg & Hm & Hs). split; [exact Hw|]. exists m', t1. split; [exact Hg|]. split; [exact Hm|]. split; [left; reflexivity|]. intros _ H. contradiction.
      * intros w (Hw & _ & m' & Hg & Hm & Hs) Hr. split; [exact Hw|]. exists m', t1. split; [exact Hg|]. split; [exact Hm|]. split; [left; reflexivity|]. intros [H1 _] _.
        destruct Hr as [Hr|Hr]; [contradiction|]. destruct (HB _ _ _ _ Hg) as [_ Hc]. rewrite Hc in Hr. discriminate.
      * intros w w' (Hw & _ & m' & Hg & Hm & Hs) Ho. destruct (HB _ _ _ _ Hg) as [_ Hc]. rewrite Hc in Ho. apply some_inj in Ho. subst w'.
        pose proof (upd_put w q (B m' t)) as Hu. split; [exact (HI _ _ _ _ _ _ Hw Hg Hu)|]. exists m', t. split; [exact (upd_at _ _ _ _ Hu)|]. split; [exact Hm|]. split; [right; reflexivity|].
        intros H _. split; [apply Hs; [destruct a; reflexivity|exact H]|reflexivity].
      * intros w w' k (Hw & _ & m' & Hg & Hm & Hs) Hk Ho. destruct (HB _ _ _ _ Hg) as [_ Hc]. rewrite Hc in Ho. apply some_inj in Ho. subst w'.
        pose proof (upd_put w q (B m' t)) as Hu. split; [exact (HI _ _ _ _ _ _ Hw Hg Hu)|]. exists m', t. split; [exact (upd_at _ _ _ _ Hu)|]. split; [exact Hm|]. split; [right; reflexivity|].
        intros H _. split; [apply Hs; [destruct a; reflexivity|exact H]|reflexivity].
    + intros w (Hw & m' & t' & H1 & H2 & H3 & H4). split; [exact Hw|]. split; [discriminate|]. exists m', t'. split; [exact H1|]. split; [exact H2|]. split; [exact H3|]. intros _ Hs. apply H4; [exact Hs|discriminate].
    + intros w (Hw & m' & t' & H1 & H2 & H3 & H4). split; [exact Hw|]. split; [discriminate|]. exists m', t'. split; [exact H1|]. split; [exact H2|]. split; [exact H3|]. intros _ Hs. apply H4; [exact Hs|discriminate].
    + intros w (Hw & m' & t' & H1 & H2 & H3 & H4). split; [exact Hw|]. split; [discriminate|]. exists m', t'. split; [exact H1|]. split; [exact H2|]. split; [exact H3|]. discriminate.
  - intros w (_ & H & _). contradiction.
  - intros w (Hw & _ & m' & Hg & Hm & Hs). split; [exact Hw|]. split; [discriminate|]. exists m', t1. split; [exact Hg|]. split; [exact Hm|]. split; [left; reflexivity|]. discriminate.
Qed.

(* --- the directories on the way --- *)
Section Run.
Variable umask : N.
Variable now : Z.
Variables stage content : path.
Hypothesis Hap : apart stage content.
Variable src : source.
Variable c0 : name.
Variable p0 : path.
Notation p := (c0 :: p0).
Variable w0 : world.
Notation n0 := ((k_next w0 + 1) mod 18446744073709551616)%N.
Notation tmp := (staging_path stage n0).
Notation dst := (p ++ content).
Hypothesis Hdst : get (k_fs w0) dst = None.

Lemma tmp_out n q : staging_path stage n <> q ++ content.
Proof.
  intros E. destruct Hap as [H1 H2]. unfold staging_path in E.
  assert (H : under content (staging_path stage n)) by (exists q; exact E).
  unfold staging_path in H. apply under_inv in H as [H|H]; [|exact (H2 H)].
  apply H1. rewrite H. apply under_cons, under_refl.
Qed.
Lemma dst_out a : passes p a -> dst <> a ++ content.
Proof.
  intros [_ H] E. apply app_inv_tail in E. apply strictly_under_iff in H. destruct H as [_ H]. congruence.
Qed.

(* q is as it was, or a directory p passes through, up to b, that was missing. *)
Definition grown_at (b : path) (w : world) (q : path) : Prop :=
  get (k_fs w) q = get (k_fs w0) q \/
  (get (k_fs w0) q = None /\ exists a, passes p a /\ under a b /\ q = a ++ content /\ exists m t, get (k_fs w) q = Some (IDir m t)).
(* Such a directory carries the source's mode and time, or 0777. *)
Definition described_at (w : world) (a : path) : Prop :=
  get (k_fs w) (a ++ content) = get (k_fs w0) (a ++ content) \/
  match s_stat src a with Some (m, t) => get (k_fs w) (a ++ content) = Some (IDir (N.land m 511) t) | None => exists t, get (k_fs w) (a ++ content) = Some (IDir (N.ldiff 511 umask) t) end.

Section Kind.
Variable ok : answer -> Prop.
Definition grown (b : path) (w : world) : Prop := k_next w = k_next w0 /\ forall q, grown_at b w q.
Definition told (b : path) (w : world) : Prop := forall a, passes p a -> under a b -> get (k_fs w) (a ++ content) <> None /\ (strict ok -> described_at w a).

Lemma grown_more b c w : grown b w -> grown (c :: b) w.
Proof.
  intros [H1 H2]. split; [exact H1|]. intros q. destruct (H2 q) as [H|(H & a & Ha & Hu & E & Hd)]; [left; exact H|right].
  split; [exact H|]. exists a. split; [exact Ha|]. split; [apply under_cons, Hu|]. auto.
Qed.
Lemma grown_dir b a w w' m t : grown b w -> passes p a -> under a b -> get (k_fs w0) (a ++ content) = None -> upd w w' (a ++ content) (IDir m t) -> grown b w'.
Proof.
  intros [H1 H2] Ha Hu H0 [Hn Hg]. split; [congruence|]. intros q. unfold grown_at. rewrite Hg. destruct (path_eqb q (a ++ content)) eqn:E.
  - apply path_eqb_eq in E. subst q. right. split; [exact H0|]. exists a. split; [exact Ha|]. split; [exact Hu|]. split; [reflexivity|]. exists m, t. reflexivity.
  - apply H2.
Qed.
Lemma grown_not_yet b c w : grown b w -> get (k_fs w) ((c :: b) ++ content) = get (k_fs w0) ((c :: b) ++ content).
Proof.
  intros [_ H]. destruct (H ((c :: b) ++ content)) as [E|(_ & a & _ & Hu & E & _)]; [exact E|].
  apply app_inv_tail in E. subst a. apply under_len in Hu. cbn in Hu. lia.
Qed.
Lemma passes_inv a : a <> [] -> under a p0 -> passes p a.
Proof. intros H1 H2. split; [exact H1|]. apply strictly_cons, H2. Qed.
Lemma told_upd b c w w' x : told b w -> upd w w' ((c :: b) ++ content) x -> told b w'.
Proof.
  intros H [_ Hg] a Ha Hab. destruct (H a Ha Hab) as [H1 H2].
  assert (Hn : path_eqb (a ++ content) ((c :: b) ++ content) = false).
  { apply path_eqb_neq. intros E. apply app_inv_tail in E. subst a. apply under_len in Hab. cbn in Hab. lia. }
  split; [rewrite Hg, Hn; exact H1|]. intros Hs. unfold described_at. rewrite Hg, Hn. apply H2, Hs.
Qed.
Lemma told_more b c w : told b w -> get (k_fs w) ((c :: b) ++ content) <> None -> (strict ok -> described_at w (c :: b)) -> told (c :: b) w.
Proof.
  intros H H1 H2 a Ha Hu. destruct (path_dec a (c :: b)) as [->|Hne]; [split; assumption|].
  apply H; [exact Ha|]. apply under_inv in Hu as [Hu|Hu]; [contradiction|exact Hu].
Qed.

Lemma mkdir_upd q m w w' : f_mkdir umask now q m w = Some w' -> get (k_fs w) q = None /\ upd w w' q (IDir (N.ldiff m umask) now).
Proof.
  unfold f_mkdir. destruct (get (k_fs w) q) eqn:E; [discriminate|]. destruct (a_dir _ _); [|discriminate].
  intros H. apply some_inj in H. subst w'. split; [reflexivity|apply upd_put].
Qed.

(* Nothing stands in the way. *)
Definition free_way : Prop := is_dir_in (k_fs w0) content /\ clear_way content p (k_fs w0).
Lemma way_dir b w : free_way -> under b p0 -> grown b w -> told b w -> a_dir (k_fs w) (b ++ content) = true.
Proof.
  intros [H1 H2] Hb Hg Ht. apply a_dir_iff. destruct b as [|c b].
  - cbn [app]. destruct H1 as [H1|(m & t & H1)]; [left; exact H1|right]. destruct Hg as [_ Hg]. destruct (Hg content) as [E|(E & _)]; [|congruence].
    exists m, t. congruence.
  - right. assert (Hp : passes p (c :: b)) by (apply passes_inv; [discriminate|exact Hb]).
    destruct Hg as [_ Hg]. destruct (Hg ((c :: b) ++ content)) as [E|(_ & _ & _ & _ & _ & m & t & E)]; [|exists m, t; exact E].
    destruct (H2 _ Hp) as [E2|(m & t & E2)]; [|exists m, t; congruence]. destruct (Ht _ Hp (under_refl _)) as [E3 _]. congruence.
Qed.

Lemma parents_triple b : under b p0 ->
  triple ok (grown []) (materialize_parents umask now content src b)
    (fun r w => grown b w /\ (r = Val tt -> told b w) /\ (r = Err -> free_way -> strict ok -> False)).
Proof.
  induction b as [|c b IH]; intros Hb.
  - cbn [materialize_parents]. eapply triple_weak; [apply (triple_ret ok tt (fun r w => grown [] w /\ (r = Val tt -> told [] w) /\ (r = Err -> free_way -> strict ok -> False)))| |auto].
    intros w Hw. split; [exact Hw|]. split; [|discriminate]. intros _ a [Ha _] Hu. apply under_nil_r in Hu. contradiction.
  - assert (Hb' : under b p0) by (apply (under_trans b (c :: b)); [apply under_cons, under_refl|exact Hb]).
    assert (Hp : passes p (c :: b)) by (apply passes_inv; [discriminate|exact Hb]).
    cbn [materialize_parents]. change (content_path content (c :: b)) with ((c :: b) ++ content).
    apply (triple_bind _ _ _ _ (fun r w => grown b w /\ (r = Val tt -> told b w) /\ (r = Err -> free_way -> strict ok -> False))); [apply IH, Hb'| | |].
    2:{ intros w (H & _ & He). split; [apply grown_more, H|]. split; [discriminate|exact He]. }
    2:{ intros w (H & _). split; [apply grown_more, H|]. split; discriminate. }
    intros [].
    apply (triple_bind _ _ _ _ (fun r w => grown b w /\ match r with Val x => told b w /\ get (k_fs w) ((c :: b) ++ content) = x | Err => strict ok -> False | Died => True end)).
    { apply triple_ask; intros w (H1 & H2 & _); [auto| |auto]. intros Hr. split; [exact H1|]. intros [Hs1 Hs2]. destruct Hr as [Hr|[k Hr]]; [exact (Hs1 Hr)|exact (Hs2 k Hr)]. }
    2:{ intros w [H He]. split; [apply grown_more, H|]. split; [discriminate|]. intros _ _. exact He. }
    2:{ intros w [H _]. split; [apply grown_more, H|]. split; discriminate. }
    intros [x|].
    { eapply triple_weak; [apply (triple_ret ok tt (fun r w => grown (c :: b) w /\ (r = Val tt -> told (c :: b) w) /\ (r = Err -> free_way -> strict ok -> False)))| |auto].
      intros w (Hg & Ht & Hx). split; [apply grown_more, Hg|]. split; [|discriminate]. intros _. apply told_more; [exact Ht|congruence|].
      intros _. left. apply grown_not_yet, Hg. }
    set (I := fun w : world => grown (c :: b) w /\ told b w /\ get (k_fs w0) ((c :: b) ++ content) = None /\ (free_way -> a_dir (k_fs w) (b ++ content) = true)).
    assert (HI : forall w w' m t, I w -> upd w w' ((c :: b) ++ content) (IDir m t) -> I w').
    { intros w w' m t (H1 & H2 & H3 & H4) Hu. split; [exact (grown_dir _ _ _ _ _ _ H1 Hp (under_refl _) H3 Hu)|]. split; [exact (told_upd _ _ _ _ _ H2 Hu)|]. split; [exact H3|].
      intros Hf. apply H4 in Hf. apply a_dir_iff in Hf. apply a_dir_iff. destruct Hf as [Hf|(m' & t' & Hf)]; [left; exact Hf|right]. exists m', t'. destruct Hu as [_ Hu]. rewrite Hu.
      destruct (path_eqb (b ++ content) ((c :: b) ++ content)) eqn:E; [|exact Hf]. apply path_eqb_eq in E. apply app_inv_tail in E. apply (f_equal (@length _)) in E. cbn in E. lia. }
    apply (triple_bind _ _ _ _ (fun r w => r <> Err /\ I w /\ get (k_fs w) ((c :: b) ++ content) = None /\ (r = Val false -> strict ok -> s_stat src (c :: b) = None) /\ (r = Val true -> s_stat src (c :: b) <> None))).
    { apply (triple_is_ok _ _ _ _ (fun r w => I w /\ get (k_fs w) ((c :: b) ++ content) = None /\ (r = Err -> strict ok -> s_stat src (c :: b) = None) /\ (r = Val tt -> s_stat src (c :: b) <> None))).
      - assert (HX : forall w, grown b w /\ told b w /\ get (k_fs w) ((c :: b) ++ content) = None -> I w /\ get (k_fs w) ((c :: b) ++ content) = None).
        { intros w (H1 & H2 & H3). split; [|exact H3]. split; [apply grown_more, H1|]. split; [exact H2|]. split; [rewrite <- (grown_not_yet _ _ _ H1); exact H3|].
          intros Hf. exact (way_dir _ _ Hf Hb' H1 H2). }
        apply triple_call; destruct (s_stat src (c :: b)) eqn:Est.
        1,2: intros w H; apply HX in H as [H1 H2]; (split; [exact H1|]); (split; [exact H2|]); split; discriminate.
        + intros w H Hr. apply HX in H as [H1 H2]. split; [exact H1|]. split; [exact H2|]. split; [|discriminate]. intros _ [Hs _]. destruct Hr; [contradiction|discriminate].
        + intros w H Hr. apply HX in H as [H1 H2]. split; [exact H1|]. split; [exact H2|]. split; [reflexivity|discriminate].
        + intros w w' H Ho. apply some_inj in Ho. subst w'. apply HX in H as [H1 H2]. split; [exact H1|]. split; [exact H2|]. split; discriminate.
        + intros w w' H Ho. discriminate.
        + intros w w' k H Hk Ho. apply some_inj in Ho. subst w'. apply HX in H as [H1 H2]. split; [exact H1|]. split; [exact H2|]. split; [|discriminate]. intros _ [_ Hs]. destruct (Hs k Hk).
        + intros w w' k H Hk Ho. discriminate.
      - intros w (H1 & H2 & H3 & H4). split; [discriminate|]. split; [exact H1|]. split; [exact H2|]. split; [intros _; apply H3; reflexivity|discriminate].
      - intros w (H1 & H2 & H3 & H4). split; [discriminate|]. split; [exact H1|]. split; [exact H2|]. split; [discriminate|intros _; apply H4; reflexivity].
      - intros w (H1 & H2 & H3 & H4). split; [discriminate|]. split; [exact H1|]. split; [exact H2|]. split; discriminate. }
    2:{ intros w (H & _). contradiction. }
    2:{ intros w (_ & (H & _) & _). split; [exact H|]. split; discriminate. }
    assert (HM : forall mode, triple ok (fun w => I w /\ get (k_fs w) ((c :: b) ++ content) = None) (call (f_mkdir umask now ((c :: b) ++ content) mode))
       (fun r w => I w /\ (r = Val tt -> get (k_fs w) ((c :: b) ++ content) = Some (IDir (N.ldiff mode umask) now)) /\ (r = Err -> free_way -> strict ok -> False))).
    { intros mode. apply triple_call.
      - intros w [H _]. split; [exact H|]. split; discriminate.
      - intros w [H H0] Hr. split; [exact H|]. split; [discriminate|]. intros _ Hf [Hs _]. destruct Hr as [Hr|Hr]; [exact (Hs Hr)|].
        unfold f_mkdir in Hr. rewrite H0 in Hr. cbn [tl app] in Hr. destruct H as (_ & _ & _ & H). rewrite (H Hf) in Hr. discriminate.
      - intros w w' [H _] Ho. apply mkdir_upd in Ho as [_ Hu]. split; [exact (HI _ _ _ _ H Hu)|]. split; [|discriminate]. intros _. exact (upd_at _ _ _ _ Hu).
      - intros w w' k [H _] Hk Ho. apply mkdir_upd in Ho as [_ Hu]. split; [exact (HI _ _ _ _ H Hu)|]. split; [discriminate|]. intros _ _ [_ Hs]. exact (Hs k Hk). }
    assert (HP : triple ok (fun w => I w /\ get (k_fs w) ((c :: b) ++ content) = None /\ (strict ok -> s_stat src (c :: b) = None))
       (call (f_mkdir umask now ((c :: b) ++ content) 511)) (fun r w => grown (c :: b) w /\ (r = Val tt -> told (c :: b) w) /\ (r = Err -> free_way -> strict ok -> False))).
    { intros w s w' s' r Hs (Hw1 & Hw2 & Hw3) E. destruct (HM 511%N w s w' s' r Hs (conj Hw1 Hw2) E) as [Hu (H1 & H2 & H3)].
      split; [exact Hu|]. destruct H1 as (Hg & Ht & H0 & _). split; [exact Hg|]. split; [|exact H3]. intros Hr. apply told_more; [exact Ht|rewrite (H2 Hr); discriminate|].
      intros Hst. unfold described_at. rewrite (Hw3 Hst). right. exists now. exact (H2 Hr). }
    intros described.
    destruct (s_stat src (c :: b)) as [[m t]|] eqn:Est.
    + destruct described.
      * apply (triple_bind _ _ _ _ (fun r w => I w /\ (r = Val tt -> get (k_fs w) ((c :: b) ++ content) = Some (IDir (N.ldiff (perm m) umask) now)) /\ (r = Err -> free_way -> strict ok -> False))).
        { eapply triple_weak; [apply HM| |auto]. intros w (_ & H & H0 & _). split; [exact H|exact H0]. }
        2:{ intros w ((H & _) & _ & He). split; [exact H|]. split; [discriminate|exact He]. }
        2:{ intros w ((H & _) & _). split; [exact H|]. split; discriminate. }
        intros []. eapply triple_weak.
        -- apply (attrs_triple ok I IDir ((c :: b) ++ content) m t (N.ldiff (perm m) umask) now builder_dir).
           intros w w' x1 x2 x3 x4 H _ Hu. exact (HI _ _ _ _ H Hu).
        -- intros w (H1 & H2 & _). split; [exact H1|]. apply H2. reflexivity.
        -- intros r w ((Hg & Ht & H0 & _) & Hne & m' & t' & Hx & _ & _ & He). split; [exact Hg|]. split; [|intros Hr; contradiction]. intros Hr. apply told_more; [exact Ht|congruence|].
           intros Hst. destruct (He Hr Hst) as [-> ->]. unfold described_at. rewrite Est. right. exact Hx.
      * eapply triple_weak; [exact HP| |auto]. intros w (_ & H1 & H2 & H3 & _). split; [exact H1|]. split; [exact H2|]. apply H3. reflexivity.
    + assert (HQ : triple ok (fun w => Val described <> Err /\ I w /\ get (k_fs w) ((c :: b) ++ content) = None /\ (Val described = Val false -> strict ok -> None = @None (N * Z)) /\ (Val described = Val true -> @None (N * Z) <> None))
       (call (f_mkdir umask now ((c :: b) ++ content) 511)) (fun r w => grown (c :: b) w /\ (r = Val tt -> told (c :: b) w) /\ (r = Err -> free_way -> strict ok -> False))).
      { eapply triple_weak; [exact HP| |auto]. intros w (_ & H1 & H2 & _). auto. }
      destruct described; exact HQ.
Qed.

(* --- the staged file --- *)
Lemma firstn_plus {A} n k (l : list A) : firstn (n + k) l = firstn n l ++ firstn k (skipn n l).
Proof. revert l. induction n as [|n IH]; intros [|x l]; cbn; try reflexivity; [rewrite firstn_nil; reflexivity|]. rewrite IH. reflexivity. Qed.
Lemma firstn_same {A} k (l : list A) : firstn (length (firstn k l)) l = firstn k l.
Proof. revert l. induction k as [|k IH]; intros [|x l]; cbn; try reflexivity. rewrite IH. reflexivity. Qed.

Definition around (w : world) : Prop := k_next w = n0 /\ (forall q, q <> tmp -> q <> dst -> grown_at p0 w q) /\ told p0 w.
Definition kept_tmp (w : world) : Prop := get (k_fs w0) tmp <> None -> get (k_fs w) tmp = get (k_fs w0) tmp.
Definition staging (w : world) : Prop := around w /\ get (k_fs w) dst = None /\ get (k_fs w0) tmp = None.

Lemma around_upd w w' : around w -> k_next w' = k_next w -> (forall q, q <> tmp -> q <> dst -> get (k_fs w') q = get (k_fs w) q) -> around w'.
Proof.
  intros (H1 & H2 & H3) Hn Hg. split; [congruence|]. split.
  - intros q Hq Hd. unfold grown_at. rewrite (Hg q Hq Hd). apply H2; assumption.
  - intros a Ha Hu. assert (E : get (k_fs w') (a ++ content) = get (k_fs w) (a ++ content)).
    { apply Hg; [intros E; symmetry in E; exact (tmp_out _ _ E)|intros E; symmetry in E; exact (dst_out _ Ha E)]. }
    destruct (H3 a Ha Hu) as [H4 H5]. split; [rewrite E; exact H4|]. intros Hs. unfold described_at. rewrite E. apply H5, Hs.
Qed.
Lemma dst_tmp : dst <> tmp.
Proof. intros E. symmetry in E. exact (tmp_out _ _ E). Qed.
Lemma staging_upd w w' x : staging w -> upd w w' tmp x -> staging w'.
Proof.
  intros (H1 & H2 & H3) [Hn Hg]. split; [|split; [|exact H3]].
  - apply (around_upd _ _ H1 Hn). intros q Hq _. rewrite Hg. apply path_eqb_neq in Hq. rewrite Hq. reflexivity.
  - rewrite Hg. pose proof dst_tmp as H. apply path_eqb_neq in H. rewrite H. exact H2.
Qed.

Variables (m0 : N) (t0 : Z) (d0 : list byte).
Notation mk := (N.ldiff (N.land m0 511) umask).
(* Staged so far: bytes D. *)
Definition staged (D : list byte -> Prop) (w : world) : Prop :=
  staging w /\ exists d, get (k_fs w) tmp = Some (IFile mk now d) /\ D d.
Lemma staged_write (D D' : list byte -> Prop) pos bs w : staged D w -> (forall d, D d -> D' (splice d pos bs)) -> staged D' (f_write now tmp pos bs w).
Proof.
  intros (H1 & d & H2 & H3) HD. unfold f_write. rewrite H2. pose proof (upd_put w tmp (IFile mk now (splice d pos bs))) as Hu.
  split; [exact (staging_upd _ _ _ H1 Hu)|]. exists (splice d pos bs). split; [exact (upd_at _ _ _ _ Hu)|apply HD, H3].
Qed.
Definition part (pos : nat) (d : list byte) : Prop := pos <= length d0 /\ length d <= length d0 /\ firstn pos d = firstn pos d0.
Lemma part_len pos d : part pos d -> pos <= length d.
Proof. intros (H1 & H2 & H3). apply (f_equal (@length _)) in H3. rewrite !firstn_length in H3. lia. Qed.
Lemma part_splice pos d k : part pos d -> part (pos + length (firstn k (skipn pos d0))) (splice d pos (firstn k (skipn pos d0))).
Proof.
  intros H. pose proof (part_len _ _ H) as Hl. destruct H as (H1 & H2 & H3). unfold splice. set (bs := firstn k (skipn pos d0)).
  assert (Hb : length bs <= length d0 - pos) by (unfold bs; rewrite firstn_length, skipn_length; lia).
  assert (E : firstn (pos + length bs) d0 = firstn pos d0 ++ bs).
  { rewrite firstn_plus. f_equal. apply firstn_same. }
  split; [lia|]. split; [rewrite !app_length, firstn_length, skipn_length; lia|].
  rewrite E, <- H3. rewrite app_assoc, firstn_app. rewrite app_length, firstn_length.
  replace (pos + length bs - (Nat.min pos (length d) + length bs)) with 0 by lia. cbn [firstn]. rewrite app_nil_r, firstn_all2; [reflexivity|].
  rewrite app_length, firstn_length. lia.
Qed.
Lemma part_whole pos d : part pos d -> length d0 <= pos -> d = d0.
Proof. intros (H1 & H2 & H3) H. rewrite !firstn_all2 in H3 by lia. exact H3. Qed.
Lemma part_0 d : length d <= length d0 -> part 0 d.
Proof. intros H. split; [lia|]. split; [exact H|reflexivity]. Qed.

Lemma staged_weak (D D' : list byte -> Prop) w : (forall d, D d -> D' d) -> staged D w -> staged D' w.
Proof. intros H (H1 & d & H2 & H3). split; [exact H1|]. exists d. auto. Qed.
Definition any (_ : list byte) : Prop := True.

Lemma reflink_triple :
  triple ok (staged (fun d => d = [])) (reflink now tmp d0)
    (fun r w => match r with Val true => staged (fun d => d = d0) w | Val false => staged (part 0) w | Err => False | Died => staged any w end).
Proof.
  intros w s w' s' r Hs Hw E. unfold reflink in E. destruct s as [|[k| |k] s]; inversion E; subst.
  - split; [exists []; reflexivity|]. apply (staged_weak (fun d => d = [])); [intros; exact I|exact Hw].
  - split; [eexists [_]; reflexivity|]. apply (staged_write _ _ _ _ _ Hw). intros d ->. unfold splice. cbn [firstn app]. rewrite skipn_nil, app_nil_r. reflexivity.
  - split; [eexists [_]; reflexivity|]. apply (staged_weak (fun d => d = [])); [intros d ->; apply part_0; cbn; lia|exact Hw].
  - split; [eexists [_]; reflexivity|]. apply (staged_write _ _ _ _ _ Hw). intros d ->. apply part_0. unfold splice. cbn [firstn app].
    rewrite skipn_nil, app_nil_r, firstn_length. lia.
Qed.
Lemma copy_triple pos :
  triple ok (staged (part pos)) (copy_data now tmp d0 pos)
    (fun r w => match r with Val _ => staged (fun d => d = d0) w | Err => staged any w /\ ~ strict ok | Died => staged any w end).
Proof.
  intros w s. revert pos w. induction s as [|a s IH]; intros pos w w' s' r Hs Hw E; cbn [copy_data] in E.
  - inversion E; subst. split; [exists []; reflexivity|]. exact (staged_weak _ _ _ (fun _ _ => I) Hw).
  - inversion Hs as [|x l Ha Hl]; subst. destruct a as [k| |k].
    + destruct (length d0 <=? pos) eqn:Ep.
      * inversion E; subst. split; [eexists [_]; reflexivity|]. apply Nat.leb_le in Ep. revert Hw. apply staged_weak. intros d Hd. exact (part_whole _ _ Hd Ep).
      * cbv zeta in E. apply IH in E; [|exact Hl|].
        -- destruct E as [[u Hu] HQ]. split; [exists (Done k :: u); rewrite Hu; reflexivity|exact HQ].
        -- apply (staged_write _ _ _ _ _ Hw). intros d Hd. apply part_splice, Hd.
    + inversion E; subst. split; [eexists [_]; reflexivity|]. split; [exact (staged_weak _ _ _ (fun _ _ => I) Hw)|]. intros [H _]. exact (H Ha).
    + inversion E; subst. split; [eexists [_]; reflexivity|]. split; [|intros [_ H]; exact (H k Ha)]. apply (staged_write _ any _ _ _ Hw). intros; exact I.
Qed.

(* The published file. *)
Definition published (w : world) : Prop :=
  around w /\ get (k_fs w0) tmp = None /\ get (k_fs w) tmp = None /\
  exists m t, get (k_fs w) dst = Some (IFile m t d0) /\ (m = mk \/ m = N.land m0 511) /\ (t = now \/ t = t0) /\ (strict ok -> m = N.land m0 511 /\ t = t0).
Lemma rename_upd w w' m t d : get (k_fs w) tmp = Some (IFile m t d) -> f_rename tmp dst w = Some w' ->
  k_next w' = k_next w /\ forall q, get (k_fs w') q = if path_eqb q dst then Some (IFile m t d) else if path_eqb q tmp then None else get (k_fs w) q.
Proof.
  intros H. unfold f_rename. rewrite H.
  assert (K : forall x, (if a_dir (k_fs w) (tl dst) then Some {| k_fs := put (del (k_fs w) tmp) dst (IFile m t d); k_next := k_next w; k_loose := map (renamed tmp dst) (k_loose w) |} else None) = Some x ->
     k_next x = k_next w /\ forall q, get (k_fs x) q = if path_eqb q dst then Some (IFile m t d) else if path_eqb q tmp then None else get (k_fs w) q).
  { intros x. destruct (a_dir _ _); [|discriminate]. intros Hx. apply some_inj in Hx. subst x. split; [reflexivity|]. intros q. cbn [k_fs]. rewrite get_put, get_del. reflexivity. }
  destruct (get (k_fs w) dst) as [[]|]; try discriminate; apply K.
Qed.
(* An attempt that did not end well. *)
Definition failed (w : world) : Prop := (staging w /\ exists m t d, get (k_fs w) tmp = Some (IFile m t d)) \/ published w.
Lemma staged_failed D w : staged D w -> failed w.
Proof. intros (H1 & d & H2 & _). left. split; [exact H1|]. exists mk, now, d. exact H2. Qed.
Definition no_late : Prop := forall k, ~ ok (Late k).
Definition way_free (w : world) : Prop := a_dir (k_fs w) (p0 ++ content) = true.

Lemma around_way w : free_way -> around w -> a_dir (k_fs w) (p0 ++ content) = true.
Proof.
  intros [H1 H2] (_ & Hg & Ht). assert (Hn1 : p0 ++ content <> tmp) by (intros E; symmetry in E; exact (tmp_out _ _ E)).
  assert (Hn2 : p0 ++ content <> dst).
  { intros E. change (p ++ content) with (c0 :: p0 ++ content) in E. apply (f_equal (@length _)) in E. cbn in E. lia. }
  apply a_dir_iff. destruct (Hg _ Hn1 Hn2) as [E|(E & a & Ha & _ & _ & m & t & E2)]; [|right; exists m, t; exact E2].
  destruct (path_dec p0 []) as [Ep|Ep].
  - assert (Ec : p0 ++ content = content) by (rewrite Ep; reflexivity). rewrite Ec in *.
    destruct H1 as [H1|(m & t & H1)]; [left; exact H1|right]. exists m, t. congruence.
  - assert (Hp : passes p p0) by (apply passes_inv; [exact Ep|apply under_refl]).
    destruct (H2 _ Hp) as [E2|(m & t & E2)]; [|right; exists m, t; congruence]. destruct (Ht _ Hp (under_refl _)) as [E3 _]. congruence.
Qed.

Lemma create_staged : forall w w', around w -> get (k_fs w) dst = None -> get (k_fs w) tmp = get (k_fs w0) tmp -> f_create umask now tmp (N.land m0 511) w = Some w' -> staged (fun d => d = []) w'.
Proof.
  intros w w' H1 H2 H3 Ho. unfold f_create in Ho. destruct (get (k_fs w) tmp) eqn:Et; [discriminate|]. destruct (a_dir _ _); [|discriminate].
      apply some_inj in Ho. subst w'.
      assert (Hu : upd w {| k_fs := put (k_fs w) tmp (IFile (made umask (N.land m0 511)) now []); k_next := k_next w; k_loose := tmp :: k_loose w |} tmp (IFile mk now [])).
      { split; [reflexivity|]. intros a. cbn [k_fs]. apply get_put. }
      split; [apply (staging_upd w _ (IFile mk now [])); [|exact Hu]; split; [exact H1|]; split; [exact H2|congruence]|].
      exists []. split; [exact (upd_at _ _ _ _ Hu)|reflexivity].
Qed.
Definition bad (r : res unit) (w : world) : Prop := failed w /\ (r = Err -> (no_late -> staging w) /\ (strict ok -> free_way -> False)).
Lemma body_triple :
  triple ok (staged (fun d => d = []))
    (whole <- reflink now tmp d0 ;;
     (if whole then ret tt else or_clean (copy_data now tmp d0 0) (call nothing)) ;;;
     call nothing ;;;
     copy_attrs tmp m0 t0 ;;;
     call (f_rename tmp dst))
    (fun r w => match r with Val _ => published w | _ => bad r w end).
Proof.
  assert (Hb : forall D r w, staged D w -> (r = Err -> strict ok -> False) -> bad r w).
  { intros D r w H1 H2. split; [exact (staged_failed _ _ H1)|]. intros Hr. split; [intros _; apply H1|]. intros Hs _. exact (H2 Hr Hs). }
  apply (triple_bind _ _ _ _ (fun r w => match r with Val true => staged (fun d => d = d0) w | Val false => staged (part 0) w | Err => False | Died => staged any w end)).
  { apply reflink_triple. }
  2:{ intros w []. }
  2:{ intros w H. apply (Hb any); [exact H|discriminate]. }
  intros whole.
  apply (triple_bind _ _ _ _ (fun r w => match r with Val _ => staged (fun d => d = d0) w | Err => staged any w /\ ~ strict ok | Died => staged any w end)).
  { destruct whole.
    - apply (triple_ret ok tt (fun r w => match r with Val _ => staged (fun d => d = d0) w | Err => staged any w /\ ~ strict ok | Died => staged any w end)).
    - apply (triple_or_clean _ _ _ _ (fun r w => match r with Val _ => staged (fun d => d = d0) w | Err => staged any w /\ ~ strict ok | Died => staged any w end)
        (fun r w => staged any w /\ ~ strict ok)).
      + apply copy_triple.
      + apply triple_call; [auto|auto| |].
        * intros w w' H Ho. apply some_inj in Ho. subst w'. exact H.
        * intros w w' k H _ Ho. apply some_inj in Ho. subst w'. exact H.
      + auto.
      + auto.
      + auto.
      + auto.
      + intros w [H _]. exact H. }
  2:{ intros w [H Hs]. apply (Hb any); [exact H|]. intros _. exact Hs. }
  2:{ intros w H. apply (Hb any); [exact H|discriminate]. }
  intros [].
  apply (triple_bind _ _ _ _ (fun r w => staged (fun d => d = d0) w /\ (r = Err -> ~ strict ok))).
  { apply triple_call.
    - intros w H. split; [exact H|discriminate].
    - intros w H Hr. split; [exact H|]. intros _ [Hs _]. destruct Hr as [Hr|Hr]; [exact (Hs Hr)|discriminate].
    - intros w w' H Ho. apply some_inj in Ho. subst w'. split; [exact H|discriminate].
    - intros w w' k H Hk Ho. apply some_inj in Ho. subst w'. split; [exact H|]. intros _ [_ Hs]. exact (Hs k Hk). }
  2,3: intros w [H Hs]; apply (Hb (fun d => d = d0)); [exact H|exact Hs].
  intros [].
  apply (triple_bind _ _ _ _ (fun r w => staging w /\ r <> Err /\ exists m' t', get (k_fs w) tmp = Some (IFile m' t' d0) /\ (m' = mk \/ m' = N.land m0 511) /\ (t' = now \/ t' = t0) /\
       (r = Val tt -> strict ok -> m' = N.land m0 511 /\ t' = t0))).
  { eapply triple_weak.
    - apply (attrs_triple ok staging (fun m t => IFile m t d0) tmp m0 t0 mk now (builder_file d0)).
      intros w w' x1 x2 x3 x4 H _ Hu. exact (staging_upd _ _ _ H Hu).
    - intros w [(H1 & d & H2 & ->) _]. split; [exact H1|exact H2].
    - intros r w H. exact H. }
  2:{ intros w (_ & H & _). contradiction. }
  2:{ intros w (H & _ & m' & t' & Hx & _). split; [|discriminate]. left. split; [exact H|]. exists m', t', d0. exact Hx. }
  intros [].
  assert (Hp : forall w w', staging w -> (exists m' t', get (k_fs w) tmp = Some (IFile m' t' d0) /\ (m' = mk \/ m' = N.land m0 511) /\ (t' = now \/ t' = t0) /\ (strict ok -> m' = N.land m0 511 /\ t' = t0)) ->
     f_rename tmp dst w = Some w' -> published w').
  { intros w w' (S1 & S2 & S3) (m' & t' & Hx & Hm & Ht & He) Ho. destruct (rename_upd _ _ _ _ _ Hx Ho) as [Hn Hg].
    assert (Htd : path_eqb tmp dst = false) by (apply path_eqb_neq; intros E; symmetry in E; exact (dst_tmp E)).
    split; [|split; [exact S3|split]].
    - apply (around_upd _ _ S1 Hn). intros q H1 H2. rewrite Hg. apply path_eqb_neq in H1, H2. rewrite H1, H2. reflexivity.
    - rewrite Hg, Htd, path_eqb_refl. reflexivity.
    - exists m', t'. split; [rewrite Hg, path_eqb_refl; reflexivity|]. auto. }
  apply triple_call.
  - intros w (H & _ & m' & t' & Hx & _). split; [|discriminate]. left. split; [exact H|]. exists m', t', d0. exact Hx.
  - intros w (H & _ & m' & t' & Hx & _) Hr. split; [left; split; [exact H|]; exists m', t', d0; exact Hx|]. intros _. split; [intros _; exact H|].
    intros [Hs _] Hf. destruct Hr as [Hr|Hr]; [exact (Hs Hr)|]. destruct H as (S1 & S2 & S3).
    unfold f_rename in Hr. rewrite Hx, S2 in Hr. change (tl dst) with (p0 ++ content) in Hr. rewrite (around_way w Hf S1) in Hr. discriminate.
  - intros w w' (H & _ & m' & t' & Hx & Hm & Ht & He) Ho. apply (Hp w w' H); [|exact Ho]. exists m', t'. auto.
  - intros w w' k (H & _ & m' & t' & Hx & Hm & Ht & He) Hk Ho. split.
    + right. apply (Hp w w' H); [|exact Ho]. exists m', t'. auto.
    + intros _. split; [intros Hn; destruct (Hn k Hk)|]. intros [_ Hs]. destruct (Hs k Hk).
Qed.

Lemma regular_triple :
  triple ok (fun w => grown p0 w /\ told p0 w) (copy_regular umask now stage content p m0 t0 d0)
    (fun r w => match r with
       | Val _ => published w
       | _ => (forall q, q <> tmp -> q <> dst -> grown_at p0 w q) /\ kept_tmp w /\ (k_next w = n0 \/ k_next w = k_next w0 /\ get (k_fs w) tmp = get (k_fs w0) tmp) /\
              (get (k_fs w) dst = None \/ published w) /\
              (r = Err -> no_late -> get (k_fs w) dst = None) /\
              (r = Err -> strict ok -> free_way -> is_dir_in (k_fs w0) stage -> get (k_fs w0) tmp = None -> False)
       end).
Proof.
  set (Q := fun (r : res unit) w => match r with
       | Val _ => published w
       | _ => (forall q, q <> tmp -> q <> dst -> grown_at p0 w q) /\ kept_tmp w /\ (k_next w = n0 \/ k_next w = k_next w0 /\ get (k_fs w) tmp = get (k_fs w0) tmp) /\
              (get (k_fs w) dst = None \/ published w) /\
              (r = Err -> no_late -> get (k_fs w) dst = None) /\
              (r = Err -> strict ok -> free_way -> is_dir_in (k_fs w0) stage -> get (k_fs w0) tmp = None -> False)
       end).
  assert (Hearly : forall w, grown p0 w -> (forall q, q <> tmp -> q <> dst -> grown_at p0 w q) /\ kept_tmp w /\ (k_next w = n0 \/ k_next w = k_next w0 /\ get (k_fs w) tmp = get (k_fs w0) tmp) /\ get (k_fs w) dst = None).
  { intros w [H1 H2]. split; [intros q _ _; apply H2|]. split.
    - intros H. destruct (H2 tmp) as [E|(E & _)]; [exact E|contradiction].
    - split; [right; split; [exact H1|]; destruct (H2 tmp) as [E|(_ & a & _ & _ & E & _)]; [exact E|destruct (tmp_out _ _ E)]|]. destruct (H2 dst) as [E|(_ & a & Ha & _ & E & _)]; [congruence|]. destruct (dst_out _ Ha E). }
  unfold copy_regular. change (content_path content p) with dst. change (perm m0) with (N.land m0 511).
  apply (triple_bind _ _ _ _ (fun r w => grown p0 w /\ told p0 w /\ (r = Err -> ~ strict ok))).
  { apply triple_call.
    - intros w [H1 H2]. split; [exact H1|]. split; [exact H2|]. discriminate.
    - intros w [H1 H2] Hr. split; [exact H1|]. split; [exact H2|]. intros _ [Hs _]. destruct Hr as [Hr|Hr]; [exact (Hs Hr)|discriminate].
    - intros w w' [H1 H2] Ho. apply some_inj in Ho. subst. split; [exact H1|]. split; [exact H2|discriminate].
    - intros w w' k [H1 H2] Hk Ho. apply some_inj in Ho. subst. split; [exact H1|]. split; [exact H2|]. intros _ [_ Hs]. exact (Hs k Hk). }
  2:{ intros w (H1 & H2 & H3). destruct (Hearly w H1) as (E1 & E2 & E3 & E4). split; [exact E1|]. split; [exact E2|]. split; [exact E3|]. split; [left; exact E4|]. split; [intros; exact E4|].
      intros _ Hs. destruct (H3 eq_refl Hs). }
  2:{ intros w (H1 & H2 & H3). destruct (Hearly w H1) as (E1 & E2 & E3 & E4). split; [exact E1|]. split; [exact E2|]. split; [exact E3|]. split; [left; exact E4|]. split; discriminate. }
  intros [].
  apply (triple_bind _ _ _ _ (fun (r : res N) w => around w /\ get (k_fs w) dst = None /\ get (k_fs w) tmp = get (k_fs w0) tmp /\ r = Val n0)).
  { intros w s w' s' r _ (H1 & H2 & _) E. unfold count in E. injection E as <- <- <-. split; [exists []; reflexivity|].
    destruct (Hearly w H1) as (E1 & E2 & E3 & E4). destruct H1 as [Hn Hg]. split; [|split; [exact E4|split]].
    - split; [cbn [k_next]; rewrite Hn; reflexivity|]. split; [intros q _ _; exact (Hg q)|exact H2].
    - cbn [k_fs]. destruct (Hg tmp) as [E|(_ & a & _ & _ & E & _)]; [exact E|]. destruct (tmp_out _ _ E).
    - rewrite Hn. reflexivity. }
  2,3: intros w (_ & _ & _ & E); discriminate.
  intros n.
  assert (Hmid : forall w, around w -> get (k_fs w) dst = None -> get (k_fs w) tmp = get (k_fs w0) tmp \/ get (k_fs w0) tmp = None ->
     (forall q, q <> tmp -> q <> dst -> grown_at p0 w q) /\ kept_tmp w /\ (k_next w = n0 \/ k_next w = k_next w0 /\ get (k_fs w) tmp = get (k_fs w0) tmp) /\ (get (k_fs w) dst = None \/ published w)).
  { intros w (H1 & H2 & _) H3 H4. split; [exact H2|]. split; [intros H; destruct H4; [assumption|contradiction]|]. split; [left; exact H1|left; exact H3]. }
  apply (triple_weak ok (fun w => (around w /\ get (k_fs w) dst = None /\ get (k_fs w) tmp = get (k_fs w0) tmp) /\ n = n0) _ _ Q); [|intros w (H1 & H2 & H3 & H4); inversion H4; auto|auto].
  apply triple_pure. intros ->.
  apply (triple_bind _ _ _ _ (fun r w => match r with Val _ => staged (fun d => d = []) w | _ => around w /\ get (k_fs w) dst = None /\ (get (k_fs w) tmp = get (k_fs w0) tmp \/ get (k_fs w0) tmp = None) /\
     (r = Err -> strict ok -> is_dir_in (k_fs w0) stage -> get (k_fs w0) tmp = None -> False) end)).
  { assert (Hc : forall w w', around w -> get (k_fs w) dst = None -> get (k_fs w) tmp = get (k_fs w0) tmp -> f_create umask now tmp (N.land m0 511) w = Some w' -> staged (fun d => d = []) w').
    { exact create_staged. }
    apply triple_call.
    - intros w (H1 & H2 & H3). split; [exact H1|]. split; [exact H2|]. split; [left; exact H3|discriminate].
    - intros w (H1 & H2 & H3) Hr. split; [exact H1|]. split; [exact H2|]. split; [left; exact H3|]. intros _ [Hs _] Hst H0. destruct Hr as [Hr|Hr]; [exact (Hs Hr)|].
      unfold f_create in Hr. rewrite H3, H0 in Hr. unfold staging_path in Hr. cbn [tl] in Hr.
      assert (Ha : a_dir (k_fs w) stage = true); [|rewrite Ha in Hr; discriminate].
      apply a_dir_iff. destruct Hst as [Hst|(m & t & Hst)]; [left; exact Hst|right]. destruct H1 as (_ & Hg & _).
      assert (N1 : stage <> tmp) by (intros E; apply (f_equal (@length _)) in E; cbn in E; lia).
      assert (N2 : stage <> dst) by (intros E; destruct Hap as [_ Hx]; apply Hx; exists p; exact E).
      destruct (Hg stage N1 N2) as [E|(E & _)]; [exists m, t; congruence|congruence].
    - intros w w' (H1 & H2 & H3) Ho. exact (Hc w w' H1 H2 H3 Ho).
    - intros w w' k (H1 & H2 & H3) Hk Ho. destruct (Hc w w' H1 H2 H3 Ho) as ((S1 & S2 & S3) & _). split; [exact S1|]. split; [exact S2|]. split; [right; exact S3|]. intros _ [_ Hs]. destruct (Hs k Hk). }
  2:{ intros w (H1 & H2 & H3 & H4). destruct (Hmid w H1 H2 H3) as (E1 & E2 & E3 & E4). split; [exact E1|]. split; [exact E2|]. split; [exact E3|]. split; [exact E4|]. split; [intros; exact H2|].
      intros Hr Hs _. exact (H4 Hr Hs). }
  2:{ intros w (H1 & H2 & H3 & H4). destruct (Hmid w H1 H2 H3) as (E1 & E2 & E3 & E4). split; [exact E1|]. split; [exact E2|]. split; [exact E3|]. split; [exact E4|]. split; discriminate. }
  intros [].
  assert (Hfin : forall (r : res unit) w, failed w -> (forall q, q <> tmp -> q <> dst -> grown_at p0 w q) /\ kept_tmp w /\ (k_next w = n0 \/ k_next w = k_next w0 /\ get (k_fs w) tmp = get (k_fs w0) tmp) /\ (get (k_fs w) dst = None \/ published w)).
  { intros _ w [((H1 & H2 & H3) & _)|H].
    - apply Hmid; [exact H1|exact H2|right; exact H3].
    - pose proof H as ((E1 & E2 & E3) & E4 & E5 & _). split; [exact E2|]. split; [intros Hx; congruence|]. split; [left; exact E1|right; exact H]. }
  apply (triple_or_clean _ _ _ _ (fun r w => match r with Val _ => published w | _ => bad r w end)
    (fun r w => (forall q, q <> tmp -> q <> dst -> grown_at p0 w q) /\ kept_tmp w /\ (k_next w = n0 \/ k_next w = k_next w0 /\ get (k_fs w) tmp = get (k_fs w0) tmp) /\ (get (k_fs w) dst = None \/ published w) /\
       (no_late -> get (k_fs w) dst = None) /\ (strict ok -> free_way -> False))).
  3:{ intros a w H. exact H. }
  3:{ intros w [H _]. destruct (Hfin Err w H) as (E1 & E2 & E3 & E4). split; [exact E1|]. split; [exact E2|]. split; [exact E3|]. split; [exact E4|]. split; discriminate. }
  3,4: intros w (E1 & E2 & E3 & E4 & E5 & E6); (split; [exact E1|]); (split; [exact E2|]); (split; [exact E3|]); (split; [exact E4|]); (split; [intros _; exact E5|]); intros _ Hs Hf _ _; exact (E6 Hs Hf).
  3:{ intros w (E1 & E2 & E3 & E4 & E5 & E6). split; [exact E1|]. split; [exact E2|]. split; [exact E3|]. split; [exact E4|]. split; discriminate. }
  2:{ (* the clean-up *)
    assert (Hstay : forall w, bad Err w -> (forall q, q <> tmp -> q <> dst -> grown_at p0 w q) /\ kept_tmp w /\ (k_next w = n0 \/ k_next w = k_next w0 /\ get (k_fs w) tmp = get (k_fs w0) tmp) /\ (get (k_fs w) dst = None \/ published w) /\
       (no_late -> get (k_fs w) dst = None) /\ (strict ok -> free_way -> False)).
    { intros w [H1 H2]. destruct (H2 eq_refl) as [H3 H4]. destruct (Hfin Err w H1) as (E1 & E2 & E3 & E4). split; [exact E1|]. split; [exact E2|]. split; [exact E3|]. split; [exact E4|].
      split; [|exact H4]. intros Hn. apply H3 in Hn. apply Hn. }
    assert (Hgone : forall w w', bad Err w -> f_remove tmp w = Some w' -> (forall q, q <> tmp -> q <> dst -> grown_at p0 w' q) /\ kept_tmp w' /\ (k_next w' = n0 \/ k_next w' = k_next w0 /\ get (k_fs w') tmp = get (k_fs w0) tmp) /\ (get (k_fs w') dst = None \/ published w') /\
       (no_late -> get (k_fs w') dst = None) /\ (strict ok -> free_way -> False)).
    { intros w w' [H1 H2] Ho. destruct (H2 eq_refl) as [H3 H4]. unfold f_remove in Ho. destruct H1 as [((S1 & S2 & S3) & m & t & d & Ht)|H1].
      - rewrite Ht in Ho. apply some_inj in Ho. subst w'.
        assert (Hg : forall q, get (k_fs (set_fs (del (k_fs w) tmp) w)) q = if path_eqb q tmp then None else get (k_fs w) q) by (intros q; cbn [k_fs set_fs]; apply get_del).
        assert (Hd : get (k_fs (set_fs (del (k_fs w) tmp) w)) dst = None).
        { rewrite Hg. destruct (path_eqb dst tmp); [reflexivity|exact S2]. }
        destruct (Hmid (set_fs (del (k_fs w) tmp) w)) as (E1 & E2 & E3 & E4).
        + apply (around_upd _ _ S1); [reflexivity|]. intros q Hq _. rewrite Hg. apply path_eqb_neq in Hq. rewrite Hq. reflexivity.
        + exact Hd.
        + right. exact S3.
        + split; [exact E1|]. split; [exact E2|]. split; [exact E3|]. split; [exact E4|]. split; [intros; exact Hd|exact H4].
      - destruct H1 as (_ & _ & Ht & _). rewrite Ht in Ho. discriminate. }
    apply triple_call.
    - exact Hstay.
    - intros w H _. exact (Hstay w H).
    - exact Hgone.
    - intros w w' k H _ Ho. exact (Hgone w w' H Ho). }
  apply body_triple.
Qed.

End Kind.

(* --- the whole copy-up --- *)
Definition outcome (ok : answer -> Prop) (r : res unit) (w : world) : Prop :=
  (forall q, q <> tmp -> q <> dst -> grown_at p0 w q) /\ kept_tmp w /\ (k_next w = n0 \/ k_next w = k_next w0 /\ get (k_fs w) tmp = get (k_fs w0) tmp) /\
  (get (k_fs w) dst = None \/ exists x y, s_lstat src p = Some x /\ get (k_fs w) dst = Some y /\ copy_of umask now x y /\ (r = Val tt -> strict ok -> exact_copy x y)) /\
  (r = Val tt -> get (k_fs w) dst <> None /\ get (k_fs w) tmp = get (k_fs w0) tmp /\ told ok p0 w) /\
  (r = Err -> no_late ok -> get (k_fs w) dst = None) /\
  (r = Err -> strict ok -> free_way -> is_dir_in (k_fs w0) stage -> get (k_fs w0) tmp = None -> match s_lstat src p with None => True | Some (ISpecial _) => True | _ => False end) /\
  match s_lstat src p with Some (IFile _ _ _) => True | _ => get (k_fs w) tmp = get (k_fs w0) tmp end.

Lemma outcome_early ok r w : grown p0 w -> r <> Val tt ->
  (r = Err -> strict ok -> free_way -> match s_lstat src p with None => True | Some (ISpecial _) => True | _ => False end) -> outcome ok r w.
Proof.
  intros [H1 H2] Hr He.
  assert (Hd : get (k_fs w) dst = None).
  { destruct (H2 dst) as [E|(_ & a & Ha & _ & E & _)]; [congruence|]. destruct (dst_out _ Ha E). }
  split; [intros q _ _; apply H2|]. split; [intros H; destruct (H2 tmp) as [E|(E & _)]; [exact E|contradiction]|].
  split; [right; split; [exact H1|]; destruct (H2 tmp) as [E|(_ & a & _ & _ & E & _)]; [exact E|destruct (tmp_out _ _ E)]|].
  split; [left; exact Hd|]. split; [intros H; contradiction|]. split; [intros; exact Hd|]. split; [intros H3 H4 H5 _ _; exact (He H3 H4 H5)|].
  assert (Ht : get (k_fs w) tmp = get (k_fs w0) tmp).
  { destruct (H2 tmp) as [E|(_ & a & _ & _ & E & _)]; [exact E|]. destruct (tmp_out _ _ E). }
  destruct (s_lstat src p) as [[]|]; try exact I; exact Ht.
Qed.

(* A directory or symlink put at dst at once. *)
Definition placed (ok : answer -> Prop) (y : item) (w : world) : Prop :=
  k_next w = k_next w0 /\ (forall q, q <> dst -> grown_at p0 w q) /\ told ok p0 w /\ get (k_fs w) dst = Some y.
Lemma placed_upd ok w w' y : grown p0 w -> told ok p0 w -> upd w w' dst y -> placed ok y w'.
Proof.
  intros [H1 H2] H3 [Hn Hg]. split; [congruence|]. split; [|split].
  - intros q Hq. unfold grown_at. rewrite Hg. apply path_eqb_neq in Hq. rewrite Hq. apply H2.
  - intros a Ha Hu. assert (E : get (k_fs w') (a ++ content) = get (k_fs w) (a ++ content)).
    { rewrite Hg. destruct (path_eqb (a ++ content) dst) eqn:E; [|reflexivity]. apply path_eqb_eq in E. symmetry in E. destruct (dst_out _ Ha E). }
    destruct (H3 a Ha Hu) as [H4 H5]. split; [rewrite E; exact H4|]. intros Hs. unfold described_at. rewrite E. apply H5, Hs.
  - rewrite Hg, path_eqb_refl. reflexivity.
Qed.
Lemma placed_again ok w w' y y' : placed ok y w -> upd w w' dst y' -> placed ok y' w'.
Proof.
  intros (H1 & H2 & H3 & H4) [Hn Hg]. split; [congruence|]. split; [|split].
  - intros q Hq. unfold grown_at. rewrite Hg. pose proof Hq as Hq'. apply path_eqb_neq in Hq'. rewrite Hq'. apply H2, Hq.
  - intros a Ha Hu. assert (E : get (k_fs w') (a ++ content) = get (k_fs w) (a ++ content)).
    { rewrite Hg. destruct (path_eqb (a ++ content) dst) eqn:E; [|reflexivity]. apply path_eqb_eq in E. symmetry in E. destruct (dst_out _ Ha E). }
    destruct (H3 a Ha Hu) as [H5 H6]. split; [rewrite E; exact H5|]. intros Hs. unfold described_at. rewrite E. apply H6, Hs.
  - rewrite Hg, path_eqb_refl. reflexivity.
Qed.
Lemma outcome_placed ok r w x y : placed ok y w -> s_lstat src p = Some x -> copy_of umask now x y -> (r = Val tt -> strict ok -> exact_copy x y) ->
  (r = Err -> no_late ok -> False) -> outcome ok r w.
Proof.
  intros (H1 & H2 & H3 & H4) Hx Hc He Hr.
  assert (Ht : get (k_fs w) tmp = get (k_fs w0) tmp).
  { assert (Hne : tmp <> dst) by (intros E; exact (tmp_out _ _ E)). destruct (H2 tmp Hne) as [E|(_ & a & _ & _ & E & _)]; [exact E|]. destruct (tmp_out _ _ E). }
  split; [intros q _ Hq; apply H2, Hq|]. split; [intros _; exact Ht|]. split; [right; split; [exact H1|exact Ht]|]. split; [right; exists x, y; auto|].
  split; [intros _; split; [congruence|auto]|]. split; [intros E1 E2; destruct (Hr E1 E2)|]. split; [intros E1 [_ E2]; destruct (Hr E1); exact E2|].
  destruct (s_lstat src p) as [[]|]; try exact I; exact Ht.
Qed.

Lemma copy_up_triple ok : triple ok (fun w => w = w0) (copy_up umask now stage content src p) (outcome ok).
Proof.
  unfold copy_up. change (content_path content p) with dst. cbn [tl].
  assert (Hg0 : grown [] w0) by (split; [reflexivity|intros q; left; reflexivity]).
  assert (Hgp : forall w, w = w0 -> grown p0 w) by (intros w ->; split; [reflexivity|intros q; left; reflexivity]).
  apply (triple_bind _ _ _ _ (fun r w => w = w0 /\ match r with Val x => x = s_lstat src p | Err => ~ strict ok | Died => True end)).
  { apply triple_ask; [auto| |auto]. intros w Hw Hr. split; [exact Hw|]. intros [H1 H2]. destruct Hr as [Hr|[k Hr]]; [exact (H1 Hr)|exact (H2 k Hr)]. }
  2:{ intros w [Hw Hs]. apply outcome_early; [apply Hgp, Hw|discriminate|]. intros _ H. contradiction. }
  2:{ intros w [Hw Hs]. apply outcome_early; [apply Hgp, Hw|discriminate|discriminate]. }
  intros x. apply (triple_weak ok (fun w => w = w0 /\ x = s_lstat src p) _ _ (outcome ok)); [|auto|auto].
  apply triple_pure. intros Ex.
  assert (Hpar : forall k, triple ok (fun w => grown p0 w /\ told ok p0 w) k (outcome ok) ->
     triple ok (fun w => w = w0) (bind (materialize_parents umask now content src p0) (fun _ => k)) (outcome ok)).
  { intros k Hk. apply (triple_bind _ _ _ _ (fun r w => grown p0 w /\ (r = Val tt -> told ok p0 w) /\ (r = Err -> free_way -> strict ok -> False))).
    - eapply triple_weak; [apply parents_triple, under_refl| |auto]. intros w ->. exact Hg0.
    - intros []. eapply triple_weak; [exact Hk| |auto]. intros w (H1 & H2 & _). auto.
    - intros w (H1 & _ & H3). apply outcome_early; [exact H1|discriminate|]. intros _ Hs Hf. destruct (H3 eq_refl Hf Hs).
    - intros w (H1 & _). apply outcome_early; [exact H1|discriminate|discriminate]. }
  assert (Hway : forall w, free_way -> grown p0 w -> told ok p0 w -> a_dir (k_fs w) (tl dst) = true).
  { intros w Hf H1 H2. change (tl dst) with (p0 ++ content). apply (way_dir ok _ _ Hf (under_refl _) H1 H2). }
  assert (Hdn : forall w, grown p0 w -> get (k_fs w) dst = None).
  { intros w [_ H]. destruct (H dst) as [E|(_ & a & Ha & _ & E & _)]; [congruence|]. destruct (dst_out _ Ha E). }
  destruct x as [[m t|m t d|tgt|m]|].
  - (* a directory *)
    apply Hpar. change (perm m) with (N.land m 511).
    apply (triple_bind _ _ _ _ (fun r w => match r with Val _ => placed ok (IDir (N.ldiff (N.land m 511) umask) now) w | _ => outcome ok r w end)).
    + apply triple_call.
      * intros w [H1 H2]. apply outcome_early; [exact H1|discriminate|discriminate].
      * intros w [H1 H2] Hr. apply outcome_early; [exact H1|discriminate|]. intros _ [Hs _] Hf. exfalso. destruct Hr as [Hr|Hr]; [exact (Hs Hr)|].
        unfold f_mkdir in Hr. rewrite (Hdn w H1), (Hway w Hf H1 H2) in Hr. discriminate.
      * intros w w' [H1 H2] Ho. apply mkdir_upd in Ho as [_ Hu]. exact (placed_upd ok w w' _ H1 H2 Hu).
      * intros w w' k [H1 H2] Hk Ho. apply mkdir_upd in Ho as [_ Hu]. apply (outcome_placed ok Err w' (IDir m t) (IDir (N.ldiff (N.land m 511) umask) now)).
        -- exact (placed_upd ok w w' _ H1 H2 Hu).
        -- auto.
        -- cbn. auto.
        -- discriminate.
        -- intros _ Hn. exact (Hn k Hk).
    + intros []. eapply triple_weak.
      * apply (attrs_triple ok (fun w => exists y, placed ok y w) IDir dst m t (N.ldiff (N.land m 511) umask) now builder_dir).
        intros w w' x1 x2 x3 x4 [y H] _ Hu. exists (IDir x3 x4). exact (placed_again _ _ _ _ _ H Hu).
      * intros w H. split; [exists (IDir (N.ldiff (N.land m 511) umask) now); exact H|]. apply H.
      * intros r w ([y Hy] & Hne & m' & t' & Hx & Hm & Ht & He). assert (y = IDir m' t') as ->.
        { destruct Hy as (_ & _ & _ & Hy). rewrite Hy in Hx. apply some_inj in Hx. exact Hx. }
        apply (outcome_placed ok r w (IDir m t) (IDir m' t')); [exact Hy|auto| | |].
        -- cbn. split; [tauto|tauto].
        -- intros Hr Hs. destruct (He Hr Hs) as [-> ->]. reflexivity.
        -- intros Hr. contradiction.
    + auto.
    + auto.
  - apply Hpar. eapply triple_weak; [apply (regular_triple ok m t d)|auto|].
    assert (Hpub : forall r w, published ok m t d w -> (r = Err -> no_late ok -> False) -> outcome ok r w).
    { intros r w ((E1 & E2 & E3) & E4 & E5 & m' & t' & E6 & E7 & E8 & E9) Hr. split; [exact E2|]. split; [intros H; congruence|]. split; [left; exact E1|].
      split; [right; exists (IFile m t d), (IFile m' t' d)|].
      - split; [auto|]. split; [exact E6|]. split; [cbn; split; [reflexivity|]; tauto|]. intros _ Hs. destruct (E9 Hs) as [-> ->]. reflexivity.
      - split; [intros _; split; [congruence|split; [congruence|exact E3]]|]. split; [intros H1 H2; destruct (Hr H1 H2)|]. split; [intros H1 [_ H2]; destruct (Hr H1 H2)|]. rewrite <- Ex. exact I. }
    intros r w H. destruct r as [[]| |].
    + apply Hpub; [exact H|discriminate].
    + destruct H as (E1 & E2 & E3 & E4 & E5 & E6). split; [exact E1|]. split; [exact E2|]. split; [exact E3|]. split.
      * destruct E4 as [E4|E4]; [left; exact E4|]. right. destruct E4 as (_ & _ & _ & m' & t' & F6 & F7 & F8 & F9). exists (IFile m t d), (IFile m' t' d).
        split; [auto|]. split; [exact F6|]. split; [cbn; split; [reflexivity|]; tauto|discriminate].
      * split; [discriminate|]. split; [exact E5|]. split; [intros H1 H2 H3 H4 H5; destruct (E6 H1 H2 H3 H4 H5)|]. rewrite <- Ex. exact I.
    + destruct H as (E1 & E2 & E3 & E4 & E5 & E6). split; [exact E1|]. split; [exact E2|]. split; [exact E3|]. split.
      * destruct E4 as [E4|E4]; [left; exact E4|]. right. destruct E4 as (_ & _ & _ & m' & t' & F6 & F7 & F8 & F9). exists (IFile m t d), (IFile m' t' d).
        split; [auto|]. split; [exact F6|]. split; [cbn; split; [reflexivity|]; tauto|discriminate].
      * split; [discriminate|]. split; [discriminate|]. split; [discriminate|]. rewrite <- Ex. exact I.
  - apply Hpar.
    apply (triple_bind _ _ _ _ (fun r w => (grown p0 w /\ told ok p0 w) /\ (r = Err -> ~ strict ok))).
    { apply triple_call.
      - intros w H. split; [exact H|discriminate].
      - intros w H Hr. split; [exact H|]. intros _ [Hs _]. destruct Hr as [Hr|Hr]; [exact (Hs Hr)|discriminate].
      - intros w w' H Ho. apply some_inj in Ho. subst w'. split; [exact H|discriminate].
      - intros w w' k H Hk Ho. apply some_inj in Ho. subst w'. split; [exact H|]. intros _ [_ Hs]. exact (Hs k Hk). }
    2:{ intros w [[H _] Hs]. apply outcome_early; [exact H|discriminate|]. intros E Hst. destruct (Hs E Hst). }
    2:{ intros w [[H _] Hs]. apply outcome_early; [exact H|discriminate|discriminate]. }
    intros [].
    assert (Hl : forall w w', grown p0 w -> told ok p0 w -> f_symlink tgt dst w = Some w' -> placed ok (ILink tgt) w').
    { intros w w' H1 H2 Ho. unfold f_symlink in Ho. destruct (get (k_fs w) dst); [discriminate|]. destruct (a_dir _ _); [|discriminate]. apply some_inj in Ho. subst w'.
      exact (placed_upd ok w _ _ H1 H2 (upd_put _ _ _)). }
    apply triple_call.
    + intros w [[H1 H2] _]. apply outcome_early; [exact H1|discriminate|discriminate].
    + intros w [[H1 H2] _] Hr. apply outcome_early; [exact H1|discriminate|]. intros _ [Hs _] Hf. exfalso. destruct Hr as [Hr|Hr]; [exact (Hs Hr)|].
      unfold f_symlink in Hr. rewrite (Hdn w H1), (Hway w Hf H1 H2) in Hr. discriminate.
    + intros w w' [[H1 H2] _] Ho. apply (outcome_placed ok (Val tt) w' (ILink tgt) (ILink tgt)); [exact (Hl w w' H1 H2 Ho)|auto|reflexivity|reflexivity|discriminate].
    + intros w w' k [[H1 H2] _] Hk Ho. apply (outcome_placed ok Err w' (ILink tgt) (ILink tgt)); [exact (Hl w w' H1 H2 Ho)|auto|reflexivity|reflexivity|]. intros _ Hn. exact (Hn k Hk).
  - eapply triple_weak; [apply (triple_fail ok (outcome ok))| |auto]. intros w Hw. apply outcome_early; [apply Hgp, Hw|discriminate|]. intros _ _ _. rewrite <- Ex. exact I.
  - eapply triple_weak; [apply (triple_fail ok (outcome ok))| |auto]. intros w Hw. apply outcome_early; [apply Hgp, Hw|discriminate|]. intros _ _ _. rewrite <- Ex. exact I.
Qed.

End Run.
