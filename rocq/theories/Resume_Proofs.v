From Verif Require Import Common CommonLemmas ContentRange_Model ContentRange_Proofs Resume_Model Resume_Spec.
Open Scope Z_scope.

(* ---------- a small program logic ---------- *)

Definition wp {A} (m : M A) (e : env) (n : nat) (s : files)
    (Q : A -> nat -> files -> Prop) (C : files -> Prop) : Prop :=
  match m e n s with Done a n' s' => Q a n' s' | Crashed s' => C s' end.

Lemma wp_ret {A} (a : A) e n s (Q : A -> nat -> files -> Prop) C : Q a n s -> wp (ret a) e n s Q C.
Proof. auto. Qed.

Lemma wp_bind {A B} (m : M A) (f : A -> M B) e n s Q C :
  wp m e n s (fun a n' s' => wp (f a) e n' s' Q C) C -> wp (bind m f) e n s Q C.
Proof. unfold wp, bind. destruct (m e n s); auto. Qed.

Lemma wp_conseq {A} (m : M A) e n s (Q Q' : A -> nat -> files -> Prop) (C C' : files -> Prop) :
  wp m e n s Q C -> (forall a n' s', Q a n' s' -> Q' a n' s') -> (forall s', C s' -> C' s') ->
  wp m e n s Q' C'.
Proof. unfold wp. destruct (m e n s); auto. Qed.

Lemma wp_atomic k eff e n s (Q : bool -> nat -> files -> Prop) (C : files -> Prop) :
  Q true (S n) (eff s) -> Q false (S n) s -> C s -> C (eff s) -> wp (atomic k eff) e n s Q C.
Proof. unfold wp, atomic. destruct (e k n) as [|j|[|j]]; auto. Qed.

Lemma wp_query k e n s (Q : bool -> nat -> files -> Prop) (C : files -> Prop) :
  (forall b, Q b (S n) s) -> C s -> wp (query k) e n s Q C.
Proof. intros H1 H2. apply wp_atomic; auto. Qed.

Lemma wp_stat k sel e n s (Q : statr -> nat -> files -> Prop) (C : files -> Prop) :
  Q StatErr (S n) s ->
  Q (match sel s with None => StatNone | Some b => StatSize (zlen b) end) (S n) s -> C s ->
  wp (stat_of k sel) e n s Q C.
Proof. unfold wp, stat_of. destruct (e k n); auto. Qed.

Lemma wp_read_side e n s (Q : option (list byte) -> nat -> files -> Prop) (C : files -> Prop) :
  Q None (S n) s -> Q (Some (side_etag s)) (S n) s -> C s -> wp read_sidecar e n s Q C.
Proof. unfold wp, read_sidecar. destruct (e OReadSide n); auto. Qed.

Lemma wp_write_part pos d e n s (Q : bool -> nat -> files -> Prop) (C : files -> Prop) :
  Q true (S n) (set_part s (Some (write_at (oget (f_part s)) pos d))) ->
  (forall k, Q false (S n) (set_part s (Some (write_at (oget (f_part s)) pos (firstn k d))))) ->
  (forall k, C (set_part s (Some (write_at (oget (f_part s)) pos (firstn k d))))) ->
  wp (write_part pos d) e n s Q C.
Proof.
  unfold wp, write_part. intros H1 H2 H3. destruct (e OWrite n); auto. rewrite firstn_all. auto.
Qed.

Lemma wp_remove_parts e n s (Q : bool -> nat -> files -> Prop) (C : files -> Prop) :
  Q true (S (S n)) (Files (f_final s) None None) ->
  Q false (S n) s -> Q false (S (S n)) (set_part s None) ->
  C s -> C (set_part s None) -> C (Files (f_final s) None None) ->
  wp remove_part_files e n s Q C.
Proof.
  intros. unfold remove_part_files. apply wp_bind. apply wp_atomic; cbn [negb]; auto.
  apply wp_atomic; auto.
Qed.

Lemma write_at_end (f d : list byte) : write_at f (length f) d = f ++ d.
Proof.
  unfold write_at. rewrite Nat.sub_diag. cbn [repeat]. rewrite app_nil_r, firstn_all.
  rewrite skipn_all2 by lia. now rewrite app_nil_r.
Qed.

(* The sidecar write: on success it names [etag]; otherwise it holds anything. *)
Lemma wp_write_sidecar etag e n s (Q : bool -> nat -> files -> Prop) (C : files -> Prop) :
  (forall n', Q true n' (set_side s (Some etag))) ->
  (forall n', Q false n' s) ->
  (forall n' k, Q false n' (set_side s (Some (firstn k etag)))) ->
  C s -> (forall k, C (set_side s (Some (firstn k etag)))) ->
  wp (write_sidecar etag) e n s Q C.
Proof.
  intros H1 H2 H3 H4 H5. unfold write_sidecar. apply wp_bind. apply wp_atomic; cbn [negb].
  2:{ apply wp_ret. apply H2. }
  2:{ exact H4. }
  2:{ apply (H5 O). }
  apply wp_bind. unfold wp at 1, side_write_op. unfold set_side at 1 2 3; cbn [f_final f_part].
  assert (forall w k, (w = true -> k = length etag) ->
     wp (c <- query OSideClose ;; ret (w && c)) e (S (S n))
       (Files (f_final s) (f_part s) (Some (firstn k etag))) Q C) as Hx.
  { intros w k Hw. apply wp_bind. apply wp_query.
    - intros b. apply wp_ret. destruct w; cbn [andb].
      + rewrite (Hw eq_refl), firstn_all. destruct b; [apply H1|].
        specialize (H3 (S (S (S n))) (length etag)). rewrite firstn_all in H3. exact H3.
      + apply (H3 _ k).
    - apply (H5 k). }
  destruct (e OSideWrite (S n)) as [|k|k].
  - apply (Hx true (length etag)); auto.
  - apply (Hx false k); discriminate.
  - apply (H5 k).
Qed.

(* ---------- Pull ---------- *)

Lemma prefix_refl {A} (l : list A) : prefix_of l l.
Proof. exists []. now rewrite app_nil_r. Qed.

Lemma prefix_trans {A} (a b c : list A) : prefix_of a b -> prefix_of b c -> prefix_of a c.
Proof. intros (x & ->) (y & ->). exists (x ++ y). now rewrite app_assoc. Qed.

Lemma prefix_app_l {A} (a b : list A) : prefix_of a (a ++ b).
Proof. exists b; reflexivity. Qed.

Lemma prefix_extend {A} (p d c : list A) :
  prefix_of p c -> prefix_of d (skipn (length p) c) -> prefix_of (p ++ d) c.
Proof.
  intros (r & ->) (q & Hq). rewrite skipn_app, Nat.sub_diag, skipn_all in Hq. cbn in Hq. subst r.
  exists q. now rewrite app_assoc.
Qed.


(* The state while copying: no final file, part file [p] of version [etag]. *)
Definition copying (content : list byte -> list byte) (etag p : list byte) (s : files) : Prop :=
  f_final s = None /\ f_part s = Some p /\ side_etag s = etag /\ prefix_of p (content etag).

Lemma copying_inv content etag p s : etag <> [] -> copying content etag p s -> part_inv content s.
Proof.
  intros He (H1 & H2 & H3 & H4) q Hq Hne. rewrite H2 in Hq. apply some_inj in Hq; subst q.
  rewrite H3. auto.
Qed.

Lemma ctx_copy_spec content etag : etag <> [] -> forall chunks eof p p0 written e n s,
  prefix_of p0 p -> copying content etag p s -> prefix_of (concat chunks) (skipn (length p) (content etag)) ->
  wp (ctx_copy chunks eof (length p) written) e n s
    (fun r n' s' => exists p', copying content etag p' s' /\ prefix_of p0 p' /\
       (fst r = true -> eof = true /\ p' = p ++ concat chunks /\ snd r = written + zlen (concat chunks)))
    (fun s' => exists p', copying content etag p' s' /\ prefix_of p0 p').
Proof.
  intros He. induction chunks as [|d rest IH]; intros eof p p0 written e n s Hp0 Hc Hpre; cbn [ctx_copy].
  - apply wp_bind. apply wp_query; [|exists p; auto]. intros [|]; cbn [negb]; apply wp_ret; exists p;
      (split; [exact Hc|]); (split; [exact Hp0|]); cbn [fst snd concat]; [|discriminate].
    intros ->. rewrite app_nil_r. change (zlen (@nil byte)) with 0. split; [reflexivity|]. split; [reflexivity|lia].
  - apply wp_bind. apply wp_query; [|exists p; auto]. intros [|]; cbn [negb].
    2:{ apply wp_ret. exists p. split; [exact Hc|]. split; [exact Hp0|]. cbn; discriminate. }
    destruct d as [|b d].
    { cbn [concat app] in *. apply IH; auto. }
    set (d' := b :: d) in *. cbn [concat] in Hpre.
    destruct Hc as (H1 & H2 & H3 & H4).
    assert (forall k, copying content etag (p ++ firstn k d')
              (set_part s (Some (write_at (oget (f_part s)) (length p) (firstn k d'))))) as Hk.
    { intros k. rewrite H2; cbn [oget]. rewrite write_at_end. repeat split; auto.
      apply prefix_extend; [exact H4|]. eapply prefix_trans; [|exact Hpre].
      eapply prefix_trans; [apply prefix_firstn, prefix_refl|apply prefix_app_l]. }
    assert (forall k, prefix_of p0 (p ++ firstn k d')) as Hpk
      by (intros k; eapply prefix_trans; [exact Hp0|apply prefix_app_l]).
    apply wp_bind. apply wp_write_part.
    + specialize (Hk (length d')). specialize (Hpk (length d')). rewrite firstn_all in Hk, Hpk.
      replace (length p + length d')%nat with (length (p ++ d')) by (rewrite app_length; reflexivity).
      eapply wp_conseq; [apply (IH eof (p ++ d') p0 (written + zlen d') e _ _ Hpk Hk)| |].
      * destruct Hpre as (q & Hq). exists q. rewrite app_length, <- skipn_skipn', Hq.
        rewrite <- app_assoc, skipn_app, skipn_all, Nat.sub_diag. reflexivity.
      * cbn beta. intros [ok w] n' s' (p' & Hc' & Hp' & Hok). exists p'. split; [exact Hc'|].
        split; [exact Hp'|]. intros Ho. destruct (Hok Ho) as (G1 & G2 & G3). cbn [concat].
        rewrite G2, app_assoc, zlen_app. split; [exact G1|]. split; [reflexivity|]. cbn [snd] in *. lia.
      * intros s' H; exact H.
    + intros k. apply wp_ret. exists (p ++ firstn k d'). split; [apply Hk|]. split; [apply Hpk|]. cbn; discriminate.
    + intros k. exists (p ++ firstn k d'). auto.
Qed.

Lemma no_part_inv content s : f_part s = None -> part_inv content s.
Proof. intros H p Hp. congruence. Qed.

Lemma empty_part_inv content s : f_part s = Some [] -> part_inv content s.
Proof. intros H p Hp Hne. congruence. Qed.

Lemma run_hooks_spec content etag p : etag <> [] -> forall hooks e n s, copying content etag p s ->
  wp (run_hooks hooks) e n s
    (fun ok n' s' => if ok : bool then copying content etag p s' /\ Forall (fun h => h p = true) hooks
                     else f_final s' = None /\ part_inv content s')
    (fun s' => f_final s' = None /\ part_inv content s').
Proof.
  intros He. induction hooks as [|h hooks IH]; intros e n s Hc; cbn [run_hooks].
  - apply wp_ret. split; [exact Hc|constructor].
  - pose proof (copying_inv _ _ _ _ He Hc) as Hinv. pose proof (proj1 Hc) as Hf.
    apply wp_bind. apply wp_query; [|auto]. intros k. apply wp_bind. unfold wp at 1.
    destruct (k && h (oget (f_part s))) eqn:Ev.
    + eapply wp_conseq; [apply (IH e _ s Hc)| |auto]. intros [|] n' s'; [|auto].
      intros [H1 H2]. split; [exact H1|]. constructor; [|exact H2].
      apply andb_true_iff in Ev. destruct Ev as [_ Ev]. rewrite (proj1 (proj2 Hc)) in Ev. exact Ev.
    + apply wp_bind. apply wp_query; [|auto]. intros _. apply wp_bind.
      apply wp_remove_parts; try (split; [exact Hf|first [exact Hinv|apply no_part_inv; reflexivity]]);
        apply wp_ret; (split; [exact Hf|first [exact Hinv|apply no_part_inv; reflexivity]]).
Qed.

(* Outcome of a Pull (from the copy on) that started at [p0] bytes. *)
Definition kept (p0 : list byte) (s : files) : Prop :=
  p0 <> [] -> exists p, f_part s = Some p /\ prefix_of p0 p.

Definition copy_post (content : list byte -> list byte) (etag p0 : list byte)
    (hooks : list (list byte -> bool)) (exp_size : Z) (r : pres) (s : files) : Prop :=
  part_inv content s /\
  match r with
  | PCommitted => f_final s = Some (content etag) /\ f_part s = None /\
                  (0 <= exp_size -> zlen (content etag) = exp_size) /\
                  Forall (fun h => h (content etag) = true) hooks
  | PExisting => False
  | PErr EHook => f_final s = None
  | PErr _ => f_final s = None /\ kept p0 s
  end.

Definition copy_crash (content : list byte -> list byte) (etag p0 : list byte)
    (hooks : list (list byte -> bool)) (s : files) : Prop :=
  part_inv content s /\
  (f_final s = None /\ (hooks = [] -> kept p0 s) \/ f_final s = Some (content etag)).

Lemma pull_copy_spec content hooks a startAt stored exp_etag exp_size e n s p0 :
  honest_answer content startAt a -> f_final s = None -> part_inv content s ->
  startAt = zlen p0 -> (stored = [] \/ stored = side_etag s) ->
  (p0 <> [] -> f_part s = Some p0 /\ side_etag s = a_etag a /\ stored = side_etag s) ->
  wp (pull_copy hooks a startAt stored exp_etag exp_size) e n s
    (fun r n' s' => copy_post content (a_etag a) p0 hooks exp_size r s')
    (copy_crash content (a_etag a) p0 hooks).
Proof.
  intros (Hgood & Hpre & Hsize) Hfin Hinv Hstart Hstored Hresume.
  destruct Hgood as [Hne Htrim]. unfold pull_copy.
  set (etag := a_etag a) in *.
  assert ((match etag with [] => exp_etag | _ => etag end) = etag) as Heff by (destruct etag; congruence).
  rewrite Heff. clear Heff.
  assert (Hfail0 : forall x, x <> EHook -> copy_post content etag p0 hooks exp_size (PErr x) s).
  { intros x Hx. split; [exact Hinv|]. destruct x; try congruence;
      (split; [exact Hfin|]; intros Hp; exists p0; split; [apply Hresume; exact Hp|apply prefix_refl]). }
  destruct ((0 <=? a_size a) && (0 <=? exp_size) && negb (a_size a =? exp_size)) eqn:Emis.
  { apply wp_ret. apply Hfail0; discriminate. }
  set (effSize := if 0 <=? a_size a then a_size a else if 0 <=? exp_size then exp_size else -1).
  (* the state after opening the part file *)
  set (s1 := set_part s (if startAt =? 0 then Some [] else Some (oget (f_part s)))).
  assert (Hs1 : f_part s1 = Some p0 /\ f_final s1 = None /\ side_etag s1 = side_etag s).
  { unfold s1; cbn [f_part f_final set_part]. repeat split; auto. destruct p0 as [|b p0].
    - change (zlen (@nil byte)) with 0 in Hstart. subst startAt. reflexivity.
    - rewrite zlen_cons in Hstart. pose proof (zlen_nonneg p0).
      destruct (Z.eqb_spec startAt 0); [lia|]. destruct (Hresume ltac:(discriminate)) as [-> _]. reflexivity. }
  destruct Hs1 as (Hs1p & Hs1f & Hs1s).
  assert (Hp0pre : prefix_of p0 (content etag)).
  { destruct p0 as [|b p0]; [exists (content etag); reflexivity|].
    destruct (Hresume ltac:(discriminate)) as (Hp & Hse & _).
    destruct (Hinv _ Hp ltac:(discriminate)) as [_ Hx]. rewrite Hse in Hx. exact Hx. }
  assert (Hinv1 : part_inv content s1).
  { intros q Hq Hqn. rewrite Hs1p in Hq. apply some_inj in Hq; subst q.
    destruct (Hresume Hqn) as (_ & Hse & _). rewrite Hs1s, Hse. auto. }
  (* a failure that leaves the part file as it was *)
  assert (Hfail1 : forall x s', x <> EHook -> f_final s' = None -> f_part s' = Some p0 ->
            part_inv content s' -> copy_post content etag p0 hooks exp_size (PErr x) s').
  { intros x s' Hx Hf Hp Hi. split; [exact Hi|]. destruct x; try congruence;
      (split; [exact Hf|]; intros _; exists p0; split; [exact Hp|apply prefix_refl]). }
  apply wp_bind. apply wp_atomic; cbn [negb]; fold s1.
  2:{ apply wp_ret. apply Hfail0; discriminate. }
  2:{ split; [exact Hinv|left; split; [exact Hfin|]]. intros _ Hp. exists p0. split; [apply Hresume; exact Hp|apply prefix_refl]. }
  2:{ split; [exact Hinv1|left; split; [exact Hs1f|]]. intros _ Hp. exists p0. split; [exact Hs1p|apply prefix_refl]. }
  (* the sidecar *)
  apply wp_bind.
  apply (wp_conseq _ _ _ _
    (fun (b : bool) _ s' => if b then copying content etag p0 s' else f_final s' = None /\ f_part s' = Some p0 /\ part_inv content s')
    _ (copy_crash content etag p0 hooks)); [| |auto].
  { destruct (negb (bytes_eqb etag []) && negb (bytes_eqb etag stored)) eqn:Ewr.
    - (* it is rewritten: then the part file is empty *)
      apply andb_true_iff in Ewr. destruct Ewr as [_ Ewr]. apply negb_true_iff in Ewr.
      assert (etag <> stored) as Hds by (intros E; apply bytes_eqb_eq in E; congruence).
      assert (p0 = []) as Hp0e.
      { destruct p0 as [|b p0]; [reflexivity|]. exfalso.
        destruct (Hresume ltac:(discriminate)) as (Hp & Hse & Hst). congruence. }
      subst p0.
      assert (forall b, part_inv content (set_side s1 b)) as Hie by (intros b; apply empty_part_inv; exact Hs1p).
      apply wp_write_sidecar.
      + intros n'. split; [exact Hs1f|]. split; [exact Hs1p|]. split; [exact Htrim|exists (content etag); reflexivity].
      + intros n'. auto.
      + intros n' k. split; [exact Hs1f|]. split; [exact Hs1p|]. apply Hie.
      + split; [exact Hinv1|left; split; [exact Hs1f|]]. intros _ Hp. congruence.
      + intros k. split; [apply Hie|left; split; [exact Hs1f|]]. intros _ Hp. congruence.
    - apply wp_ret. split; [exact Hs1f|]. split; [exact Hs1p|]. split; [|exact Hp0pre].
      assert (bytes_eqb etag [] = false) as E1.
      { destruct (bytes_eqb etag []) eqn:E; [apply bytes_eqb_eq in E; contradiction|reflexivity]. }
      rewrite E1 in Ewr. cbn in Ewr. apply negb_false_iff, bytes_eqb_eq in Ewr.
      rewrite Hs1s. destruct Hstored as [E|E]; congruence. }
  intros sw n2 s2 Hs2. destruct sw; cbn [negb].
  2:{ destruct Hs2 as (F2 & P2 & I2). apply wp_bind. apply wp_query; [|split; [exact I2|left; split; [exact F2|]]; intros _ _; exists p0; split; [exact P2|apply prefix_refl]].
      intros _. apply wp_ret. apply Hfail1; auto; discriminate. }
  pose proof (copying_inv _ _ _ _ Hne Hs2) as Hinv2. pose proof (proj1 Hs2) as Hfin2.
  pose proof (proj1 (proj2 Hs2)) as Hpart2.
  assert (Hcr : forall p s', prefix_of p0 p -> copying content etag p s' -> copy_crash content etag p0 hooks s').
  { intros p s' Hp Hc. split; [eapply copying_inv; eauto|left; split; [apply Hc|]].
    intros _ _. exists p. split; [apply Hc|exact Hp]. }
  assert (Hfc : forall p x s', x <> EHook -> prefix_of p0 p -> copying content etag p s' ->
            copy_post content etag p0 hooks exp_size (PErr x) s').
  { intros p x s' Hx Hp Hc. split; [eapply copying_inv; eauto|].
    destruct x; try congruence; (split; [apply Hc|]; intros _; exists p; split; [apply Hc|exact Hp]). }
  (* the seek *)
  apply wp_bind.
  apply (wp_conseq _ _ _ _ (fun (b : bool) _ s' => copying content etag p0 s') _ (copy_crash content etag p0 hooks)); [| |auto].
  { destruct (0 <? startAt); [|apply wp_ret; exact Hs2]. apply wp_query; [auto|apply (Hcr p0); [apply prefix_refl|exact Hs2]]. }
  intros sk n3 s3 Hs3. destruct sk; cbn [negb].
  2:{ apply wp_bind. apply wp_query; [|apply (Hcr p0); [apply prefix_refl|exact Hs3]]. intros _. apply wp_ret.
      apply (Hfc p0); [discriminate|apply prefix_refl|exact Hs3]. }
  (* the copy *)
  assert (Z.to_nat startAt = length p0) as Hpos by (unfold zlen in Hstart; lia). rewrite Hpos.
  apply wp_bind.
  eapply wp_conseq; [apply (ctx_copy_spec content etag Hne (a_chunks a) (a_eof a) p0 p0 0 e n3 s3)| |].
  { apply prefix_refl. }
  { exact Hs3. }
  { rewrite <- Hpos. exact Hpre. }
  2:{ intros s' (p' & Hc & Hpp). apply (Hcr p'); auto. }
  cbn beta. intros [ok written] n4 s4 (p4 & Hc4 & Hp4 & Hok). cbn [fst snd] in Hok.
  destruct (ok && (0 <=? effSize) && negb (startAt + written =? effSize)) eqn:Eshort.
  { apply wp_bind. apply wp_query; [|apply (Hcr p4); auto]. intros _. apply wp_ret. apply (Hfc p4); [discriminate|exact Hp4|exact Hc4]. }
  destruct ok; cbn [negb].
  2:{ apply wp_bind. apply wp_query; [|apply (Hcr p4); auto]. intros _. apply wp_ret. apply (Hfc p4); [discriminate|exact Hp4|exact Hc4]. }
  destruct (Hok eq_refl) as (Heof & Hp4e & Hw). cbn [andb] in Eshort.
  (* everything arrived *)
  assert (p4 = content etag) as Hfull.
  { destruct Hc4 as (_ & _ & _ & Hpp). destruct Hsize as [Hsz|[Hsz Hclean]].
    - apply prefix_same_len; [exact Hpp|]. rewrite <- Hsz.
      assert (0 <= a_size a) as Hnn by (rewrite Hsz; apply zlen_nonneg).
      assert (effSize = a_size a) as He by (unfold effSize; destruct (Z.leb_spec 0 (a_size a)); [reflexivity|lia]).
      rewrite He in Eshort. destruct (Z.leb_spec 0 (a_size a)); [|lia]. cbn [andb] in Eshort.
      apply negb_false_iff, Z.eqb_eq in Eshort. rewrite Hp4e, zlen_app. lia.
    - rewrite Hp4e, (Hclean Heof), Hpos. destruct Hp0pre as (r & Hr). rewrite Hr.
      rewrite skipn_app, skipn_all, Nat.sub_diag. reflexivity. }
  assert (Hexp : 0 <= exp_size -> zlen (content etag) = exp_size).
  { intros Hx. assert (effSize = exp_size) as He.
    { unfold effSize. destruct (Z.leb_spec 0 (a_size a)) as [Ha|Ha].
      - destruct (Z.leb_spec 0 exp_size); [|lia]. cbn [andb] in Emis.
        apply negb_false_iff, Z.eqb_eq in Emis. exact Emis.
      - destruct (Z.leb_spec 0 exp_size); [reflexivity|lia]. }
    rewrite He in Eshort. destruct (Z.leb_spec 0 exp_size); [|lia]. cbn [andb] in Eshort.
    apply negb_false_iff, Z.eqb_eq in Eshort. rewrite <- Hfull, Hp4e, zlen_app. lia. }
  (* hooks *)
  apply wp_bind.
  apply (wp_conseq _ _ _ _
    (fun (b : bool) _ s' => if b then copying content etag p4 s' /\ Forall (fun h => h p4 = true) hooks else f_final s' = None /\ part_inv content s')
    _ (copy_crash content etag p0 hooks)); [| |auto].
  { destruct hooks as [|h0 hs]; [apply wp_ret; split; [exact Hc4|constructor]|].
    eapply wp_conseq; [apply (run_hooks_spec content etag p4 Hne (h0 :: hs) e n4 s4 Hc4)|auto|].
    intros s' [F I]. split; [exact I|left; split; [exact F|discriminate]]. }
  cbn beta. intros h n5 s5 Hs5. destruct h; cbn [negb].
  2:{ apply wp_ret. destruct Hs5 as [F I]. split; auto. }
  destruct Hs5 as [Hs5 Hhk]. rewrite Hfull in Hhk.
  apply wp_bind. apply wp_query; [|apply (Hcr p4); auto]. intros c. destruct c; cbn [negb].
  2:{ apply wp_ret. apply (Hfc p4); [discriminate|exact Hp4|exact Hs5]. }
  apply wp_bind. unfold rename_part, wp at 1. destruct Hs5 as (F5 & P5 & S5 & X5). rewrite P5.
  assert (Hc5 : copying content etag p4 s5) by (repeat split; auto).
  apply (wp_atomic ORename (fun s0 : files => Files (Some p4) None (f_side s0)) e (S n5) s5); cbn [negb].
  - apply wp_bind. apply wp_atomic.
    + apply wp_ret. split; [apply no_part_inv; reflexivity|]. cbn. rewrite Hfull; auto.
    + apply wp_ret. split; [apply no_part_inv; reflexivity|]. cbn. rewrite Hfull; auto.
    + split; [apply no_part_inv; reflexivity|]. right. cbn. now rewrite Hfull.
    + split; [apply no_part_inv; reflexivity|]. right. cbn. now rewrite Hfull.
  - apply wp_ret. apply (Hfc p4); [discriminate|exact Hp4|exact Hc5].
  - apply (Hcr p4); auto.
  - split; [apply no_part_inv; reflexivity|]. right. cbn. now rewrite Hfull.
Qed.

(* ---- the whole of Pull ---- *)

(* Version [etag] was reported by an Open of this call and is the one asked for. *)
Definition checked (src : psource) (exp_etag etag : list byte) : Prop :=
  reported src etag /\ (exp_etag = [] \/ etag = exp_etag).

Definition pull_post content src hooks exp_etag exp_size (s0 : files) (r : pres) (s : files) : Prop :=
  part_inv content s /\
  match r with
  | PExisting => s = s0 /\ f_final s0 <> None
  | PCommitted => f_final s0 = None /\
      exists etag, checked src exp_etag etag /\ f_final s = Some (content etag) /\ f_part s = None /\
        (0 <= exp_size -> zlen (content etag) = exp_size) /\
        Forall (fun h => h (content etag) = true) hooks
  | PErr _ => f_final s = f_final s0 /\ (f_final s0 <> None -> s = s0)
  end.

Definition pull_crash content src exp_etag (s0 s : files) : Prop :=
  part_inv content s /\
  (f_final s = f_final s0 /\ (f_final s0 <> None -> s = s0) \/
   f_final s0 = None /\ exists etag, checked src exp_etag etag /\ f_final s = Some (content etag)).

Lemma copy_to_post content src hooks exp_etag exp_size etag p0 s0 r s :
  f_final s0 = None -> checked src exp_etag etag ->
  copy_post content etag p0 hooks exp_size r s -> pull_post content src hooks exp_etag exp_size s0 r s.
Proof.
  intros H0 Hc [Hi H]. split; [exact Hi|]. destruct r as [| |x].
  - contradiction.
  - split; [exact H0|]. exists etag. tauto.
  - assert (f_final s = None) as Hf by (destruct x; tauto). split; [congruence|]. intros Hx; congruence.
Qed.

Lemma copy_to_crash content src hooks exp_etag etag p0 s0 s :
  f_final s0 = None -> checked src exp_etag etag ->
  copy_crash content etag p0 hooks s -> pull_crash content src exp_etag s0 s.
Proof.
  intros H0 Hc [Hi H]. split; [exact Hi|]. destruct H as [[H _]|H].
  - left. split; [congruence|]. intros Hx; congruence.
  - right. split; [exact H0|]. exists etag. auto.
Qed.

Lemma part_inv_set_final content s x : part_inv content s -> part_inv content (set_final s x).
Proof. intros H. exact H. Qed.

Lemma trim_space_idem_side s : f_side s = None -> side_etag s = [].
Proof. intros H. unfold side_etag. now rewrite H. Qed.

Lemma pull_open_spec content hooks src startAt stored exp_etag exp_size e n s p0 s0 :
  honest_source content src -> f_final s = None -> f_final s0 = None -> part_inv content s ->
  startAt = zlen p0 ->
  (p0 = [] /\ (stored = [] \/ stored = side_etag s) \/
   f_part s = Some p0 /\ stored = side_etag s) ->
  (p0 <> [] -> exp_etag = [] \/ stored = exp_etag) ->
  wp (pull_open hooks src startAt stored exp_etag exp_size) e n s
    (fun r n' s' => pull_post content src hooks exp_etag exp_size s0 r s')
    (pull_crash content src exp_etag s0).
Proof.
  intros Hsrc Hfin H0 Hinv Hstart Hst Hcon. unfold pull_open.
  assert (Hfail : forall x s', f_final s' = None -> part_inv content s' ->
            pull_post content src hooks exp_etag exp_size s0 (PErr x) s').
  { intros x s' F I. split; [exact I|]. split; [congruence|]. intros Hx; congruence. }
  assert (Hcrash : forall s', f_final s' = None -> part_inv content s' -> pull_crash content src exp_etag s0 s').
  { intros s' F I. split; [exact I|]. left. split; [congruence|]. intros Hx; congruence. }
  pose proof (zlen_nonneg p0) as Hnn.
  destruct (src 0%nat startAt) as [a|] eqn:E0; [|apply wp_ret; apply Hfail; auto].
  pose proof (Hsrc 0%nat startAt a ltac:(lia) E0) as Hha.
  destruct (negb (bytes_eqb exp_etag []) && negb (bytes_eqb (a_etag a) []) && negb (bytes_eqb (a_etag a) exp_etag)) eqn:Ech.
  { apply wp_ret. apply Hfail; auto. }
  assert (Hne : bytes_eqb (a_etag a) [] = false).
  { destruct (bytes_eqb (a_etag a) []) eqn:E; [|reflexivity]. apply bytes_eqb_eq in E.
    destruct Hha as ((Hx & _) & _). contradiction. }
  assert (Hchk : exp_etag = [] \/ a_etag a = exp_etag).
  { rewrite Hne in Ech. cbn [negb] in Ech. rewrite andb_true_r in Ech.
    destruct (bytes_eqb exp_etag []) eqn:E1; [left; apply bytes_eqb_eq; exact E1|].
    right. cbn [negb andb] in Ech. apply negb_false_iff, bytes_eqb_eq in Ech. exact Ech. }
  assert (Hc0 : checked src exp_etag (a_etag a)).
  { split; [exists 0%nat, startAt, a; auto|exact Hchk]. }
  rewrite Hne. cbn [orb].
  destruct (Z.ltb_spec 0 startAt) as [Hpos|Hz].
  - (* a non-empty part file *)
    assert (p0 <> []) as Hp0 by (intros ->; change (zlen (@nil byte)) with 0 in Hstart; lia).
    destruct Hst as [[Hx _]|[Hpart Hstored]]; [contradiction|].
    destruct (Hinv _ Hpart Hp0) as [Hse Hpre].
    assert (bytes_eqb stored [] = false) as Hsn.
    { destruct (bytes_eqb stored []) eqn:E; [|reflexivity]. apply bytes_eqb_eq in E. congruence. }
    rewrite Hsn. cbn [andb]. rewrite orb_false_r.
    destruct (bytes_eqb (a_etag a) stored) eqn:Etr; cbn [negb andb].
    + apply bytes_eqb_eq in Etr.
      eapply wp_conseq; [apply (pull_copy_spec content hooks a startAt stored exp_etag exp_size e n s p0)| |]; auto.
      * intros _. split; [exact Hpart|]. split; [congruence|exact Hstored].
      * intros r n' s' H. eapply copy_to_post; [exact H0| |exact H]; auto.
      * intros s' H. eapply copy_to_crash; [exact H0| |exact H]; auto.
    + apply wp_bind. apply wp_remove_parts.
      * (* removed *)
        cbn [negb]. destruct (src 1%nat 0) as [a'|] eqn:E1.
        2:{ apply wp_ret. apply Hfail; [exact Hfin|apply no_part_inv; reflexivity]. }
        pose proof (Hsrc 1%nat 0 a' ltac:(lia) E1) as Hha'.
        assert (Hc1 : checked src exp_etag (a_etag a')).
        { split; [exists 1%nat, 0, a'; auto|left].
          destruct (Hcon Hp0) as [Hx|Hx]; [exact Hx|]. destruct Hchk as [Hy|Hy]; [exact Hy|].
          rewrite Hy, <- Hx, (proj2 (bytes_eqb_eq stored stored) eq_refl) in Etr. discriminate. }
        eapply wp_conseq; [apply (pull_copy_spec content hooks a' 0 [] exp_etag exp_size e _ _ [])| |].
        -- exact Hha'.
        -- exact Hfin.
        -- apply no_part_inv; reflexivity.
        -- reflexivity.
        -- left; reflexivity.
        -- intros Hx; contradiction.
        -- intros r n' s' H. eapply copy_to_post; [exact H0| |exact H]; auto.
        -- intros s' H. eapply copy_to_crash; [exact H0| |exact H]; auto.
      * apply wp_ret. apply Hfail; auto.
      * apply wp_ret. apply Hfail; [exact Hfin|apply no_part_inv; reflexivity].
      * apply Hcrash; auto.
      * apply Hcrash; [exact Hfin|apply no_part_inv; reflexivity].
      * apply Hcrash; [exact Hfin|apply no_part_inv; reflexivity].
  - (* from the start *)
    assert (p0 = []) as ->.
    { destruct p0; [reflexivity|]. rewrite zlen_cons in Hstart. pose proof (zlen_nonneg p0). lia. }
    cbn [andb].
    eapply wp_conseq; [apply (pull_copy_spec content hooks a startAt stored exp_etag exp_size e n s [])| |]; auto.
    + destruct Hst as [[_ H]|[_ H]]; auto.
    + intros Hx; contradiction.
    + intros r n' s' H. eapply copy_to_post; [exact H0| |exact H]; auto.
    + intros s' H. eapply copy_to_crash; [exact H0| |exact H]; auto.
Qed.

Lemma pull_spec content hooks src exp_etag exp_size e n s :
  honest_source content src -> part_inv content s ->
  wp (pull hooks src exp_etag exp_size) e n s
    (fun r n' s' => pull_post content src hooks exp_etag exp_size s r s')
    (pull_crash content src exp_etag s).
Proof.
  intros Hsrc Hinv. unfold pull.
  assert (Hfail : forall x s', f_final s' = f_final s -> (f_final s <> None -> s' = s) -> part_inv content s' ->
            pull_post content src hooks exp_etag exp_size s (PErr x) s').
  { intros x s' F E I. split; auto. }
  assert (Hcrash : forall s', f_final s' = f_final s -> (f_final s <> None -> s' = s) -> part_inv content s' ->
            pull_crash content src exp_etag s s').
  { intros s' F E I. split; [exact I|left; auto]. }
  apply wp_bind. apply wp_stat; [apply wp_ret; apply Hfail; auto| |apply Hcrash; auto].
  destruct (f_final s) as [fin|] eqn:Efin.
  { destruct ((0 <=? exp_size) && negb (zlen fin =? exp_size)); apply wp_ret; [apply Hfail; auto|].
    split; [exact Hinv|]. split; [reflexivity|congruence]. }
  apply wp_bind. apply wp_stat; [apply wp_ret; apply Hfail; auto| |apply Hcrash; auto].
  destruct (f_part s) as [p|] eqn:Epart.
  2:{ apply (pull_open_spec content hooks src 0 [] exp_etag exp_size e _ s [] s); auto. intros Hx; contradiction. }
  apply wp_bind. apply wp_read_side; [apply wp_ret; apply Hfail; auto| |apply Hcrash; auto].
  match goal with |- wp (if ?b then _ else _) _ _ _ _ _ => destruct b eqn:Eb end.
  - assert (Hno : part_inv content (set_part s None)) by (apply no_part_inv; reflexivity).
    assert (Hno2 : part_inv content (Files (f_final s) None None)) by (apply no_part_inv; reflexivity).
    apply wp_bind. apply wp_remove_parts.
    + cbn [negb]. apply (pull_open_spec content hooks src 0 [] exp_etag exp_size e _ _ [] s); auto. intros Hx; contradiction.
    + apply wp_ret. apply Hfail; auto.
    + apply wp_ret. apply Hfail; auto. intros Hx; congruence.
    + apply Hcrash; auto.
    + apply Hcrash; auto. intros Hx; congruence.
    + apply Hcrash; auto. intros Hx; congruence.
  - apply (pull_open_spec content hooks src (zlen p) (side_etag s) exp_etag exp_size e _ s p s); auto.
    intros Hp. apply orb_false_iff in Eb. destruct Eb as [_ Eb].
    destruct (Hinv _ Epart Hp) as [Hse _].
    destruct (bytes_eqb exp_etag []) eqn:E1; [left; apply bytes_eqb_eq; exact E1|].
    destruct (bytes_eqb (side_etag s) []) eqn:E2; [apply bytes_eqb_eq in E2; contradiction|].
    right. cbn [negb andb] in Eb. apply negb_false_iff, bytes_eqb_eq in Eb. exact Eb.
Qed.

Definition honest_call content (c : pcall) : Prop := honest_source content (pc_src c).

Lemma run_pulls_inv content cs : Forall (honest_call content) cs ->
  forall s, part_inv content s -> part_inv content (run_pulls cs s) /\
    (f_final s <> None -> run_pulls cs s = s) /\
    (forall b, f_final s = None -> f_final (run_pulls cs s) = Some b ->
       exists c etag, In c cs /\ checked (pc_src c) (pc_etag c) etag /\ b = content etag).
Proof.
  induction 1 as [|c cs Hc Hcs IH]; intros s Hinv; cbn [run_pulls].
  - split; [exact Hinv|]. split; [auto|]. intros b H1 H2; congruence.
  - pose proof (pull_spec content (pc_hooks c) (pc_src c) (pc_etag c) (pc_size c) (pc_env c) 0%nat s Hc Hinv) as H.
    unfold wp in H. fold (run_pull c s) in H.
    assert (part_inv content (run_files (run_pull c s)) /\
            (f_final s <> None -> run_files (run_pull c s) = s) /\
            (f_final s = None -> f_final (run_files (run_pull c s)) = None \/
               exists etag, checked (pc_src c) (pc_etag c) etag /\
                 f_final (run_files (run_pull c s)) = Some (content etag))) as (I1 & E1 & F1).
    { destruct (run_pull c s) as [r n' s'|s']; cbn [run_files].
      - destruct H as [I H]. split; [exact I|]. destruct r as [| |x].
        + destruct H as [-> H]. split; [auto|]. intros Hx; contradiction.
        + destruct H as (H0 & etag & Hk & Hf & _). split; [intros Hx; contradiction|]. intros _. right. eauto.
        + destruct H as [Hf He]. split; [exact He|]. intros Hx. left. congruence.
      - destruct H as [I H]. split; [exact I|]. destruct H as [[Hf He]|(H0 & etag & Hk & Hf)].
        + split; [exact He|]. intros Hx. left. congruence.
        + split; [intros Hx; contradiction|]. intros _. right. eauto. }
    specialize (IH _ I1). destruct IH as (I2 & E2 & F2). split; [exact I2|]. split.
    + intros Hx. rewrite (E1 Hx) in *. apply E2. exact Hx.
    + intros b H0 Hb. destruct (F1 H0) as [Hn|(etag & Hk & Hf)].
      * destruct (F2 b Hn Hb) as (c' & etag & Hin & Hk). exists c', etag. split; [right; exact Hin|exact Hk].
      * rewrite (E2 ltac:(congruence)) in Hb. exists c, etag. split; [left; reflexivity|]. split; [exact Hk|congruence].
Qed.

(* Resuming keeps what is there. *)
Lemma pull_resume_spec content hooks src exp_etag exp_size e n s p a :
  honest_source content src -> part_inv content s -> f_final s = None -> f_part s = Some p -> p <> [] ->
  src O (zlen p) = Some a -> a_etag a = side_etag s ->
  (exp_etag = [] \/ exp_etag = side_etag s) -> (exp_size < 0 \/ zlen p <= exp_size) ->
  wp (pull hooks src exp_etag exp_size) e n s
    (fun r n' s' => match r with
                    | PExisting => False
                    | PCommitted => f_final s' = Some (content (side_etag s))
                    | PErr EHook => True
                    | PErr _ => kept p s'
                    end)
    (fun s' => hooks = [] -> kept p s' \/ f_final s' = Some (content (side_etag s))).
Proof.
  intros Hsrc Hinv Hfin Hpart Hp Ha Hae Hexp Hsz. unfold pull.
  assert (Hk : kept p s) by (intros _; exists p; split; [exact Hpart|apply prefix_refl]).
  destruct (Hinv _ Hpart Hp) as [Hse Hpre].
  apply wp_bind. apply wp_stat; [apply wp_ret; exact Hk| |auto]. rewrite Hfin.
  apply wp_bind. apply wp_stat; [apply wp_ret; exact Hk| |auto]. rewrite Hpart.
  apply wp_bind. apply wp_read_side; [apply wp_ret; exact Hk| |auto].
  replace ((0 <=? exp_size) && (exp_size <? zlen p)) with false.
  2:{ symmetry. apply andb_false_iff. destruct Hsz; [left; apply Z.leb_gt; lia|right; apply Z.ltb_ge; lia]. }
  cbn [orb].
  assert (negb (bytes_eqb (side_etag s) []) && negb (bytes_eqb exp_etag []) && negb (bytes_eqb (side_etag s) exp_etag) = false) as ->.
  { destruct Hexp as [-> | ->].
    - rewrite andb_false_r. reflexivity.
    - rewrite (proj2 (bytes_eqb_eq _ _) eq_refl). apply andb_false_r. }
  unfold pull_open. rewrite Ha, Hae.
  assert (negb (bytes_eqb exp_etag []) && negb (bytes_eqb (side_etag s) []) && negb (bytes_eqb (side_etag s) exp_etag) = false) as ->.
  { destruct Hexp as [-> | ->].
    - reflexivity.
    - rewrite (proj2 (bytes_eqb_eq (side_etag s) (side_etag s)) eq_refl). apply andb_false_r. }
  rewrite (proj2 (bytes_eqb_eq (side_etag s) (side_etag s)) eq_refl).
  rewrite orb_true_r. cbn [orb negb]. rewrite andb_false_r.
  pose proof (zlen_nonneg p).
  eapply wp_conseq; [apply (pull_copy_spec content hooks a (zlen p) (side_etag s) exp_etag exp_size e _ s p)| |]; auto.
  - apply (Hsrc 0%nat (zlen p) a); [lia|exact Ha].
  - intros r n' s' [_ H1]. destruct r as [| |x]; [contradiction|rewrite <- Hae; apply H1|].
    destruct x; try exact I; apply H1.
  - intros s' [_ H1] Hh. destruct H1 as [[_ H1]|H1]; [left; auto|right; congruence].
Qed.

(* ---- Push ---- *)

Lemma wp_write_sidecar_safe etag e n s (Q : bool -> nat -> files -> Prop) (C : files -> Prop) :
  side_safe e ->
  (forall b n', Q b n' (set_side s (Some etag))) ->
  (forall n', Q false n' s) -> C s -> C (set_side s (Some etag)) ->
  wp (write_sidecar etag) e n s Q C.
Proof.
  intros Hsafe H1 H2 H3 H4. unfold write_sidecar, wp, bind, atomic, query, side_write_op, ret.
  destruct (Hsafe n) as [_ Ho]. destruct (Hsafe (S n)) as [Hw _].
  destruct (e OSideOpen n) as [|k|[|k]] eqn:Eo; cbn [negb].
  - rewrite Hw, firstn_all. unfold atomic. cbn [set_side f_final f_part].
    destruct (e OSideClose (S (S n))) as [|k|[|k]]; cbn [andb].
    + apply (H1 true).
    + apply (H1 false).
    + exact H4.
    + exact H4.
  - apply H2.
  - exact H3.
  - exfalso. eapply Ho; eauto.
Qed.

Lemma io_copy_spec content etag : etag <> [] -> forall chunks eof p e n s,
  copying content etag p s -> prefix_of (concat chunks) (skipn (length p) (content etag)) ->
  wp (io_copy chunks eof (length p)) e n s
    (fun r n' s' => exists p', copying content etag p' s' /\
       (r = true -> eof = true /\ p' = p ++ concat chunks))
    (fun s' => exists p', copying content etag p' s').
Proof.
  intros He. induction chunks as [|d rest IH]; intros eof p e n s Hc Hpre; cbn [io_copy].
  - apply wp_ret. exists p. split; [exact Hc|]. intros H. cbn [concat]. rewrite app_nil_r. auto.
  - cbn [concat] in Hpre. destruct Hc as (H1 & H2 & H3 & H4).
    assert (forall k, copying content etag (p ++ firstn k d)
              (set_part s (Some (write_at (oget (f_part s)) (length p) (firstn k d))))) as Hk.
    { intros k. rewrite H2; cbn [oget]. rewrite write_at_end. repeat split; auto.
      apply prefix_extend; [exact H4|]. eapply prefix_trans; [|exact Hpre].
      eapply prefix_trans; [apply prefix_firstn, prefix_refl|apply prefix_app_l]. }
    apply wp_bind. apply wp_write_part.
    + specialize (Hk (length d)). rewrite firstn_all in Hk.
      replace (length p + length d)%nat with (length (p ++ d)) by (rewrite app_length; reflexivity).
      eapply wp_conseq; [apply (IH eof (p ++ d) e _ _ Hk)| |].
      * destruct Hpre as (q & Hq). exists q. rewrite app_length, <- skipn_skipn', Hq.
        rewrite <- app_assoc, skipn_app, skipn_all, Nat.sub_diag. reflexivity.
      * cbn beta. intros ok n' s' (p' & Hc' & Hok). exists p'. split; [exact Hc'|].
        intros Ho. destruct (Hok Ho) as (G1 & G2). cbn [concat]. rewrite G2, app_assoc. auto.
      * intros s' H; exact H.
    + intros k. apply wp_ret. exists (p ++ firstn k d). split; [apply Hk|]. discriminate.
    + intros k. exists (p ++ firstn k d). apply Hk.
Qed.

(* Append onto the first [length p0] bytes. *)
Lemma sink_append_spec content etag p0 chunks eof e n s :
  good_etag etag -> side_safe e -> f_final s = None -> part_inv content s -> prefix_of p0 (content etag) ->
  (p0 <> [] -> f_part s = Some p0 /\ side_etag s = etag) ->
  prefix_of (concat chunks) (skipn (length p0) (content etag)) ->
  wp (sink_append etag (zlen p0) chunks eof) e n s
    (fun r n' s' => f_final s' = None /\ part_inv content s' /\
       (r = true -> copying content etag (p0 ++ concat chunks) s' /\ eof = true))
    (fun s' => f_final s' = None /\ part_inv content s').
Proof.
  intros [Hne Htrim] Hsafe Hfin Hinv Hpre0 Hres Hpre. unfold sink_append.
  set (s1 := set_part s (if zlen p0 =? 0 then Some [] else Some (oget (f_part s)))).
  assert (Hs1 : f_part s1 = Some p0 /\ f_final s1 = None /\ side_etag s1 = side_etag s).
  { unfold s1; cbn [f_part f_final set_part]. repeat split; auto. destruct p0 as [|b p0]; [reflexivity|].
    destruct (Z.eqb_spec (zlen (b :: p0)) 0) as [E|E].
    - rewrite zlen_cons in E. pose proof (zlen_nonneg p0). lia.
    - destruct (Hres ltac:(discriminate)) as [-> _]. reflexivity. }
  destruct Hs1 as (Hs1p & Hs1f & Hs1s).
  assert (Hinv1 : part_inv content s1).
  { intros q Hq Hqn. rewrite Hs1p in Hq. apply some_inj in Hq; subst q.
    destruct (Hres Hqn) as (_ & Hse). rewrite Hs1s, Hse. auto. }
  assert (Hinv1' : part_inv content (set_side s1 (Some etag))).
  { apply (copying_inv content etag p0); [exact Hne|]. split; [exact Hs1f|]. split; [exact Hs1p|]. split; auto. }
  apply wp_bind. apply wp_atomic; cbn [negb]; fold s1; auto.
  2:{ apply wp_ret. split; [exact Hfin|]. split; [exact Hinv|discriminate]. }
  apply wp_bind.
  apply (wp_conseq _ _ _ _ (fun (b : bool) _ s' => s' = s1) _ (fun s' => f_final s' = None /\ part_inv content s')); [| |auto].
  { destruct (Z.eqb_spec (zlen p0) 0) as [E|E]; [apply wp_ret; reflexivity|].
    apply wp_bind. apply wp_stat; [| |auto].
    - apply wp_bind. apply wp_query; auto. intros _. apply wp_ret. reflexivity.
    - rewrite Hs1p. destruct (Z.ltb_spec (zlen p0) (zlen p0)); [lia|].
      apply wp_bind. apply wp_ret. cbn [negb].
      apply wp_bind. apply wp_query; auto. intros [|]; cbn [negb]; [apply wp_ret; reflexivity|].
      apply wp_bind. apply wp_query; auto. intros _. apply wp_ret. reflexivity. }
  intros ready n2 s2 ->. destruct ready; cbn [negb].
  2:{ apply wp_ret. split; [exact Hs1f|]. split; [exact Hinv1|discriminate]. }
  apply wp_bind.
  assert (bytes_eqb etag [] = false) as ->.
  { destruct (bytes_eqb etag []) eqn:E; [apply bytes_eqb_eq in E; contradiction|reflexivity]. }
  cbn [negb]. apply wp_write_sidecar_safe; auto.
  2:{ intros n'. cbn [negb]. apply wp_bind. apply wp_query; auto. intros _. apply wp_ret.
      split; [exact Hs1f|]. split; [exact Hinv1|discriminate]. }
  intros b n'. destruct b; cbn [negb].
  2:{ apply wp_bind. apply wp_query; auto. intros _. apply wp_ret.
      split; [exact Hs1f|]. split; [exact Hinv1'|discriminate]. }
  assert (Z.to_nat (zlen p0) = length p0) as -> by (unfold zlen; lia).
  apply wp_bind. eapply wp_conseq; [apply (io_copy_spec content etag Hne chunks eof p0 e n' (set_side s1 (Some etag)))| |].
  - split; [exact Hs1f|]. split; [exact Hs1p|]. split; auto.
  - exact Hpre.
  - cbn beta. intros r n3 s3 (p' & Hc & Hr). pose proof (copying_inv _ _ _ _ Hne Hc) as Hi3.
    pose proof (proj1 Hc) as Hf3. apply wp_bind. apply wp_query; auto. intros b. apply wp_ret.
    split; [exact Hf3|]. split; [exact Hi3|]. intros Hb. apply andb_true_iff in Hb. destruct Hb as [Hb _].
    destruct (Hr Hb) as [He Hp]. subst p'. auto.
  - cbn beta. intros s' (p' & Hc). split; [apply Hc|]. eapply copying_inv; eauto.
Qed.

Definition push_post content (c : ucall) (s0 : files) (r : ures) (s : files) : Prop :=
  part_inv content s /\
  match r with
  | UComplete => s = s0 /\ f_final s0 <> None
  | UCommitted => f_final s0 = None /\ f_final s = Some (uc_data c) /\ f_part s = None
  | UErr => f_final s = f_final s0 /\ (f_final s0 <> None -> s = s0)
  end.

Definition push_crash content (c : ucall) (s0 s : files) : Prop :=
  part_inv content s /\
  (f_final s = f_final s0 /\ (f_final s0 <> None -> s = s0) \/
   f_final s0 = None /\ f_final s = Some (uc_data c)).

Lemma push_commit_spec content c e n s s0 :
  f_final s0 = None -> f_final s = None -> f_part s = Some (uc_data c) -> part_inv content s ->
  wp (x <- sink_commit ;; ret (if x then UCommitted else UErr)) e n s
    (fun r n' s' => push_post content c s0 r s') (push_crash content c s0).
Proof.
  intros H0 Hf Hp Hi.
  assert (Herr : push_post content c s0 UErr s).
  { split; [exact Hi|]. split; [congruence|]. intros Hx; congruence. }
  assert (Hcr : push_crash content c s0 s).
  { split; [exact Hi|]. left. split; [congruence|]. intros Hx; congruence. }
  apply wp_bind. unfold sink_commit. apply wp_bind. apply wp_stat; [apply wp_ret; apply wp_ret; exact Herr| |exact Hcr].
  rewrite Hf. apply wp_bind. unfold rename_part, wp at 1. rewrite Hp.
  apply (wp_atomic ORename (fun s0 : files => Files (Some (uc_data c)) None (f_side s0)) e (S n) s); cbn [negb].
  - apply wp_bind. apply wp_atomic.
    + apply wp_ret. apply wp_ret. split; [apply no_part_inv; reflexivity|]. cbn. auto.
    + apply wp_ret. apply wp_ret. split; [apply no_part_inv; reflexivity|]. cbn. auto.
    + split; [apply no_part_inv; reflexivity|]. right. cbn. auto.
    + split; [apply no_part_inv; reflexivity|]. right. cbn. auto.
  - apply wp_ret. apply wp_ret. exact Herr.
  - exact Hcr.
  - split; [apply no_part_inv; reflexivity|]. right. cbn. auto.
Qed.

Lemma push_spec content c n s :
  honest_push content c -> uc_data c <> [] -> side_safe (uc_env c) -> part_inv content s ->
  wp (push (uc_data c) (uc_rd c) (uc_etag c) (uc_size c)) (uc_env c) n s
    (fun r n' s' => push_post content c s r s') (push_crash content c s).
Proof.
  intros (Hgood & Hcont & Hrd) Hdne Hsafe Hinv. unfold push.
  assert (Herr : forall s', f_final s' = f_final s -> (f_final s <> None -> s' = s) -> part_inv content s' ->
            push_post content c s UErr s') by (intros s' F E I; split; auto).
  assert (Hcr : forall s', f_final s' = f_final s -> (f_final s <> None -> s' = s) -> part_inv content s' ->
            push_crash content c s s') by (intros s' F E I; split; auto).
  apply wp_bind. apply wp_query; [|apply Hcr; auto]. intros [|]; cbn [negb]; [|apply wp_ret; apply Herr; auto].
  apply wp_bind. apply wp_query; [|apply Hcr; auto]. intros [|]; cbn [negb]; [|apply wp_ret; apply Herr; auto].
  destruct ((0 <=? uc_size c) && negb (uc_size c =? zlen (uc_data c))); [apply wp_ret; apply Herr; auto|].
  apply wp_bind.
  apply (wp_conseq _ _ _ _
    (fun k _ s' => s' = s /\
       match k with
       | KErr => True
       | KState _ _ true => f_final s <> None
       | KState off et false => f_final s = None /\ off = zlen (oget (f_part s)) /\
            (f_part s <> None -> et = side_etag s)
       end) _ (push_crash content c s)); [| |auto].
  { unfold sink_state. apply wp_bind. apply wp_stat; [apply wp_ret; auto| |apply Hcr; auto].
    destruct (f_final s) as [f|] eqn:Ef; [apply wp_ret; split; [reflexivity|discriminate]|].
    apply wp_bind. apply wp_stat; [apply wp_ret; auto| |apply Hcr; auto].
    destruct (f_part s) as [p|] eqn:Ep.
    - apply wp_bind. apply wp_read_side; [apply wp_ret; auto| |apply Hcr; auto].
      apply wp_ret. auto.
    - apply wp_ret. split; [reflexivity|]. split; [reflexivity|]. split; [reflexivity|]. intros Hx; contradiction. }
  intros k n2 s2 [-> Hk]. destruct k as [|off0 setag [|]].
  { apply wp_ret. apply Herr; auto. }
  { apply wp_ret. split; [exact Hinv|]. auto. }
  destruct Hk as (Hfin & Hoff & Het).
  set (off := if negb (bytes_eqb setag []) && negb (bytes_eqb (uc_etag c) []) && negb (bytes_eqb setag (uc_etag c))
              then 0 else if zlen (uc_data c) <? off0 then 0 else off0).
  assert (exists p0, off = zlen p0 /\ prefix_of p0 (uc_data c) /\
            (p0 <> [] -> f_part s = Some p0 /\ side_etag s = uc_etag c)) as (p0 & Ho & Hp0 & Hres).
  { assert (exists p0, 0 = zlen p0 /\ prefix_of p0 (uc_data c) /\
            (p0 <> [] -> f_part s = Some p0 /\ side_etag s = uc_etag c)) as Hz.
    { exists []. split; [reflexivity|]. split; [exists (uc_data c); reflexivity|]. intros Hx; contradiction. }
    unfold off.
    destruct (negb (bytes_eqb setag []) && negb (bytes_eqb (uc_etag c) []) && negb (bytes_eqb setag (uc_etag c))) eqn:Econ;
      [exact Hz|].
    destruct (zlen (uc_data c) <? off0); [exact Hz|].
    destruct (f_part s) as [p|] eqn:Ep; cbn [oget] in Hoff; [|subst off0; exact Hz].
    destruct p as [|b p]; [subst off0; exact Hz|].
    exists (b :: p). split; [exact Hoff|].
    destruct (Hinv _ Ep ltac:(discriminate)) as [Hse Hpre].
    specialize (Het ltac:(discriminate)). destruct Hgood as [Hne _].
    assert (bytes_eqb setag [] = false) as E1.
    { destruct (bytes_eqb setag []) eqn:E; [apply bytes_eqb_eq in E; congruence|reflexivity]. }
    assert (bytes_eqb (uc_etag c) [] = false) as E2.
    { destruct (bytes_eqb (uc_etag c) []) eqn:E; [apply bytes_eqb_eq in E; congruence|reflexivity]. }
    rewrite E1, E2 in Econ. cbn [negb andb] in Econ. apply negb_false_iff, bytes_eqb_eq in Econ.
    assert (side_etag s = uc_etag c) as Hs by congruence.
    split; [rewrite <- Hcont, <- Hs; exact Hpre|]. auto. }
  rewrite Ho. destruct (Z.eqb_spec (zlen p0) (zlen (uc_data c))) as [Efull|Epart].
  - assert (p0 = uc_data c) as Hpd by (apply prefix_same_len; auto). rewrite Hpd in Hres.
    apply push_commit_spec; auto. apply Hres. exact Hdne.
  - apply wp_bind. pose proof (zlen_nonneg p0) as Hnn. destruct (Hrd (zlen p0) Hnn) as [Hr1 Hr2].
    destruct (uc_rd c (zlen p0)) as [chunks eof]. cbn [fst snd] in Hr1, Hr2.
    assert (Z.to_nat (zlen p0) = length p0) as Hln by (unfold zlen; lia). rewrite Hln in Hr1, Hr2.
    eapply wp_conseq; [apply (sink_append_spec content (uc_etag c) p0 chunks eof (uc_env c) n2 s)| |]; auto.
    + rewrite Hcont. exact Hp0.
    + rewrite Hcont. exact Hr1.
    + cbn beta. intros r n3 s3 (F3 & I3 & R3). destruct r; cbn [negb].
      * destruct (R3 eq_refl) as [Hc Heof]. apply push_commit_spec; auto.
        destruct Hc as (_ & Hp & _). rewrite Hp, (Hr2 Heof). destruct Hp0 as (q & Hq). rewrite Hq.
        rewrite skipn_app, skipn_all, Nat.sub_diag. reflexivity.
      * apply wp_ret. apply Herr; [congruence|intros Hx; congruence|exact I3].
    + cbn beta. intros s' [F I]. apply Hcr; [congruence|intros Hx; congruence|exact I].
Qed.

Lemma run_push_cases content c s :
  honest_push content c -> uc_data c <> [] -> side_safe (uc_env c) -> part_inv content s ->
  part_inv content (run_files (run_push c s)) /\
  (f_final s <> None -> run_files (run_push c s) = s) /\
  (f_final s = None -> f_final (run_files (run_push c s)) = None \/
      f_final (run_files (run_push c s)) = Some (uc_data c)).
Proof.
  intros H1 H2 H3 H4. pose proof (push_spec content c 0%nat s H1 H2 H3 H4) as H.
  unfold wp in H. fold (run_push c s) in H. destruct (run_push c s) as [r n' s'|s']; cbn [run_files].
  - destruct H as [I H]. split; [exact I|]. destruct r.
    + destruct H as [-> H]. split; [auto|]. intros Hx; contradiction.
    + destruct H as (F0 & F & _). split; [intros Hx; contradiction|]. auto.
    + destruct H as [F E]. split; [exact E|]. intros Hx. left. congruence.
  - destruct H as [I H]. split; [exact I|]. destruct H as [[F E]|[F0 F]].
    + split; [exact E|]. intros Hx. left. congruence.
    + split; [intros Hx; contradiction|]. auto.
Qed.

Lemma run_pushes_inv content cs :
  Forall (fun c => honest_push content c /\ uc_data c <> [] /\ side_safe (uc_env c)) cs ->
  forall s, part_inv content s -> part_inv content (run_pushes cs s) /\
    (f_final s <> None -> run_pushes cs s = s) /\
    (forall b, f_final s = None -> f_final (run_pushes cs s) = Some b -> exists c, In c cs /\ b = uc_data c).
Proof.
  induction 1 as [|c cs (Hc1 & Hc2 & Hc3) Hcs IH]; intros s Hinv; cbn [run_pushes].
  - split; [exact Hinv|]. split; [auto|]. intros b H1 H2; congruence.
  - destruct (run_push_cases content c s Hc1 Hc2 Hc3 Hinv) as (I1 & E1 & F1).
    specialize (IH _ I1). destruct IH as (I2 & E2 & F2). split; [exact I2|]. split.
    + intros Hx. rewrite (E1 Hx) in *. apply E2. exact Hx.
    + intros b H0 Hb. destruct (F1 H0) as [Hn|Hf].
      * destruct (F2 b Hn Hb) as (c' & Hin & Hk). exists c'. split; [right; exact Hin|exact Hk].
      * rewrite (E2 ltac:(congruence)) in Hb. exists c. split; [left; reflexivity|congruence].
Qed.

(* ---- an existing final file ---- *)

Lemma pull_existing hooks src exp_etag exp_size e n s : f_final s <> None ->
  wp (pull hooks src exp_etag exp_size) e n s
    (fun r n' s' => s' = s /\
       match r with
       | PExisting => exp_size < 0 \/ exists b, f_final s = Some b /\ zlen b = exp_size
       | PCommitted => False
       | PErr _ => True
       end) (fun s' => s' = s).
Proof.
  intros H. unfold pull. apply wp_bind. apply wp_stat; [apply wp_ret; auto| |auto].
  destruct (f_final s) as [b|]; [|contradiction].
  destruct (Z.leb_spec 0 exp_size) as [Hs|Hs]; [|apply wp_ret; auto].
  destruct (Z.eqb_spec (zlen b) exp_size) as [He|He]; apply wp_ret; split; auto.
  right. exists b. auto.
Qed.

Lemma push_existing d rd etag size e n s : f_final s <> None ->
  wp (push d rd etag size) e n s (fun r n' s' => s' = s /\ r <> UCommitted) (fun s' => s' = s).
Proof.
  intros H. assert (forall r : ures, r <> UCommitted -> s = s /\ r <> UCommitted) as Hd by auto.
  unfold push. apply wp_bind. apply wp_query; [|auto]. intros [|]; cbn [negb]; [|apply wp_ret; apply Hd; discriminate].
  apply wp_bind. apply wp_query; [|auto]. intros [|]; cbn [negb]; [|apply wp_ret; apply Hd; discriminate].
  destruct ((0 <=? size) && negb (size =? zlen d)); [apply wp_ret; apply Hd; discriminate|].
  apply wp_bind. unfold sink_state. apply wp_bind. apply wp_stat; [| |auto].
  - apply wp_ret. apply wp_ret. apply Hd; discriminate.
  - destruct (f_final s) as [b|]; [|contradiction]. apply wp_ret. apply wp_ret. apply Hd; discriminate.
Qed.

(* ---- nothing fails ---- *)

Definition wpc {A} (m : M A) (n : nat) (s : files) (Q : A -> nat -> files -> Prop) : Prop :=
  exists a n' s', m calm n s = Done a n' s' /\ Q a n' s'.

Lemma wpc_ret {A} (a : A) n s (Q : A -> nat -> files -> Prop) : Q a n s -> wpc (ret a) n s Q.
Proof. intros H. exists a, n, s. auto. Qed.

Lemma wpc_bind {A B} (m : M A) (f : A -> M B) n s (Q : B -> nat -> files -> Prop) :
  wpc m n s (fun a n' s' => wpc (f a) n' s' Q) -> wpc (bind m f) n s Q.
Proof. intros (a & n' & s' & E & H). unfold wpc, bind. rewrite E. exact H. Qed.

Lemma wpc_conseq {A} (m : M A) n s (Q Q' : A -> nat -> files -> Prop) :
  wpc m n s Q -> (forall a n' s', Q a n' s' -> Q' a n' s') -> wpc m n s Q'.
Proof. intros (a & n' & s' & E & H) Hi. exists a, n', s'. auto. Qed.

Lemma wpc_wp {A} (m : M A) n s (Q Q' : A -> nat -> files -> Prop) C :
  wpc m n s Q -> wp m calm n s Q' C -> wpc m n s (fun a n' s' => Q a n' s' /\ Q' a n' s').
Proof. intros (a & n' & s' & E & H) Hw. unfold wp in Hw. rewrite E in Hw. exists a, n', s'. auto. Qed.

Lemma wpc_atomic k eff n s (Q : bool -> nat -> files -> Prop) : Q true (S n) (eff s) -> wpc (atomic k eff) n s Q.
Proof. intros H. exists true, (S n), (eff s). auto. Qed.

Lemma wpc_query k n s (Q : bool -> nat -> files -> Prop) : Q true (S n) s -> wpc (query k) n s Q.
Proof. intros H. exists true, (S n), s. auto. Qed.

Lemma wpc_remove n s (Q : bool -> nat -> files -> Prop) :
  Q true (S (S n)) (Files (f_final s) None None) -> wpc remove_part_files n s Q.
Proof. intros H. apply wpc_bind, wpc_atomic. cbn [negb]. apply wpc_atomic. exact H. Qed.

Lemma ctx_copy_calm chunks : forall pos w n s,
  wpc (ctx_copy chunks true pos w) n s (fun r _ _ => r = (true, w + zlen (concat chunks))).
Proof.
  induction chunks as [|d rest IH]; intros pos w n s; cbn [ctx_copy].
  - apply wpc_bind, wpc_query. cbn [negb]. apply wpc_ret. cbn [concat]. change (zlen (@nil byte)) with 0.
    f_equal. lia.
  - apply wpc_bind, wpc_query. cbn [negb]. destruct d as [|b d]; [cbn [concat app]; apply IH|].
    apply wpc_bind. eexists _, _, _. split; [reflexivity|]. cbv beta iota.
    eapply wpc_conseq; [apply IH|]. intros r n' s' ->. cbn [concat]. rewrite zlen_app. f_equal. lia.
Qed.

Lemma run_hooks_calm b hooks : Forall (fun h => h b = true) hooks -> forall n s, f_part s = Some b ->
  wpc (run_hooks hooks) n s (fun r _ s' => r = true /\ s' = s).
Proof.
  induction 1 as [|h hooks Hh Hhs IH]; intros n s Hp; cbn [run_hooks]; [apply wpc_ret; auto|].
  apply wpc_bind, wpc_query, wpc_bind. eexists _, _, _. split; [reflexivity|]. cbv beta.
  rewrite Hp. cbn [oget andb]. rewrite Hh. apply IH. exact Hp.
Qed.

Lemma pull_copy_calm content hooks a startAt stored exp_etag exp_size n s p0 etag :
  good_etag etag -> full_answer content etag startAt a -> f_final s = None -> part_inv content s ->
  startAt = zlen p0 -> (stored = [] \/ stored = side_etag s) ->
  (p0 <> [] -> f_part s = Some p0 /\ side_etag s = etag /\ stored = side_etag s) ->
  (exp_size < 0 \/ exp_size = zlen (content etag)) ->
  Forall (fun h => h (content etag) = true) hooks ->
  wpc (pull_copy hooks a startAt stored exp_etag exp_size) n s (fun r _ _ => r = PCommitted).
Proof.
  intros Hgood (Het & Hch & Heof & Hsz) Hfin Hinv Hstart Hstored Hresume Hexp Hhooks.
  assert (Hp0pre : prefix_of p0 (content etag)).
  { destruct p0 as [|b p0]; [exists (content etag); reflexivity|].
    destruct (Hresume ltac:(discriminate)) as (Hp & Hse & _).
    destruct (Hinv _ Hp ltac:(discriminate)) as [_ Hx]. rewrite Hse in Hx. exact Hx. }
  destruct Hgood as [Hne Htrim].
  assert (Z.to_nat startAt = length p0) as Hpos by (unfold zlen in Hstart; lia).
  assert (Hall : p0 ++ concat (a_chunks a) = content etag).
  { rewrite Hch, Hpos. destruct Hp0pre as (q & Hq). rewrite Hq, skipn_app, skipn_all, Nat.sub_diag. reflexivity. }
  unfold pull_copy. rewrite Het, Heof.
  assert ((match etag with [] => exp_etag | _ => etag end) = etag) as -> by (destruct etag; congruence).
  pose proof (zlen_nonneg (content etag)) as Hnn.
  assert ((0 <=? a_size a) && (0 <=? exp_size) && negb (a_size a =? exp_size) = false) as ->.
  { destruct (Z.leb_spec 0 (a_size a)), (Z.leb_spec 0 exp_size); cbn [andb]; auto.
    apply negb_false_iff, Z.eqb_eq. lia. }
  set (effSize := if 0 <=? a_size a then a_size a else if 0 <=? exp_size then exp_size else -1).
  assert (Heff : effSize < 0 \/ effSize = zlen (content etag)).
  { unfold effSize. destruct (Z.leb_spec 0 (a_size a)); [lia|]. destruct (Z.leb_spec 0 exp_size); lia. }
  apply wpc_bind, wpc_atomic. cbn [negb].
  set (s1 := set_part s (if startAt =? 0 then Some [] else Some (oget (f_part s)))).
  assert (Hs1 : f_part s1 = Some p0 /\ f_final s1 = None /\ side_etag s1 = side_etag s).
  { unfold s1; cbn [f_part f_final set_part]. repeat split; auto. destruct p0 as [|b p0].
    - change (zlen (@nil byte)) with 0 in Hstart. subst startAt. reflexivity.
    - rewrite zlen_cons in Hstart. pose proof (zlen_nonneg p0).
      destruct (Z.eqb_spec startAt 0); [lia|]. destruct (Hresume ltac:(discriminate)) as [-> _]. reflexivity. }
  destruct Hs1 as (Hs1p & Hs1f & Hs1s).
  apply wpc_bind.
  apply (wpc_conseq _ _ _ (fun (b : bool) _ s' => b = true /\ copying content etag p0 s')).
  { destruct (negb (bytes_eqb etag []) && negb (bytes_eqb etag stored)) eqn:Ewr.
    - apply wpc_bind, wpc_atomic. cbn [negb]. apply wpc_bind. eexists _, _, _. split; [reflexivity|]. cbv beta.
      apply wpc_bind, wpc_query, wpc_ret. split; [reflexivity|]. rewrite firstn_all.
      split; [exact Hs1f|]. split; [exact Hs1p|]. split; [exact Htrim|exact Hp0pre].
    - apply wpc_ret. split; [reflexivity|]. split; [exact Hs1f|]. split; [exact Hs1p|]. split; [|exact Hp0pre].
      assert (bytes_eqb etag [] = false) as E1.
      { destruct (bytes_eqb etag []) eqn:E; [apply bytes_eqb_eq in E; contradiction|reflexivity]. }
      rewrite E1 in Ewr. cbn in Ewr. apply negb_false_iff, bytes_eqb_eq in Ewr.
      rewrite Hs1s. destruct Hstored as [E|E]; congruence. }
  intros sw n2 s2 [-> Hs2]. cbn [negb]. apply wpc_bind.
  apply (wpc_conseq _ _ _ (fun (b : bool) _ s' => b = true /\ copying content etag p0 s')).
  { destruct (0 <? startAt); [apply wpc_query|apply wpc_ret]; auto. }
  intros sk n3 s3 [-> Hs3]. cbn [negb]. rewrite Hpos. apply wpc_bind.
  assert (Hpre : prefix_of (concat (a_chunks a)) (skipn (length p0) (content etag))).
  { rewrite Hch, Hpos. apply prefix_refl. }
  eapply wpc_conseq.
  { eapply wpc_wp; [apply ctx_copy_calm|].
    apply (ctx_copy_spec content etag Hne (a_chunks a) true p0 p0 0 calm n3 s3 (prefix_refl _) Hs3 Hpre). }
  cbv beta. intros [ok written] n4 s4 [Er (p4 & Hc4 & _ & Hok)]. apply (f_equal fst) in Er as Er1.
  apply (f_equal snd) in Er as Er2. cbn [fst snd] in Er1, Er2. subst ok written.
  destruct (Hok eq_refl) as (_ & Hp4 & _). rewrite Hall in Hp4. subst p4.
  assert (Hlen : startAt + (0 + zlen (concat (a_chunks a))) = zlen (content etag)).
  { rewrite <- Hall, zlen_app. lia. }
  rewrite Hlen.
  assert (true && (0 <=? effSize) && negb (zlen (content etag) =? effSize) = false) as ->.
  { destruct (Z.leb_spec 0 effSize); [|reflexivity]. cbn [andb]. apply negb_false_iff, Z.eqb_eq. lia. }
  cbn [negb]. destruct Hc4 as (F4 & P4 & S4 & _). apply wpc_bind.
  eapply wpc_conseq; [apply (run_hooks_calm (content etag) hooks Hhooks n4 s4 P4)|].
  intros h n5 s5 [-> ->]. cbn [negb]. apply wpc_bind, wpc_query. cbn [negb]. apply wpc_bind.
  unfold rename_part, wpc. rewrite P4. eexists _, _, _. split; [reflexivity|]. cbv beta. cbn [negb].
  apply wpc_bind, wpc_atomic, wpc_ret. reflexivity.
Qed.

Lemma pull_calm content hooks src exp_etag exp_size n s etag :
  good_etag etag -> full_source content etag src -> f_final s = None -> part_inv content s ->
  (exp_etag = [] \/ exp_etag = etag) -> (exp_size < 0 \/ exp_size = zlen (content etag)) ->
  Forall (fun h => h (content etag) = true) hooks ->
  wpc (pull hooks src exp_etag exp_size) n s (fun r _ _ => r = PCommitted).
Proof.
  intros Hgood Hsrc Hfin Hinv Het Hexp Hhooks.
  assert (Hstep : forall p0 stored n1 s1, f_final s1 = None -> part_inv content s1 ->
     (p0 = [] /\ (stored = [] \/ stored = side_etag s1) \/ f_part s1 = Some p0 /\ stored = side_etag s1) ->
     wpc (pull_open hooks src (zlen p0) stored exp_etag exp_size) n1 s1 (fun r _ _ => r = PCommitted)).
  { intros p0 stored n1 s1 Hf1 Hi1 Hst. unfold pull_open. pose proof (zlen_nonneg p0) as Hnn.
    destruct (Hsrc 0%nat (zlen p0) Hnn) as (a & Ea & Ha). rewrite Ea.
    pose proof Ha as (Hae & _). rewrite Hae. pose proof Hgood as [Hne _].
    assert (bytes_eqb etag [] = false) as Hen.
    { destruct (bytes_eqb etag []) eqn:E; [apply bytes_eqb_eq in E; contradiction|reflexivity]. }
    assert (negb (bytes_eqb exp_etag []) && negb (bytes_eqb etag []) && negb (bytes_eqb etag exp_etag) = false) as ->.
    { destruct Het as [-> | ->]; [reflexivity|]. rewrite (proj2 (bytes_eqb_eq etag etag) eq_refl). apply andb_false_r. }
    rewrite Hen. cbn [orb].
    destruct (Z.ltb_spec 0 (zlen p0)) as [Hpos|Hz].
    - assert (p0 <> []) as Hp0 by (intros ->; change (zlen (@nil byte)) with 0 in Hpos; lia).
      destruct Hst as [[Hx _]|[Hpart Hstored]]; [contradiction|].
      destruct (Hi1 _ Hpart Hp0) as [Hse Hpre].
      assert (bytes_eqb stored [] = false) as Hsn.
      { destruct (bytes_eqb stored []) eqn:E; [|reflexivity]. apply bytes_eqb_eq in E. congruence. }
      rewrite Hsn. cbn [andb]. rewrite orb_false_r.
      destruct (bytes_eqb etag stored) eqn:Etr; cbn [negb andb].
      + apply bytes_eqb_eq in Etr.
        apply (pull_copy_calm content hooks a (zlen p0) stored exp_etag exp_size n1 s1 p0 etag); auto.
        intros _. split; [exact Hpart|]. split; [congruence|exact Hstored].
      + apply wpc_bind, wpc_remove. cbn [negb]. destruct (Hsrc 1%nat 0 ltac:(lia)) as (a' & Ea' & Ha'). rewrite Ea'.
        apply (pull_copy_calm content hooks a' 0 [] exp_etag exp_size _ _ [] etag); auto.
        * apply no_part_inv; reflexivity.
        * intros Hx; contradiction.
    - assert (p0 = []) as ->.
      { destruct p0; [reflexivity|]. rewrite zlen_cons in Hz. pose proof (zlen_nonneg p0). lia. }
      cbn [andb].
      apply (pull_copy_calm content hooks a (zlen (@nil byte)) stored exp_etag exp_size n1 s1 [] etag); auto.
      + destruct Hst as [[_ H]|[_ H]]; auto.
      + intros Hx; contradiction. }
  unfold pull. apply wpc_bind. eexists _, _, _. split; [reflexivity|]. cbv beta. rewrite Hfin.
  apply wpc_bind. eexists _, _, _. split; [reflexivity|]. cbv beta.
  destruct (f_part s) as [p|] eqn:Ep.
  2:{ apply (Hstep []); auto. }
  apply wpc_bind. eexists _, _, _. split; [reflexivity|]. cbv beta iota zeta. fold (side_etag s).
  match goal with |- wpc (if ?b then _ else _) _ _ _ => destruct b end.
  - apply wpc_bind, wpc_remove. cbn [negb]. apply (Hstep []); auto. apply no_part_inv; reflexivity.
  - apply (Hstep p); auto.
Qed.

(* ---- Pull whatever the ETags ---- *)

(* [P] is a property of part files that every answer of the source preserves. *)
Definition grows (P : list byte -> Prop) (a : answer) (off : Z) : Prop :=
  forall p q, zlen p = off -> P p -> prefix_of q (concat (a_chunks a)) -> P (p ++ q).

Definition ginv (P : list byte -> Prop) (s : files) : Prop :=
  f_final s = None /\ forall p, f_part s = Some p -> P p.

Definition gdone (P : list byte -> Prop) (src : psource) (s : files) : Prop :=
  exists i off a p, 0 <= off /\ src i off = Some a /\ zlen p = off /\ P p /\ a_eof a = true /\
    (0 <= a_size a -> zlen (p ++ concat (a_chunks a)) = a_size a) /\
    f_final s = Some (p ++ concat (a_chunks a)) /\ f_part s = None.

Lemma ginv_side P s x : ginv P s -> ginv P (set_side s x).
Proof. intros H. exact H. Qed.

Lemma ginv_nopart P s : ginv P s -> ginv P (set_part s None).
Proof. intros [F _]. split; [exact F|]. cbn. discriminate. Qed.

Lemma ctx_copy_grows (P : list byte -> Prop) : forall chunks eof p written e n s,
  f_final s = None -> f_part s = Some p -> (forall q, prefix_of q (concat chunks) -> P (p ++ q)) ->
  wp (ctx_copy chunks eof (length p) written) e n s
    (fun r n' s' => exists p', f_final s' = None /\ f_part s' = Some p' /\ P p' /\
       (fst r = true -> eof = true /\ p' = p ++ concat chunks /\ snd r = written + zlen (concat chunks)))
    (ginv P).
Proof.
  induction chunks as [|d rest IH]; intros eof p written e n s Hf Hp Hg; cbn [ctx_copy].
  - assert (P p) as HP by (specialize (Hg [] (prefix_refl _)); rewrite app_nil_r in Hg; exact Hg).
    apply wp_bind. apply wp_query; [|split; [exact Hf|intros q Hq; rewrite Hp in Hq; apply some_inj in Hq; subst; exact HP]].
    intros [|]; cbn [negb]; apply wp_ret; exists p; cbn [fst snd concat];
      (split; [exact Hf|]; split; [exact Hp|]; split; [exact HP|]); [|discriminate].
    intros ->. rewrite app_nil_r. change (zlen (@nil byte)) with 0. split; [reflexivity|]. split; [reflexivity|lia].
  - assert (P p) as HP by (specialize (Hg [] (ex_intro _ _ eq_refl)); rewrite app_nil_r in Hg; exact Hg).
    apply wp_bind. apply wp_query; [|split; [exact Hf|intros q Hq; rewrite Hp in Hq; apply some_inj in Hq; subst; exact HP]].
    intros [|]; cbn [negb].
    2:{ apply wp_ret. exists p. cbn [fst]. split; [exact Hf|]. split; [exact Hp|]. split; [exact HP|discriminate]. }
    destruct d as [|b d].
    { cbn [concat app] in *. apply IH; auto. }
    set (d' := b :: d) in *. cbn [concat] in Hg.
    assert (forall k, P (p ++ firstn k d')) as HPk.
    { intros k. apply Hg. eapply prefix_trans; [apply prefix_firstn, prefix_refl|apply prefix_app_l]. }
    apply wp_bind. apply wp_write_part.
    + rewrite Hp; cbn [oget]. rewrite write_at_end.
      replace (length p + length d')%nat with (length (p ++ d')) by (rewrite app_length; reflexivity).
      eapply wp_conseq; [apply (IH eof (p ++ d') (written + zlen d'))| |auto].
      * exact Hf.
      * reflexivity.
      * intros q (r & Hr). rewrite <- app_assoc. apply Hg. exists r. rewrite Hr, app_assoc. reflexivity.
      * cbn beta. intros [ok w] n' s' (p' & Hf' & Hp' & HP' & Hok). exists p'.
        split; [exact Hf'|]. split; [exact Hp'|]. split; [exact HP'|]. intros Ho.
        destruct (Hok Ho) as (G1 & G2 & G3). cbn [concat].
        rewrite G2, app_assoc, zlen_app. split; [exact G1|]. split; [reflexivity|]. cbn [snd] in *. lia.
    + intros k. rewrite Hp; cbn [oget]. rewrite write_at_end. apply wp_ret. exists (p ++ firstn k d').
      split; [exact Hf|]. split; [reflexivity|]. split; [apply HPk|]. cbn; discriminate.
    + intros k. rewrite Hp; cbn [oget]. rewrite write_at_end. split; [exact Hf|]. cbn [f_part set_part].
      intros q Hq. apply some_inj in Hq; subst q. apply HPk.
Qed.

Lemma run_hooks_grows (P : list byte -> Prop) hooks : forall e n s, ginv P s ->
  wp (run_hooks hooks) e n s (fun ok n' s' => ginv P s' /\ (ok = true -> s' = s)) (ginv P).
Proof.
  induction hooks as [|h hooks IH]; intros e n s Hi; cbn [run_hooks].
  - apply wp_ret. auto.
  - apply wp_bind. apply wp_query; [|exact Hi]. intros k. apply wp_bind. unfold wp at 1.
    destruct (k && h (oget (f_part s))); [apply IH; exact Hi|].
    apply wp_bind. apply wp_query; [|exact Hi]. intros _. apply wp_bind.
    pose proof (ginv_nopart P s Hi) as Hn.
    apply wp_remove_parts; auto; apply wp_ret; (split; [|discriminate]); auto.
Qed.

Definition gpost P src (r : pres) (s : files) : Prop :=
  match r with PExisting => False | PCommitted => gdone P src s | PErr _ => ginv P s end.
Definition gcrash P src (s : files) : Prop := ginv P s \/ gdone P src s.

Lemma pull_copy_grows (P : list byte -> Prop) src i hooks a startAt stored exp_etag exp_size e n s p0 :
  0 <= startAt -> src i startAt = Some a -> grows P a startAt -> P [] -> ginv P s -> startAt = zlen p0 ->
  (p0 <> [] -> f_part s = Some p0) ->
  wp (pull_copy hooks a startAt stored exp_etag exp_size) e n s
    (fun r n' s' => gpost P src r s') (gcrash P src).
Proof.
  intros Hnn Hsrc Hgr Hnil Hinv Hstart Hresume. unfold pull_copy.
  destruct ((0 <=? a_size a) && (0 <=? exp_size) && negb (a_size a =? exp_size)) eqn:Emis.
  { apply wp_ret. exact Hinv. }
  set (effSize := if 0 <=? a_size a then a_size a else if 0 <=? exp_size then exp_size else -1).
  set (effETag := match a_etag a with [] => exp_etag | _ => a_etag a end).
  set (s1 := set_part s (if startAt =? 0 then Some [] else Some (oget (f_part s)))).
  assert (Hp0 : P p0).
  { destruct p0 as [|b p0]; [exact Hnil|]. apply (proj2 Hinv). apply Hresume. discriminate. }
  assert (Hs1p : f_part s1 = Some p0).
  { unfold s1; cbn [f_part set_part]. destruct p0 as [|b p0].
    - change (zlen (@nil byte)) with 0 in Hstart. subst startAt. reflexivity.
    - rewrite zlen_cons in Hstart. pose proof (zlen_nonneg p0).
      destruct (Z.eqb_spec startAt 0); [lia|]. rewrite (Hresume ltac:(discriminate)). reflexivity. }
  assert (Hkeep : forall s', f_final s' = f_final s -> f_part s' = Some p0 -> ginv P s').
  { intros s' Hf Hp. split; [rewrite Hf; apply Hinv|]. intros q Hq. rewrite Hp in Hq.
    apply some_inj in Hq; subst q. exact Hp0. }
  apply wp_bind. apply wp_atomic; cbn [negb]; fold s1.
  2:{ apply wp_ret. exact Hinv. }
  2:{ left; exact Hinv. }
  2:{ left; apply Hkeep; auto. }
  apply wp_bind.
  apply (wp_conseq _ _ _ _ (fun (b : bool) _ s' => f_final s' = f_final s /\ f_part s' = Some p0) _ (gcrash P src)); [| |auto].
  { destruct (negb (bytes_eqb effETag []) && negb (bytes_eqb effETag stored)).
    - apply wp_write_sidecar; auto.
      + left; apply Hkeep; auto.
      + intros k. left; apply Hkeep; auto.
    - apply wp_ret. auto. }
  intros sw n2 s2 [F2 P2]. pose proof (Hkeep _ F2 P2) as Hi2. destruct sw; cbn [negb].
  2:{ apply wp_bind. apply wp_query; [|left; exact Hi2]. intros _. apply wp_ret. exact Hi2. }
  apply wp_bind.
  apply (wp_conseq _ _ _ _ (fun (b : bool) _ s' => s' = s2) _ (gcrash P src)); [| |auto].
  { destruct (0 <? startAt); [|apply wp_ret; reflexivity]. apply wp_query; [auto|left; exact Hi2]. }
  intros sk n3 s3 ->. destruct sk; cbn [negb].
  2:{ apply wp_bind. apply wp_query; [|left; exact Hi2]. intros _. apply wp_ret. exact Hi2. }
  assert (Z.to_nat startAt = length p0) as -> by (unfold zlen in Hstart; lia).
  apply wp_bind.
  eapply wp_conseq; [apply (ctx_copy_grows P (a_chunks a) (a_eof a) p0 0 e n3 s2)| |intros s' H; left; exact H].
  { exact (proj1 Hi2). }
  { exact P2. }
  { intros q Hq. apply Hgr; auto. }
  cbn beta. intros [ok written] n4 s4 (p4 & F4 & P4 & HP4 & Hok). cbn [fst snd] in Hok.
  assert (Hi4 : ginv P s4).
  { split; [exact F4|]. intros q Hq. rewrite P4 in Hq. apply some_inj in Hq; subst q. exact HP4. }
  destruct (ok && (0 <=? effSize) && negb (startAt + written =? effSize)) eqn:Eshort.
  { apply wp_bind. apply wp_query; [|left; exact Hi4]. intros _. apply wp_ret. exact Hi4. }
  destruct ok; cbn [negb].
  2:{ apply wp_bind. apply wp_query; [|left; exact Hi4]. intros _. apply wp_ret. exact Hi4. }
  destruct (Hok eq_refl) as (Heof & Hp4e & Hw). cbn [andb] in Eshort.
  apply wp_bind. eapply wp_conseq; [apply (run_hooks_grows P hooks e n4 s4 Hi4)| |intros s' H; left; exact H].
  cbn beta. intros h n5 s5 [Hi5 Hh]. destruct h; cbn [negb].
  2:{ apply wp_ret. exact Hi5. }
  rewrite (Hh eq_refl) in *. clear Hh s5.
  apply wp_bind. apply wp_query; [|left; exact Hi4]. intros c. destruct c; cbn [negb].
  2:{ apply wp_ret. exact Hi4. }
  assert (Hd : forall x, gdone P src (Files (Some p4) None x)).
  { intros x. exists i, startAt, a, p0. split; [exact Hnn|]. split; [exact Hsrc|]. split; [auto|]. split; [exact Hp0|].
    split; [exact Heof|]. rewrite <- Hp4e. split; [|auto].
    intros Ha. assert (effSize = a_size a) as He.
    { unfold effSize. destruct (Z.leb_spec 0 (a_size a)); [reflexivity|lia]. }
    rewrite He in Eshort. destruct (Z.leb_spec 0 (a_size a)); [|lia]. cbn [andb] in Eshort.
    apply negb_false_iff, Z.eqb_eq in Eshort. rewrite Hp4e, zlen_app. lia. }
  apply wp_bind. unfold rename_part, wp at 1. rewrite P4.
  apply (wp_atomic ORename (fun s0 : files => Files (Some p4) None (f_side s0)) e (S n5) s4); cbn [negb].
  - apply wp_bind. apply wp_atomic.
    + apply wp_ret. apply Hd.
    + apply wp_ret. apply Hd.
    + right. apply Hd.
    + right. apply Hd.
  - apply wp_ret. exact Hi4.
  - left; exact Hi4.
  - right. apply Hd.
Qed.

Lemma pull_grows (P : list byte -> Prop) src hooks exp_etag exp_size e n s :
  (forall i off a, 0 <= off -> src i off = Some a -> grows P a off) -> P [] -> ginv P s ->
  wp (pull hooks src exp_etag exp_size) e n s
    (fun r n' s' => gpost P src r s') (gcrash P src).
Proof.
  intros Hgr Hnil Hinv.
  assert (Hstep : forall p0 stored n1 s1, ginv P s1 -> (p0 = [] \/ f_part s1 = Some p0) ->
     wp (pull_open hooks src (zlen p0) stored exp_etag exp_size) e n1 s1
        (fun r n' s' => gpost P src r s') (gcrash P src)).
  { intros p0 stored n1 s1 Hi Hp. unfold pull_open. pose proof (zlen_nonneg p0) as Hnn.
    destruct (src 0%nat (zlen p0)) as [a|] eqn:E0; [|apply wp_ret; exact Hi].
    match goal with |- wp (if ?b then _ else _) _ _ _ _ _ => destruct b end; [apply wp_ret; exact Hi|].
    cbv zeta. match goal with |- wp (if ?b then _ else _) _ _ _ _ _ => destruct b end.
    - pose proof (ginv_nopart P s1 Hi) as Hn.
      apply wp_bind. apply wp_remove_parts; try (left; assumption); cbn [negb]; try (apply wp_ret; assumption).
      + destruct (src 1%nat 0) as [a'|] eqn:E1; [|apply wp_ret; exact Hn].
        apply (pull_copy_grows P src 1%nat hooks a' 0 [] exp_etag exp_size e _ _ []); auto.
        * lia.
        * apply (Hgr 1%nat); [lia|exact E1].
        * intros Hx; contradiction.
    - apply (pull_copy_grows P src 0%nat hooks a (zlen p0) stored exp_etag exp_size e _ _ p0); auto.
      + apply (Hgr 0%nat); auto.
      + intros Hx. destruct Hp as [Hp|Hp]; [contradiction|exact Hp]. }
  unfold pull. apply wp_bind. apply wp_stat; [apply wp_ret; exact Hinv| |left; exact Hinv].
  rewrite (proj1 Hinv).
  apply wp_bind. apply wp_stat; [apply wp_ret; exact Hinv| |left; exact Hinv].
  destruct (f_part s) as [p|] eqn:Ep; [|apply (Hstep []); auto].
  apply wp_bind. apply wp_read_side; [apply wp_ret; exact Hinv| |left; exact Hinv].
  cbv zeta. match goal with |- wp (if ?b then _ else _) _ _ _ _ _ => destruct b end.
  - pose proof (ginv_nopart P s Hinv) as Hn.
    apply wp_bind. apply wp_remove_parts; try (left; assumption); cbn [negb]; try (apply wp_ret; assumption).
    + apply (Hstep []); auto.
  - apply (Hstep p); auto.
Qed.

(* The final file changes only by a successful rename. *)
Lemma pull_final hooks src exp_etag exp_size e n s :
  wp (pull hooks src exp_etag exp_size) e n s
    (fun r n' s' => (f_final s <> None -> s' = s) /\ (r <> PCommitted -> f_final s' = f_final s))
    (fun s' => f_final s <> None -> s' = s).
Proof.
  destruct (f_final s) as [b|] eqn:Ef.
  - eapply wp_conseq; [apply pull_existing; rewrite Ef; discriminate| |].
    + cbn beta. intros r n' s' [-> _]. split; auto.
    + cbn beta. intros s' ->. auto.
  - eapply wp_conseq; [apply (pull_grows (fun _ => True) src hooks exp_etag exp_size e n s)| |].
    + intros i off a _ _ p q _ _ _. exact I.
    + exact I.
    + split; auto.
    + cbn beta. intros r n' s' H. split; [intros Hx; contradiction|]. intros Hr.
      destruct r; [contradiction|contradiction|]. apply H.
    + cbn beta. intros s' _ Hx. contradiction.
Qed.

Definition single (w : list byte) (s : files) : Prop :=
  (f_final s = None /\ forall p, f_part s = Some p -> prefix_of p w) \/ f_final s = Some w.

Lemma one_version_grows w src : one_version w src ->
  forall i off a, 0 <= off -> src i off = Some a -> grows (fun p => prefix_of p w) a off.
Proof.
  intros H i off a Hoff Ha p q Hp HP Hq. destruct (H i off a Hoff Ha) as [Hc _].
  apply prefix_extend; [exact HP|]. eapply prefix_trans; [exact Hq|].
  assert (Z.to_nat off = length p) as E by (unfold zlen in Hp; lia). rewrite E in Hc. exact Hc.
Qed.

Lemma gdone_one w src s : one_version w src -> gdone (fun p => prefix_of p w) src s -> f_final s = Some w.
Proof.
  intros H (i & off & a & p & Hoff & Ha & Hp & HP & Heof & Hsz & Hf & _). rewrite Hf. f_equal.
  destruct (H i off a Hoff Ha) as [Hc Hs].
  assert (Z.to_nat off = length p) as E by (unfold zlen in Hp; lia). rewrite E in Hc, Hs.
  destruct Hs as [Hs|[_ Hs]].
  - apply prefix_same_len; [apply prefix_extend; auto|].
    pose proof (zlen_nonneg w). rewrite Hsz by lia. exact Hs.
  - rewrite (Hs Heof). destruct HP as (q & Hq). rewrite Hq, skipn_app, skipn_all, Nat.sub_diag. reflexivity.
Qed.

Lemma run_pulls_single w cs : Forall (fun c => one_version w (pc_src c)) cs ->
  forall s, single w s -> single w (run_pulls cs s).
Proof.
  induction 1 as [|c cs Hc Hcs IH]; intros s Hs; cbn [run_pulls]; [exact Hs|]. apply IH.
  destruct Hs as [Hs|Hs].
  - pose proof (pull_grows (fun p => prefix_of p w) (pc_src c) (pc_hooks c) (pc_etag c) (pc_size c) (pc_env c) 0%nat s
      (one_version_grows w _ Hc) (ex_intro _ w eq_refl) Hs) as H.
    unfold wp in H. fold (run_pull c s) in H. destruct (run_pull c s) as [r n' s'|s']; cbn [run_files].
    + destruct r; [contradiction|right; eapply gdone_one; eauto|left; exact H].
    + destruct H as [H|H]; [left; exact H|right; eapply gdone_one; eauto].
  - pose proof (pull_existing (pc_hooks c) (pc_src c) (pc_etag c) (pc_size c) (pc_env c) 0%nat s ltac:(congruence)) as H.
    unfold wp in H. fold (run_pull c s) in H. destruct (run_pull c s) as [r n' s'|s']; cbn [run_files].
    + destruct H as [-> _]. right; exact Hs.
    + subst s'. right; exact Hs.
Qed.

(* ---- pushing when nothing fails ---- *)

Lemma io_copy_calm chunks eof : forall pos n s, wpc (io_copy chunks eof pos) n s (fun r _ _ => r = eof).
Proof.
  induction chunks as [|d rest IH]; intros pos n s; cbn [io_copy]; [apply wpc_ret; reflexivity|].
  apply wpc_bind. eexists _, _, _. split; [reflexivity|]. cbv beta iota. apply IH.
Qed.

Lemma sink_append_calm etag p0 chunks n s : (p0 <> [] -> f_part s = Some p0) ->
  wpc (sink_append etag (zlen p0) chunks true) n s (fun r _ _ => r = true).
Proof.
  intros Hp. unfold sink_append. apply wpc_bind, wpc_atomic. cbn [negb].
  set (s1 := set_part s (if zlen p0 =? 0 then Some [] else Some (oget (f_part s)))).
  apply wpc_bind. apply (wpc_conseq _ _ _ (fun (b : bool) _ _ => b = true)).
  { destruct (Z.eqb_spec (zlen p0) 0) as [E|E]; [apply wpc_ret; reflexivity|].
    assert (f_part s1 = Some p0) as Es.
    { unfold s1. destruct (Z.eqb_spec (zlen p0) 0) as [|_]; [contradiction|]. cbn [f_part set_part]. rewrite Hp; [reflexivity|]. intros ->. apply E. reflexivity. }
    apply wpc_bind. unfold stat_of at 1. eexists _, _, _. split; [reflexivity|]. cbv beta. rewrite Es.
    destruct (Z.ltb_spec (zlen p0) (zlen p0)); [lia|]. apply wpc_bind, wpc_ret. cbn [negb]. apply wpc_bind, wpc_query. cbn [negb]. apply wpc_ret. reflexivity. }
  intros b n2 s2 ->. cbn [negb]. apply wpc_bind. apply (wpc_conseq _ _ _ (fun (b : bool) _ _ => b = true)).
  { destruct (bytes_eqb etag []); cbn [negb]; [apply wpc_ret; reflexivity|].
    apply wpc_bind, wpc_atomic. cbn [negb]. apply wpc_bind. eexists _, _, _. split; [reflexivity|]. cbv beta. apply wpc_bind, wpc_query, wpc_ret. reflexivity. }
  intros b n3 s3 ->. cbn [negb]. apply wpc_bind. eapply wpc_conseq; [apply io_copy_calm|]. intros b n4 s4 ->. apply wpc_bind, wpc_query, wpc_ret. reflexivity.
Qed.

Lemma push_commit_calm n s b : f_final s = None -> f_part s = Some b ->
  wpc (x <- sink_commit ;; ret (if x then UCommitted else UErr)) n s (fun r _ _ => r <> UErr).
Proof.
  intros Hf Hp. apply wpc_bind. unfold sink_commit. apply wpc_bind. eexists _, _, _. split; [reflexivity|]. cbv beta. rewrite Hf.
  apply wpc_bind. unfold rename_part, wpc. rewrite Hp. eexists _, _, _. split; [reflexivity|]. cbv beta. cbn [negb]. apply wpc_bind, wpc_atomic, wpc_ret, wpc_ret. discriminate.
Qed.

Lemma push_calm content c n s :
  honest_push content c -> uc_data c <> [] -> uc_env c = calm -> (forall off, snd (uc_rd c off) = true) ->
  (uc_size c < 0 \/ uc_size c = zlen (uc_data c)) -> part_inv content s ->
  exists r n' s', push (uc_data c) (uc_rd c) (uc_etag c) (uc_size c) calm n s = Done r n' s' /\
    (f_final s <> None -> r = UComplete /\ s' = s) /\
    (f_final s = None -> r = UCommitted /\ f_final s' = Some (uc_data c) /\ f_part s' = None).
Proof.
  intros Hhon Hdne Hcalm Heof Hsize Hinv. pose proof Hhon as (Hgood & Hcont & Hrd).
  assert (Hsafe : side_safe (uc_env c)) by (rewrite Hcalm; intros k; split; [reflexivity|discriminate]).
  pose proof (push_spec content c n s Hhon Hdne Hsafe Hinv) as Hspec. rewrite Hcalm in Hspec.
  assert (wpc (push (uc_data c) (uc_rd c) (uc_etag c) (uc_size c)) n s (fun r _ _ => r <> UErr)) as Hw.
  { unfold push. apply wpc_bind, wpc_query. cbn [negb]. apply wpc_bind, wpc_query. cbn [negb].
    assert ((0 <=? uc_size c) && negb (uc_size c =? zlen (uc_data c)) = false) as ->.
    { destruct Hsize as [Hs|Hs]; [destruct (Z.leb_spec 0 (uc_size c)); [lia|reflexivity]|]. rewrite Hs, Z.eqb_refl. apply andb_false_r. }
    apply wpc_bind. unfold sink_state. apply wpc_bind. unfold stat_of at 1. eexists _, _, _. split; [reflexivity|]. cbv beta.
    destruct (f_final s) as [f|] eqn:Hfin; [apply wpc_ret, wpc_ret; discriminate|].
    assert (forall off0 setag n1, off0 = zlen (oget (f_part s)) -> (f_part s <> None -> setag = side_etag s) ->
      wpc (let off1 := if zlen (uc_data c) <? off0 then 0 else off0 in
           let offset := if negb (bytes_eqb setag []) && negb (bytes_eqb (uc_etag c) []) && negb (bytes_eqb setag (uc_etag c)) then 0 else off1 in
           let commit := (x <- sink_commit ;; ret (if x then UCommitted else UErr)) in
           if offset =? zlen (uc_data c) then commit
           else a <- (let (chunks, eof) := uc_rd c offset in sink_append (uc_etag c) offset chunks eof) ;; if negb a then ret UErr else commit) n1 s (fun r _ _ => r <> UErr)) as Hgo.
    { intros off0 setag n1 Hoff Het. cbv zeta.
      set (off := if negb (bytes_eqb setag []) && negb (bytes_eqb (uc_etag c) []) && negb (bytes_eqb setag (uc_etag c)) then 0 else if zlen (uc_data c) <? off0 then 0 else off0).
      assert (exists p0, off = zlen p0 /\ prefix_of p0 (uc_data c) /\ (p0 <> [] -> f_part s = Some p0 /\ side_etag s = uc_etag c)) as (p0 & Ho & Hp0 & Hres).
      { assert (exists p0, 0 = zlen p0 /\ prefix_of p0 (uc_data c) /\ (p0 <> [] -> f_part s = Some p0 /\ side_etag s = uc_etag c)) as Hz.
        { exists []. split; [reflexivity|]. split; [exists (uc_data c); reflexivity|]. intros Hx; contradiction. }
        unfold off. destruct (negb (bytes_eqb setag []) && negb (bytes_eqb (uc_etag c) []) && negb (bytes_eqb setag (uc_etag c))) eqn:Econ; [exact Hz|].
        destruct (zlen (uc_data c) <? off0); [exact Hz|]. destruct (f_part s) as [p|] eqn:Ep; cbn [oget] in Hoff; [|subst off0; exact Hz].
        destruct p as [|b p]; [subst off0; exact Hz|]. exists (b :: p). split; [exact Hoff|].
        destruct (Hinv _ Ep ltac:(discriminate)) as [Hse Hpre]. specialize (Het ltac:(discriminate)). destruct Hgood as [Hne _].
        assert (bytes_eqb setag [] = false) as E1 by (destruct (bytes_eqb setag []) eqn:E; [apply bytes_eqb_eq in E; congruence|reflexivity]).
        assert (bytes_eqb (uc_etag c) [] = false) as E2 by (destruct (bytes_eqb (uc_etag c) []) eqn:E; [apply bytes_eqb_eq in E; congruence|reflexivity]).
        rewrite E1, E2 in Econ. cbn [negb andb] in Econ. apply negb_false_iff, bytes_eqb_eq in Econ.
        assert (side_etag s = uc_etag c) as Hs by congruence. split; [rewrite <- Hcont, <- Hs; exact Hpre|]. auto. }
      rewrite Ho. destruct (Z.eqb_spec (zlen p0) (zlen (uc_data c))) as [Efull|Epart].
      - assert (p0 = uc_data c) as Hpd by (apply prefix_same_len; auto). rewrite Hpd in Hres. apply (push_commit_calm _ _ (uc_data c) Hfin). apply Hres. exact Hdne.
      - apply wpc_bind. pose proof (zlen_nonneg p0) as Hnn. destruct (Hrd (zlen p0) Hnn) as [Hr1 _]. pose proof (Heof (zlen p0)) as He.
        destruct (uc_rd c (zlen p0)) as [chunks eof]. cbn [fst snd] in Hr1, He. subst eof.
        assert (Z.to_nat (zlen p0) = length p0) as Hln by (unfold zlen; lia). rewrite Hln in Hr1.
        eapply wpc_conseq.
        { eapply wpc_wp; [apply (sink_append_calm (uc_etag c) p0 chunks n1 s); intros Hx; apply Hres; exact Hx|].
          rewrite <- Hcalm. apply (sink_append_spec content (uc_etag c) p0 chunks true (uc_env c) n1 s); auto; rewrite Hcont; assumption. }
        cbv beta. intros r n3 s3 [-> (F3 & _ & R3)]. cbn [negb]. destruct (R3 eq_refl) as [(_ & P3 & _) _]. apply (push_commit_calm _ _ _ F3 P3). }
    apply wpc_bind. unfold stat_of at 1. eexists _, _, _. split; [reflexivity|]. cbv beta. destruct (f_part s) as [p|] eqn:Ep.
    - apply wpc_bind. unfold read_sidecar. eexists _, _, _. split; [reflexivity|]. cbv beta. apply wpc_ret. apply (Hgo (zlen p)); [reflexivity|reflexivity].
    - apply wpc_ret. apply (Hgo 0); [reflexivity|]. intros Hx; contradiction. }
  destruct Hw as (r & n' & s' & E & Hr). exists r, n', s'. split; [exact E|]. unfold wp in Hspec. rewrite E in Hspec. destruct Hspec as [_ Hp]. destruct r; [| |contradiction].
  - destruct Hp as [-> Hp]. split; [auto|]. intros Hx; contradiction.
  - destruct Hp as (H0 & H1 & H2). split; [intros Hx; contradiction|]. auto.
Qed.
