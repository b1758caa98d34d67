(* The tree of aferofs/synth under its calls. *)
From Coq Require Import Permutation.
From Verif Require Import Common CommonLemmas ContentRange_Model ContentRange_Proofs PathLex_Model PathLex_Proofs Afero_Model Afero_Spec.
From Verif Require Utf8_Spec IoBridge_Model IoBridge_Spec IoBridge_Proofs.
Open Scope nat_scope.

(* ---- names ---- *)

Lemma eqb_true (a b : list byte) : bytes_eqb a b = true <-> a = b.
Proof. apply bytes_eqb_eq. Qed.
Lemma eqb_refl' (a : list byte) : bytes_eqb a a = true.
Proof. now apply eqb_true. Qed.
Lemma eqb_false (a b : list byte) : a <> b -> bytes_eqb a b = false.
Proof. intros H. destruct (bytes_eqb a b) eqn:E; [apply eqb_true in E; contradiction|reflexivity]. Qed.

Lemma joined_is l : joined l = join_sep l.
Proof. destruct l as [|c [|b r]]; reflexivity. Qed.
Lemma spell_is p : spell p = render false p.
Proof. destruct p; [reflexivity|]. unfold spell, render. rewrite joined_is. reflexivity. Qed.

Lemma ordinary_normal p : ordinary p -> normal false p.
Proof. intros H. exists 0, p. cbn. repeat split; auto. Qed.

Lemma spell_dot p : ordinary p -> is_dot (spell p) = match p with [] => true | _ => false end.
Proof.
  intros H. destruct p as [|c r]; [reflexivity|]. eapply bool_false_iff; [apply is_dot_true|]. intros E.
  rewrite spell_is in E. change [dot] with (render false []) in E.
  apply render_inj in E; [discriminate|now apply ordinary_normal|apply normal_nil].
Qed.
Lemma comps_spell p : ordinary p -> comps (spell p) = p.
Proof.
  intros H. unfold comps. rewrite spell_dot by assumption. destruct p as [|c r]; [reflexivity|].
  rewrite spell_is. unfold render. apply split_join; [discriminate|]. now apply proper_sepfree.
Qed.
Lemma spell_inj p q : ordinary p -> ordinary q -> spell p = spell q -> p = q.
Proof. intros Hp Hq E. rewrite <- (comps_spell p Hp), E. now apply comps_spell. Qed.
Lemma ordinary_snoc p c : ordinary (p ++ [c]) -> ordinary p /\ proper c.
Proof. intros H. apply Forall_app in H. destruct H as [A B]. inversion B; auto. Qed.
Lemma base_spell p c : ordinary (p ++ [c]) -> base (spell (p ++ [c])) = c.
Proof. intros H. apply ordinary_snoc in H. destruct H. rewrite spell_is. apply base_child; [now apply ordinary_normal|assumption]. Qed.
Lemma dir_spell p c : ordinary (p ++ [c]) -> dir (spell (p ++ [c])) = spell p.
Proof. intros H. apply ordinary_snoc in H. destruct H. rewrite !spell_is. apply dir_child; [now apply ordinary_normal|assumption]. Qed.
Lemma proper_not_dot c : proper c -> is_dot c = false.
Proof. intros H. now apply proper_tests in H. Qed.

Lemma validate_spell n : validate n = None -> exists p, ordinary p /\ n = spell p.
Proof.
  unfold validate. destruct (IoBridge_Model.fs_valid_path n) eqn:E; [cbn|discriminate]. intros _.
  apply IoBridge_Proofs.fs_valid_spec in E. destruct E as [_ [->|(l & Hl & Hp & ->)]].
  - exists []. split; [constructor|reflexivity].
  - exists l. split; [assumption|]. rewrite spell_is. unfold render. destruct l; [contradiction|reflexivity].
Qed.

(* ---- one directory ---- *)

Lemma assoc_in l c x : assoc l c = Some x -> In (c, x) l.
Proof.
  induction l as [|[k y] r IH]; cbn; [discriminate|]. destruct (bytes_eqb k c) eqn:E.
  - apply eqb_true in E. subst. intros H; injection H as ->. now left.
  - intros H. right. auto.
Qed.
Lemma assoc_none l c : assoc l c = None <-> ~ In c (map fst l).
Proof.
  induction l as [|[k y] r IH]; cbn; [tauto|]. destruct (bytes_eqb k c) eqn:E.
  - apply eqb_true in E. subst. split; [discriminate|]. intros H. exfalso. apply H. now left.
  - rewrite IH. split; [|tauto]. intros H [->|H']; [rewrite eqb_refl' in E; discriminate|tauto].
Qed.
Lemma assoc_app l1 l2 c : assoc (l1 ++ l2) c = match assoc l1 c with Some x => Some x | None => assoc l2 c end.
Proof. induction l1 as [|[k y] r IH]; cbn; [reflexivity|]. destruct (bytes_eqb k c); auto. Qed.
Lemma assoc_drop_other l c b : b <> c -> assoc (drop_name l c) b = assoc l b.
Proof.
  intros H. induction l as [|[k y] r IH]; cbn; [reflexivity|]. destruct (bytes_eqb k c) eqn:E.
  - apply eqb_true in E. subst. rewrite eqb_false by congruence. reflexivity.
  - cbn. rewrite IH. reflexivity.
Qed.
Lemma drop_keys l c b : In b (map fst (drop_name l c)) -> In b (map fst l).
Proof. induction l as [|[k y] r IH]; cbn; [tauto|]. destruct (bytes_eqb k c); cbn; tauto. Qed.
Lemma drop_in l c e : In e (drop_name l c) -> In e l.
Proof. induction l as [|[k y] r IH]; cbn; [tauto|]. destruct (bytes_eqb k c); cbn; tauto. Qed.
Lemma drop_nodup l c : NoDup (map fst l) -> NoDup (map fst (drop_name l c)) /\ ~ In c (map fst (drop_name l c)).
Proof.
  induction l as [|[k y] r IH]; cbn; intros H; [split; [constructor|tauto]|]. inversion H as [|a b Hn Hd]; subst.
  destruct (IH Hd) as [A B]. destruct (bytes_eqb k c) eqn:E.
  - apply eqb_true in E. subst. split; assumption.
  - cbn. split; [constructor; [intros Hi; apply Hn; eapply drop_keys; eauto|assumption]|].
    intros [->|Hi]; [rewrite eqb_refl' in E; discriminate|contradiction].
Qed.
Lemma assoc_drop_same l c : NoDup (map fst l) -> assoc (drop_name l c) c = None.
Proof. intros H. apply assoc_none, (proj2 (drop_nodup l c H)). Qed.
Lemma replace_keys l c y : map fst (replace_at l c y) = map fst l.
Proof. induction l as [|[k x] r IH]; cbn; [reflexivity|]. destruct (bytes_eqb k c) eqn:E; cbn; [reflexivity|now rewrite IH]. Qed.
Lemma assoc_replace l c y b : assoc (replace_at l c y) b = if bytes_eqb b c then match assoc l c with Some _ => Some y | None => None end else assoc l b.
Proof.
  induction l as [|[k x] r IH]; cbn; [destruct (bytes_eqb b c); reflexivity|].
  destruct (bytes_eqb k c) eqn:E; cbn.
  - apply eqb_true in E. subst k. destruct (bytes_eqb b c) eqn:E2.
    + apply eqb_true in E2. subst. rewrite eqb_refl'. reflexivity.
    + rewrite eqb_false by (intros ->; rewrite eqb_refl' in E2; discriminate). reflexivity.
  - rewrite IH. destruct (bytes_eqb b c) eqn:E2; [|reflexivity].
    apply eqb_true in E2. subst. rewrite E. reflexivity.
Qed.
Lemma replace_in l c y k x : In (k, x) (replace_at l c y) -> In (k, x) l \/ x = y.
Proof.
  induction l as [|[b z] r IH]; cbn; [tauto|]. destruct (bytes_eqb b c); cbn.
  - intros [E|H]; [injection E as -> ->; auto|auto].
  - intros [E|H]; [auto|]. destruct (IH H); auto.
Qed.

(* ---- nodes at paths ---- *)

Fixpoint node_at (d : node) (p : list name) : option node :=
  match p with [] => Some d | c :: r => match child d c with Some x => node_at x r | None => None end end.

Lemma find_assoc c es : List.find (same_name c) es = match assoc es c with Some x => Some (c, x) | None => None end.
Proof.
  induction es as [|[k x] r IH]; cbn; [reflexivity|]. unfold same_name at 1. cbn [fst].
  destruct (list_eq_dec N.eq_dec k c) as [->|Hn]; [rewrite eqb_refl'; reflexivity|].
  rewrite eqb_false by assumption. exact IH.
Qed.
Lemma entry_is d p : entry_at d p = option_map kind (node_at d p).
Proof.
  revert d; induction p as [|c r IH]; intros d; [reflexivity|]. cbn [entry_at node_at]. destruct d as [m v|m es]; [reflexivity|].
  rewrite find_assoc. cbn [child]. destruct (assoc es c) as [x|]; [|reflexivity]. apply IH.
Qed.
Lemma node_app d p q : node_at d (p ++ q) = match node_at d p with Some x => node_at x q | None => None end.
Proof. revert d; induction p as [|c r IH]; intros d; [reflexivity|]. cbn. destruct (child d c); [apply IH|reflexivity]. Qed.

Lemma update_none d p f : node_at d p = None -> update d p f = d.
Proof.
  revert d; induction p as [|c r IH]; intros d; cbn; [discriminate|]. destruct d as [m v|m es]; [reflexivity|]. cbn [child].
  destruct (assoc es c) as [x|] eqn:E; [|reflexivity]. intros H. rewrite IH by assumption. f_equal.
  clear - E. induction es as [|[k y] es IH]; cbn in *; [reflexivity|]. destruct (bytes_eqb k c) eqn:E2; [injection E as ->; reflexivity|]. now rewrite IH.
Qed.
Lemma node_update_in d p f x r : node_at d p = Some x -> node_at (update d p f) (p ++ r) = node_at (f x) r.
Proof.
  revert d; induction p as [|c q IH]; intros d; cbn [node_at update app]; [intros H; injection H as ->; reflexivity|].
  destruct d as [m v|m es]; [discriminate|]. cbn [child]. destruct (assoc es c) as [y|] eqn:E; [|discriminate]. intros H.
  cbn [child]. rewrite assoc_replace, eqb_refl', E. apply IH, H.
Qed.
Lemma kind_update d c p f : kind (update d (c :: p) f) = kind d.
Proof. destruct d as [m v|m es]; [reflexivity|]. cbn. destruct (assoc es c); reflexivity. Qed.
Lemma entry_update_out d p f q : ~ below p q -> entry_at (update d p f) q = entry_at d q.
Proof.
  rewrite !entry_is. revert d q; induction p as [|c r IH]; intros d q Hb; [exfalso; apply Hb; now exists q|].
  destruct q as [|b q]; [cbn [node_at option_map]; now rewrite kind_update|].
  cbn [update node_at]. destruct d as [m v|m es]; [reflexivity|]. cbn [child]. destruct (assoc es c) as [x|] eqn:E; [|cbn [child]; reflexivity].
  cbn [child]. rewrite assoc_replace. destruct (bytes_eqb b c) eqn:E2; [|reflexivity].
  apply eqb_true in E2. subst b. rewrite E. apply IH. intros [t ->]. apply Hb. exists t. reflexivity.
Qed.

Definition dirish (d : node) : Prop := exists m es, d = Dir m es.
Lemma add_here c x d : unique d -> dirish d -> forall r, node_at (add_child c x d) (c :: r) = node_at x r.
Proof.
  intros Hu (m & es & ->) r. inversion Hu; subst. cbn. rewrite assoc_app, assoc_drop_same by assumption. cbn. rewrite eqb_refl'. reflexivity.
Qed.
Lemma add_other c x d b r : b <> c -> node_at (add_child c x d) (b :: r) = node_at d (b :: r).
Proof.
  intros Hb. destruct d as [m v|m es]; [reflexivity|]. cbn. rewrite assoc_app, assoc_drop_other by assumption. cbn.
  destruct (assoc es b); [reflexivity|]. rewrite eqb_false by congruence. reflexivity.
Qed.
Lemma remove_here c d r : unique d -> node_at (remove_child c d) (c :: r) = None.
Proof. intros Hu. destruct d as [m v|m es]; [reflexivity|]. inversion Hu; subst. cbn. rewrite assoc_drop_same by assumption. reflexivity. Qed.
Lemma remove_other c d b r : b <> c -> node_at (remove_child c d) (b :: r) = node_at d (b :: r).
Proof. intros Hb. destruct d as [m v|m es]; [reflexivity|]. cbn. rewrite assoc_drop_other by assumption. reflexivity. Qed.
Lemma kind_add c x d : kind (add_child c x d) = kind d.
Proof. destruct d; reflexivity. Qed.
Lemma kind_remove c d : kind (remove_child c d) = kind d.
Proof. destruct d; reflexivity. Qed.

(* ---- names stay unique ---- *)

Lemma unique_child d c x : unique d -> child d c = Some x -> unique x.
Proof. intros Hu. destruct d as [m v|m es]; [discriminate|]. inversion Hu as [|m0 es0 Hd Hc]; subst. cbn. intros E. eapply Hc, assoc_in, E. Qed.
Lemma unique_at d p x : unique d -> node_at d p = Some x -> unique x.
Proof.
  revert d; induction p as [|c r IH]; intros d Hu; cbn; [intros H; injection H as ->; assumption|].
  destruct (child d c) as [y|] eqn:E; [|discriminate]. apply IH. eapply unique_child; eauto.
Qed.
Lemma unique_update d p f : unique d -> (forall x, node_at d p = Some x -> unique (f x)) -> unique (update d p f).
Proof.
  revert d; induction p as [|c r IH]; intros d Hu Hf; cbn [update]; [apply Hf; reflexivity|].
  destruct d as [m v|m es]; [assumption|]. destruct (assoc es c) as [x|] eqn:E; [|assumption].
  inversion Hu as [|m0 es0 Hd Hc]; subst. constructor; [now rewrite replace_keys|]. intros k y Hi.
  apply replace_in in Hi. destruct Hi as [Hi| ->]; [eauto|]. apply IH; [eapply Hc, assoc_in, E|].
  intros z Hz. apply Hf. cbn [node_at child]. rewrite E. exact Hz.
Qed.
Lemma unique_add c x d : unique d -> unique x -> unique (add_child c x d).
Proof.
  intros Hu Hx. destruct d as [m v|m es]; [constructor|]. inversion Hu as [|m0 es0 Hd Hc]; subst. cbn. destruct (drop_nodup es c Hd) as [A B]. constructor.
  - rewrite map_app. cbn. apply (Permutation_NoDup (l := c :: map fst (drop_name es c))).
    + apply Permutation_cons_append.
    + now constructor.
  - intros k y Hi. apply in_app_or in Hi. destruct Hi as [Hi|[E|[]]]; [eapply Hc, drop_in, Hi|]. injection E as <- <-. assumption.
Qed.
Lemma unique_remove c d : unique d -> unique (remove_child c d).
Proof.
  intros Hu. destruct d as [m v|m es]; [constructor|]. inversion Hu as [|m0 es0 Hd Hc]; subst. cbn. constructor; [apply drop_nodup; assumption|].
  intros k y Hi. eapply Hc, drop_in, Hi.
Qed.
Lemma unique_mode m d : unique d -> unique (set_mode m d).
Proof. intros Hu. destruct d as [a v|a es]; [constructor|]. inversion Hu; subst. now constructor. Qed.
Lemma unique_empty m : unique (Dir m []).
Proof. constructor; [constructor|intros c x []]. Qed.

(* ---- the views of a tree ---- *)

Lemma closes_is d : closes d = views_in d.
Proof. reflexivity. Qed.
Definition ents_views (es : list (name * node)) : list nat := flat_map (fun e => views_in (snd e)) es.
Lemma views_dir m es : views_in (Dir m es) = ents_views es.
Proof. reflexivity. Qed.
Lemma views_drop es c x : assoc es c = Some x -> Permutation (ents_views es) (views_in x ++ ents_views (drop_name es c)).
Proof.
  induction es as [|[k y] r IH]; cbn; [discriminate|]. destruct (bytes_eqb k c) eqn:E; [intros H; injection H as ->; reflexivity|].
  intros H. cbn. rewrite (IH H). rewrite !app_assoc. apply Permutation_app_tail, Permutation_app_comm.
Qed.
Lemma drop_absent es c : assoc es c = None -> drop_name es c = es.
Proof. induction es as [|[k y] r IH]; cbn; [reflexivity|]. destruct (bytes_eqb k c); [discriminate|]. intros H. now rewrite IH. Qed.
Lemma views_replace es c x y : assoc es c = Some x -> Permutation (ents_views (replace_at es c y)) (views_in y ++ ents_views (drop_name es c)).
Proof.
  induction es as [|[k z] r IH]; cbn; [discriminate|]. destruct (bytes_eqb k c) eqn:E; [intros H; reflexivity|].
  intros H. cbn. rewrite (IH H). rewrite !app_assoc. apply Permutation_app_tail, Permutation_app_comm.
Qed.
Lemma views_update d p x : node_at d p = Some x -> exists rest, Permutation (views_in d) (views_in x ++ rest) /\ forall f, Permutation (views_in (update d p f)) (views_in (f x) ++ rest).
Proof.
  revert d; induction p as [|c r IH]; intros d; cbn [node_at].
  - intros H. injection H as ->. exists []. rewrite app_nil_r. split; [reflexivity|]. intros f. cbn. now rewrite app_nil_r.
  - destruct d as [m v|m es]; [discriminate|]. cbn [child]. destruct (assoc es c) as [y|] eqn:E; [|discriminate]. intros H.
    destruct (IH y H) as (rest & A & B). exists (rest ++ ents_views (drop_name es c)). split.
    + rewrite views_dir, (views_drop es c y E), A, app_assoc. reflexivity.
    + intros f. cbn [update]. rewrite E, views_dir, (views_replace es c y _ E), (B f), app_assoc. reflexivity.
Qed.
Lemma views_add_new c x d : dirish d -> child d c = None -> Permutation (views_in (add_child c x d)) (views_in x ++ views_in d).
Proof.
  intros (m & es & ->) H. cbn [child] in H. cbn [add_child]. rewrite drop_absent by assumption. rewrite !views_dir. unfold ents_views. rewrite flat_map_app. cbn.
  rewrite app_nil_r. apply Permutation_app_comm.
Qed.
Lemma views_add_over c x y d : child d c = Some y -> exists rest, Permutation (views_in d) (views_in y ++ rest) /\ Permutation (views_in (add_child c x d)) (views_in x ++ rest).
Proof.
  destruct d as [m v|m es]; [discriminate|]. cbn [child add_child]. intros E. exists (ents_views (drop_name es c)). rewrite !views_dir. split; [now apply views_drop|].
  unfold ents_views. rewrite flat_map_app. cbn. rewrite app_nil_r. apply Permutation_app_comm.
Qed.
Lemma views_remove c x d : child d c = Some x -> Permutation (views_in d) (views_in x ++ views_in (remove_child c d)).
Proof. destruct d as [m v|m es]; [discriminate|]. cbn [child remove_child]. rewrite !views_dir. apply views_drop. Qed.
Lemma views_mode m d : views_in (set_mode m d) = views_in d.
Proof. destruct d; reflexivity. Qed.

(* ---- looking names up ---- *)

Lemma perm_bit m i : (i < 9)%N -> N.testbit (perm_of m) i = N.testbit m i.
Proof.
  intros H. unfold perm_of, m_perm. rewrite N.land_spec. change 511%N with (N.ones 9). rewrite N.ones_spec_low by assumption. apply andb_true_r.
Qed.
Lemma has_1 d : has_perm d 1 = true <-> may_search (mode_of d).
Proof.
  unfold has_perm, may_search. rewrite N.eqb_eq, <- (perm_bit (mode_of d) 6) by reflexivity. set (w := perm_of (mode_of d)). split.
  - intros H. assert (N.testbit (N.land (N.shiftr w 6) 1) 0 = true) as E by now rewrite H.
    rewrite N.land_spec, N.shiftr_spec' in E. apply andb_true_iff in E. apply E.
  - intros H. apply N.bits_inj. intros i. rewrite N.land_spec, N.shiftr_spec'. destruct (N.eq_dec i 0) as [->|Hi]; [cbn [N.add]; now rewrite H|].
    replace (N.testbit 1 i) with false; [apply andb_false_r|]. destruct i as [|[i|i|]]; try reflexivity; contradiction.
Qed.
Lemma has_2 d : has_perm d 2 = true <-> may_write (mode_of d).
Proof.
  unfold has_perm, may_write. rewrite N.eqb_eq, <- (perm_bit (mode_of d) 7) by reflexivity. set (w := perm_of (mode_of d)). split.
  - intros H. assert (N.testbit (N.land (N.shiftr w 6) 2) 1 = true) as E by now rewrite H.
    rewrite N.land_spec, N.shiftr_spec' in E. apply andb_true_iff in E. apply E.
  - intros H. apply N.bits_inj. intros i. rewrite N.land_spec, N.shiftr_spec'. destruct (N.eq_dec i 1) as [->|Hi]; [change (1 + 6)%N with 7%N; now rewrite H|].
    replace (N.testbit 2 i) with false; [apply andb_false_r|]. destruct i as [|[[i|i|]|[i|i|]|]]; try reflexivity; contradiction.
Qed.
Lemma has_3 d : has_perm d 3 = true <-> may_search (mode_of d) /\ may_write (mode_of d).
Proof.
  rewrite <- has_1, <- has_2. unfold has_perm. rewrite !N.eqb_eq. set (w := N.shiftr (perm_of (mode_of d)) 6). split.
  - intros H. split.
    + change 1%N with (N.land 3 1). rewrite N.land_assoc, H. reflexivity.
    + change 2%N with (N.land 3 2). rewrite N.land_assoc, H. reflexivity.
  - intros [A B]. change 3%N with (N.lor 1 2). rewrite N.land_lor_distr_r, A, B. reflexivity.
Qed.


Lemma last_snoc {A} (l : list A) x d : last (l ++ [x]) d = x.
Proof. apply last_last. Qed.
Lemma snoc_cases {A} (p : list A) : p = [] \/ exists q c, p = q ++ [c].
Proof. destruct p as [|a p] using rev_ind; [now left|right; eauto]. Qed.
Lemma validate_ok p : ordinary p -> validate (spell p) = None <-> acceptable p.
Proof.
  intros Hp. unfold validate, acceptable.
  assert (IoBridge_Model.fs_valid_path (spell p) = true <-> IoBridge_Spec.valid_text (spell p)) as Ht.
  { rewrite IoBridge_Proofs.fs_valid_spec. unfold IoBridge_Spec.valid_name. split; [tauto|]. intros H. split; [assumption|].
    destruct p as [|c r]; [now left|right]. exists (c :: r). split; [discriminate|]. split; [assumption|]. rewrite spell_is. reflexivity. }
  assert (length (base (spell p)) <= 255 <-> length (last p []) <= 255) as Hl.
  { destruct (snoc_cases p) as [->|(q & c & ->)]; [cbn; lia|]. rewrite base_spell, last_snoc by assumption. tauto. }
  destruct (IoBridge_Model.fs_valid_path (spell p)) eqn:E; cbn [negb].
  - destruct (255 <? length (base (spell p))) eqn:E2.
    + apply Nat.ltb_lt in E2. split; [discriminate|]. intros [_ H]. apply Hl in H. lia.
    + apply Nat.ltb_ge in E2. apply Hl in E2. split; [|reflexivity]. intros _. split; [now apply Ht|assumption].
  - split; [discriminate|]. intros [H _]. apply Ht in H. discriminate.
Qed.

Lemma searchable_ok o : searchable o = None <-> exists m es, o = Some (Dir m es) /\ may_search m.
Proof.
  unfold searchable. destruct o as [[m v|m es]|]; cbn [is_dir negb]; [split; [discriminate|intros (? & ? & H & _); discriminate]| |split; [discriminate|intros (? & ? & H & _); discriminate]].
  destruct (has_perm (Dir m es) 1) eqn:E; cbn [negb].
  - split; [|reflexivity]. intros _. exists m, es. split; [reflexivity|]. now apply has_1 in E.
  - split; [discriminate|]. intros (m' & es' & H & Hm). injection H as -> ->. apply (proj2 (has_1 (Dir m' es'))) in Hm. congruence.
Qed.

Definition open_below (d : node) (ps : list name) : Prop :=
  forall q c r, ps = q ++ c :: r -> exists m, entry_at d (q ++ [c]) = Some (DirEnt m) /\ may_search m.
Lemma entry_child d c x p : child d c = Some x -> entry_at d (c :: p) = entry_at x p.
Proof. intros H. rewrite !entry_is. cbn. now rewrite H. Qed.
Lemma descend_spec d ps x : descend d ps = inr x <-> node_at d ps = Some x /\ open_below d ps.
Proof.
  revert d; induction ps as [|c r IH]; intros d; cbn [descend node_at].
  - split; [intros H; injection H as ->|intros [H _]; injection H as ->; reflexivity]. split; [reflexivity|]. intros q c t H. destruct q; discriminate.
  - destruct (searchable (child d c)) as [e|] eqn:E.
    + split; [discriminate|]. intros [H Ho]. exfalso. destruct (Ho [] c r eq_refl) as (m & Hm & Hs). cbn [app] in Hm.
      rewrite entry_is in Hm. cbn [node_at] in Hm. destruct (child d c) as [y|] eqn:Ec; [|discriminate]. cbn in Hm. destruct y as [a b|a b]; [discriminate|]. injection Hm as ->.
      assert (searchable (Some (Dir m b)) = None) by (apply searchable_ok; eauto). congruence.
    + apply searchable_ok in E. destruct E as (m & es & E & Hm). rewrite E, IH. split; intros [A B]; split; auto.
      * intros q b t H. destruct q as [|a q]; cbn in H; injection H as <- H.
        -- exists m. cbn [app]. rewrite (entry_child _ _ _ _ E). split; [reflexivity|assumption].
        -- destruct (B q b t H) as (m' & A1 & A2). exists m'. cbn [app]. rewrite (entry_child _ _ _ _ E). auto.
      * intros q b t H. subst r. destruct (B (c :: q) b t eq_refl) as (m' & A1 & A2). exists m'. cbn [app] in A1. rewrite (entry_child _ _ _ _ E) in A1. auto.
Qed.

Lemma way_from_root s p c : way_open s (p ++ [c]) <-> (exists m es, a_root s = Dir m es /\ may_search m) /\ open_below (a_root s) p.
Proof.
  unfold way_open, shows. split.
  - intros H. split.
    + destruct p as [|a p].
      * destruct (H [] c [] eq_refl) as (m & A & B). destruct (a_root s); [discriminate|]. cbn in A. injection A as ->. eauto.
      * destruct (H [] a (p ++ [c]) eq_refl) as (m & A & B). destruct (a_root s); [discriminate|]. cbn in A. injection A as ->. eauto.
    + intros q b r ->. destruct r as [|a r].
      * destruct (H (q ++ [b]) c []) as (m & A & B); [now rewrite <- app_assoc|eauto].
      * destruct (H (q ++ [b]) a (r ++ [c])) as (m & A & B); [now rewrite <- !app_assoc|eauto].
  - intros [(m & es & E & Hm) Ho] q b r Hq. destruct (snoc_cases q) as [->|(t & a & ->)].
    + exists m. rewrite E. split; [reflexivity|assumption].
    + destruct (snoc_cases r) as [->|(r' & z & ->)].
      * rewrite <- app_assoc in Hq. cbn in Hq. change (p ++ [c] = t ++ [a] ++ [b]) in Hq. rewrite app_assoc in Hq. apply app_inj_tail in Hq. destruct Hq as [-> ->].
        apply (Ho t a []). reflexivity.
      * replace ((t ++ [a]) ++ b :: r' ++ [z]) with ((t ++ a :: b :: r') ++ [z]) in Hq by (rewrite <- !app_assoc; reflexivity).
        apply app_inj_tail in Hq. destruct Hq as [-> ->]. apply (Ho t a (b :: r')). reflexivity.
Qed.

Lemma snoc_not_nil {A} (p : list A) c : p ++ [c] <> [].
Proof. destruct p; discriminate. Qed.
Lemma find_parent_spec s p c r : ordinary (p ++ [c]) ->
  find_parent s (spell (p ++ [c])) = inr r <->
  acceptable (p ++ [c]) /\ way_open s (p ++ [c]) /\ fst r = p /\ node_at (a_root s) p = Some (snd r).
Proof.
  intros Ho. destruct r as [pp d]. unfold find_parent. rewrite <- validate_ok by assumption. cbn [fst snd].
  destruct (validate (spell (p ++ [c]))) as [e|]; [split; [discriminate|intros [H _]; discriminate]|].
  rewrite spell_dot by assumption. destruct (p ++ [c]) eqn:Ep; [now apply snoc_not_nil in Ep|]. rewrite <- Ep in *. clear Ep.
  rewrite comps_spell, removelast_last by assumption.
  rewrite way_from_root. destruct (searchable (Some (a_root s))) as [e|] eqn:E.
  - split; [discriminate|]. intros (_ & [(m & es & Hr & Hm) _] & _). exfalso.
    assert (searchable (Some (a_root s)) = None) by (apply searchable_ok; rewrite Hr; eauto). congruence.
  - apply searchable_ok in E. destruct E as (m & es & E & Hm). injection E as E.
    destruct (descend (a_root s) p) as [e|x] eqn:Ed.
    + split; [discriminate|]. intros (_ & [_ Hb] & _ & Hn). exfalso. pose proof (proj2 (descend_spec _ _ _) (conj Hn Hb)). congruence.
    + apply descend_spec in Ed. destruct Ed as [Hn Hb]. split.
      * intros H. injection H as <- <-. split; [reflexivity|]. split; [split; [eauto|assumption]|auto].
      * intros (_ & _ & -> & Hd). congruence.
Qed.
Lemma acceptable_root : acceptable [].
Proof.
  split; [|cbn; lia]. exists [46%N]. split; [|reflexivity]. constructor; [|constructor]. unfold Utf8_Spec.scalar. lia.
Qed.
Lemma find_parent_root s r : find_parent s (spell []) = inr r <-> r = ([], a_root s).
Proof.
  unfold find_parent. rewrite (proj2 (validate_ok [] (Forall_nil _))).
  - cbn. split; [intros H; injection H as <-; reflexivity|intros ->; reflexivity].
  - apply acceptable_root.
Qed.
Lemma way_nil s : way_open s [].
Proof. intros q c r H. destruct q; discriminate. Qed.
Lemma find_spec s p x : ordinary p -> find s (spell p) = inr x <-> acceptable p /\ way_open s p /\ node_at (a_root s) p = Some x.
Proof.
  intros Ho. unfold find. destruct (snoc_cases p) as [->|(q & c & ->)].
  - rewrite (proj2 (find_parent_root s ([], a_root s)) eq_refl). change (is_dot (base (spell []))) with true. cbn [node_at].
    pose proof acceptable_root. pose proof (way_nil s). split; [intros H1; injection H1 as <-; auto|]. intros (_ & _ & H1). congruence.
  - destruct (find_parent s (spell (q ++ [c]))) as [e|[pp d]] eqn:E.
    + split; [discriminate|]. intros (Ha & Hw & Hn). exfalso. rewrite node_app in Hn. destruct (node_at (a_root s) q) as [y|] eqn:Ey; [|discriminate].
      assert (find_parent s (spell (q ++ [c])) = inr (q, y)) by (apply find_parent_spec; auto). congruence.
    + apply find_parent_spec in E; [|assumption]. cbn [fst snd] in E. destruct E as (Ha & Hw & -> & Hn).
      rewrite base_spell by assumption. destruct (ordinary_snoc _ _ Ho) as [_ Hc]. rewrite proper_not_dot by assumption.
      rewrite node_app, Hn. cbn [node_at]. destruct (child d c) as [y|].
      * split; [intros H; injection H as <-; auto|]. intros (_ & _ & H). congruence.
      * split; [discriminate|]. intros (_ & _ & H). discriminate.
Qed.
