(* The errors of aferofs/synth. *)
From Coq Require Import Permutation.
From Verif Require Import Common CommonLemmas ContentRange_Model ContentRange_Proofs PathLex_Model PathLex_Proofs Afero_Model Afero_Spec Afero_Proofs AferoOps_Proofs AferoCalls_Proofs AferoMore_Proofs AferoMove_Proofs AferoViews_Proofs AferoErr_Spec.
From Verif Require Utf8_Spec IoBridge_Model IoBridge_Spec IoBridge_Proofs.
Open Scope nat_scope.

(* ---- names ---- *)

Lemma validate_err n e : validate n = Some e <-> bad_name n e.
Proof.
  assert (IoBridge_Model.fs_valid_path n = true <-> is_name n) as Hv.
  { rewrite IoBridge_Proofs.fs_valid_spec. unfold IoBridge_Spec.valid_name, is_name. split.
    - intros [T [->|(l & Hl & Hp & ->)]]; (split; [assumption|]).
      + exists []. split; [constructor|reflexivity].
      + exists l. split; [assumption|]. rewrite spell_is. unfold render. destruct l; [contradiction|reflexivity].
    - intros [T (p & Hp & ->)]. split; [assumption|]. destruct p as [|c r]; [now left|right]. exists (c :: r). split; [discriminate|]. split; [assumption|]. rewrite spell_is. reflexivity. }
  assert (forall p, ordinary p -> length (base (spell p)) = length (last p []) \/ p = []) as Hl.
  { intros p Hp. destruct (snoc_cases p) as [->|(q & c & ->)]; [now right|left]. now rewrite base_spell, last_snoc. }
  unfold validate, bad_name. destruct (IoBridge_Model.fs_valid_path n) eqn:E; cbn [negb].
  - pose proof (proj1 Hv eq_refl) as [T (p & Hp & ->)]. destruct (255 <? length (base (spell p))) eqn:L.
    + apply Nat.ltb_lt in L. destruct (Hl p Hp) as [A| ->]; [|cbn in L; lia]. split.
      * intros H. apply some_inj in H. subst e. right. split; [|reflexivity]. exists p. rewrite A in L. auto.
      * intros [[H _]|[_ ->]]; [|reflexivity]. exfalso. apply H. split; [assumption|]. eauto.
    + apply Nat.ltb_ge in L. split; [discriminate|]. intros [[H _]|[(q & Hq & Es & _ & H) _]].
      * exfalso. apply H. split; [assumption|]. eauto.
      * apply spell_inj in Es; auto. subst q. destruct (Hl p Hp) as [A| ->]; [lia|cbn in H; lia].
  - split.
    + intros H. apply some_inj in H. subst e. left. split; [|reflexivity]. intros H. apply Hv in H. discriminate.
    + intros [[_ ->]|[(p & Hp & -> & T & _) _]]; [reflexivity|]. exfalso. assert (false = true) by (apply Hv; split; eauto). discriminate.
Qed.

(* ---- the way ---- *)

Lemma app_cases {A} (q1 q2 r1 r2 : list A) : q1 ++ r1 = q2 ++ r2 ->
  (exists t, q2 = q1 ++ t) \/ (exists c t, q1 = q2 ++ c :: t).
Proof.
  revert q2; induction q1 as [|a q1 IH]; intros [|b q2] H; cbn in *.
  - left. now exists [].
  - left. now exists (b :: q2).
  - right. now exists a, q1.
  - injection H as -> H. destruct (IH q2 H) as [(t & ->)|(c & t & ->)]; [left|right]; eauto.
Qed.
Lemma way_prefix s p q : way_open s (p ++ q) -> way_open s p.
Proof. intros H a c r ->. apply (H a c (r ++ q)). now rewrite <- app_assoc. Qed.
Lemma obstacle_not_passed s q e m : obstacle s q e -> shows s q = Some (DirEnt m) -> may_search m -> False.
Proof. intros [[H _]|[[(k & v & H) _]|[(k & H & Hn) _]]] E Hm; rewrite E in H; try discriminate. injection H as <-. contradiction. Qed.
Lemma blocked_not_open s p e : blocked s p e -> way_open s p -> False.
Proof. intros (q & c & r & -> & _ & Hf) W. destruct (W q c r eq_refl) as (m & Hm & Hs). eapply obstacle_not_passed; eauto. Qed.
Lemma obstacle_fun s q e e' : obstacle s q e -> obstacle s q e' -> e = e'.
Proof.
  intros [[H ->]|[[(k & v & H) ->]|[(k & H & Hn) ->]]] [[H' ->]|[[(k' & v' & H') ->]|[(k' & H' & Hn') ->]]]; try reflexivity; rewrite H in H'; discriminate.
Qed.
Lemma blocked_fun s p e e' : blocked s p e -> blocked s p e' -> e = e'.
Proof.
  intros (q & c & r & -> & W & F) (q' & c' & r' & E & W' & F').
  destruct (app_cases _ _ _ _ E) as [([|a t] & ->)|(a & t & ->)].
  - rewrite app_nil_r in F'. exact (obstacle_fun _ _ _ _ F F').
  - destruct (W' q a t eq_refl) as (m & Hm & Hs). destruct (obstacle_not_passed _ _ _ _ F Hm Hs).
  - destruct (W q' a t eq_refl) as (m & Hm & Hs). destruct (obstacle_not_passed _ _ _ _ F' Hm Hs).
Qed.

Lemma searchable_err s q e : searchable (node_at (a_root s) q) = Some e -> obstacle s q e.
Proof.
  unfold obstacle, shows. rewrite entry_is. destruct (node_at (a_root s) q) as [[m v|m es]|]; cbn [searchable is_dir negb option_map kind].
  - intros H. apply some_inj in H. subst. right. left. eauto.
  - destruct (has_perm (Dir m es) 1) eqn:E; cbn [negb]; [discriminate|]. intros H. apply some_inj in H. subst. right. right. split; [|reflexivity].
    exists m. split; [reflexivity|]. intros Hs. apply (proj2 (has_1 (Dir m es))) in Hs. congruence.
  - intros H. apply some_inj in H. subst. left. auto.
Qed.
Lemma searchable_obstacle s q e : obstacle s q e -> searchable (node_at (a_root s) q) = Some e.
Proof.
  intros H. destruct (searchable (node_at (a_root s) q)) as [e'|] eqn:E.
  - apply searchable_err in E. f_equal. eapply obstacle_fun; eauto.
  - apply searchable_ok in E. destruct E as (m & es & E & Hm). exfalso. eapply obstacle_not_passed; [exact H| |exact Hm]. unfold shows. rewrite entry_is, E. reflexivity.
Qed.
Lemma descend_err ps : forall d e, descend d ps = inl e -> exists q c r, ps = q ++ c :: r /\ open_below d q /\ searchable (node_at d (q ++ [c])) = Some e.
Proof.
  induction ps as [|c r IH]; intros d e; cbn [descend]; [discriminate|].
  destruct (searchable (child d c)) as [e'|] eqn:E.
  - intros H. injection H as <-. exists [], c, r. split; [reflexivity|]. split; [intros q b t H; destruct q; discriminate|]. cbn [app node_at]. destruct (child d c); exact E.
  - apply searchable_ok in E. destruct E as (m & es & E & Hm). rewrite E. intros H. apply IH in H. destruct H as (q & b & t & -> & Ho & Hs).
    exists (c :: q), b, t. split; [reflexivity|]. split.
    + intros [|a q'] b' t' H; cbn in H; injection H as <- H.
      * exists m. cbn [app]. rewrite (entry_child _ _ _ _ E). split; [reflexivity|assumption].
      * destruct (Ho q' b' t' H) as (m' & A1 & A2). exists m'. cbn [app]. rewrite (entry_child _ _ _ _ E). auto.
    + cbn [app node_at]. rewrite E. exact Hs.
Qed.
Lemma parent_err s p c e : ordinary (p ++ [c]) -> acceptable (p ++ [c]) -> find_parent s (spell (p ++ [c])) = inl e <-> blocked s (p ++ [c]) e.
Proof.
  intros Ho Ha. assert (forall e, find_parent s (spell (p ++ [c])) = inl e -> blocked s (p ++ [c]) e) as K.
  { clear e. intros e. unfold find_parent. rewrite (proj2 (validate_ok _ Ho) Ha). rewrite spell_dot by assumption.
    destruct (p ++ [c]) eqn:Ep; [now apply snoc_not_nil in Ep|]. rewrite <- Ep in *. clear Ep. rewrite comps_spell, removelast_last by assumption.
    destruct (searchable (Some (a_root s))) as [e'|] eqn:E.
    - intros H. injection H as <-. assert (exists b r, p ++ [c] = [] ++ b :: r) as (b & r & Hb) by (destruct p; cbn; eauto).
      exists [], b, r. split; [assumption|]. split; [apply way_nil|]. now apply searchable_err.
    - destruct (descend (a_root s) p) as [e'|x] eqn:Ed; [|discriminate]. intros H. injection H as <-.
      apply descend_err in Ed. destruct Ed as (q & b & r & -> & Hb & Hs). apply searchable_ok in E. destruct E as (m & es & E & Hm). injection E as E.
      assert (exists a t, r ++ [c] = a :: t) as (a & t & Hat) by (destruct r; cbn; eauto).
      exists (q ++ [b]), a, t. split; [rewrite <- Hat, <- !app_assoc; reflexivity|]. split; [|now apply searchable_err].
      apply way_from_root. split; [eauto|assumption]. }
  split; [apply K|]. intros B. destruct (find_parent s (spell (p ++ [c]))) as [e'|r] eqn:E.
  - f_equal. eapply blocked_fun; [apply K; reflexivity|exact B].
  - exfalso. apply find_parent_spec in E; [|assumption]. eapply blocked_not_open; [exact B|tauto].
Qed.
Lemma blocked_nil s e : ~ blocked s [] e.
Proof. intros (q & c & r & H & _). destruct q; discriminate. Qed.
Lemma find_err s p e : ordinary p -> acceptable p -> find s (spell p) = inl e <-> blocked s p e \/ absent s p e.
Proof.
  intros Ho Ha. destruct (snoc_cases p) as [->|(q & c & ->)].
  - assert (find s (spell []) = inr (a_root s)) as E by (apply find_spec; [assumption|]; split; [assumption|]; split; [apply way_nil|reflexivity]).
    rewrite E. split; [discriminate|]. intros [H|(_ & H & _)]; [now apply blocked_nil in H|]. unfold shows in H. cbn in H. discriminate.
  - unfold find. destruct (find_parent s (spell (q ++ [c]))) as [e'|[pp d]] eqn:E.
    + apply parent_err in E; auto. split.
      * intros H. injection H as <-. now left.
      * intros [H|(W & _ & _)]; [f_equal; eapply blocked_fun; eauto|]. exfalso. eapply blocked_not_open; eauto.
    + apply find_parent_spec in E; [|assumption]. cbn [fst snd] in E. destruct E as (_ & Hw & -> & Hn).
      rewrite base_spell by assumption. destruct (ordinary_snoc _ _ Ho) as [_ Hc]. rewrite proper_not_dot by assumption.
      unfold absent, shows. rewrite entry_is, (node_snoc _ _ _ _ Hn). destruct (child d c) as [y|]; cbn [option_map].
      * split; [discriminate|]. intros [H|(_ & H & _)]; [exfalso; eapply blocked_not_open; eauto|discriminate].
      * split; [intros H; injection H as <-; auto|]. intros [H|(_ & _ & ->)]; [exfalso; eapply blocked_not_open; eauto|reflexivity].
Qed.

(* ---- the calls ---- *)

Lemma stat_err s p e : ordinary p -> acceptable p -> stat s (spell p) = inl e <-> blocked s p e \/ absent s p e.
Proof. intros Ho Ha. rewrite <- find_err by assumption. unfold stat. destruct (find s (spell p)); split; congruence. Qed.
Lemma chmod_err s p m e : ordinary p -> acceptable p -> snd (chmod s (spell p) m) = Some e <-> blocked s p e \/ absent s p e.
Proof. intros Ho Ha. rewrite <- find_err by assumption. unfold chmod. destruct (find s (spell p)); cbn [snd]; split; congruence. Qed.

Lemma may_write_dec m : may_write m \/ ~ may_write m.
Proof. unfold may_write. destruct (N.testbit m 7); [left|right]; congruence. Qed.
Lemma may_search_dec m : may_search m \/ ~ may_search m.
Proof. unfold may_search. destruct (N.testbit m 6); [left|right]; congruence. Qed.
Lemma has_2_false d : has_perm d 2 = false <-> ~ may_write (mode_of d).
Proof. rewrite <- has_2. destruct (has_perm d 2); split; congruence. Qed.
Lemma has_1_false d : has_perm d 1 = false <-> ~ may_search (mode_of d).
Proof. rewrite <- has_1. destruct (has_perm d 1); split; congruence. Qed.
Lemma has_3_false d : has_perm d 3 = false <-> ~ (may_search (mode_of d) /\ may_write (mode_of d)).
Proof. rewrite <- has_3. destruct (has_perm d 3); split; congruence. Qed.

Lemma mkdir_err s p c perm e : ordinary (p ++ [c]) -> acceptable p -> snd (mkdir s (spell (p ++ [c])) perm) = Some e <-> mkdir_fault s p c e.
Proof.
  intros Ho Ha. destruct (ordinary_snoc _ _ Ho) as [Hp Hc]. unfold mkdir, mkdir_fault, find_writable_dir. rewrite dir_spell, base_spell by assumption.
  rewrite (proper_not_dot c Hc). destruct (find s (spell p)) as [e'|d] eqn:Ef.
  { apply find_err in Ef; auto. cbn [snd]. split.
    - intros H. apply some_inj in H. subst e'. destruct Ef; auto.
    - intros H. f_equal. assert (~ way_open s p \/ shows s p = None) as Hn by (destruct Ef as [B|(_ & B & _)]; [left; intros W; eapply blocked_not_open; eauto|auto]).
      destruct H as [H|[H|H]].
      + destruct Ef as [B|(W & _)]; [eapply blocked_fun; eauto|]. destruct (blocked_not_open _ _ _ H W).
      + destruct H as (W & N & ->). destruct Ef as [B|(_ & _ & ->)]; [destruct (blocked_not_open _ _ _ B W)|reflexivity].
      + exfalso. destruct Hn as [Hn|Hn]; [|rewrite Hn in H].
        * destruct H as [H|[H|[H|H]]]; tauto.
        * destruct H as [(_ & (m & v & H) & _)|[(_ & (m & H & _) & _)|[(_ & (m & H & _) & _)|(_ & (m & H & _) & _)]]]; discriminate. }
  apply find_spec in Ef; [|assumption]. destruct Ef as (_ & W & Hn).
  assert (forall e, ~ blocked s p e) as NB by (intros e0 B; eapply blocked_not_open; eauto).
  assert (shows s p = Some (kind d)) as Sp by (unfold shows; rewrite entry_is, Hn; reflexivity).
  assert (shows s (p ++ [c]) = option_map kind (child d c)) as Sc by (unfold shows; rewrite entry_is, (node_snoc _ _ _ _ Hn); reflexivity).
  unfold absent. rewrite Sp, Sc. destruct d as [m v|m es]; cbn [is_dir negb snd kind].
  { split.
    - intros H. apply some_inj in H. subst e. right. right. left. eauto.
    - intros [H|[(_ & H & _)|[(_ & _ & ->)|[(_ & (k & H & _) & _)|[(_ & (k & H & _) & _)|(_ & (k & H & _) & _)]]]]]; try discriminate; [destruct (NB _ H)|reflexivity]. }
  destruct (has_perm (Dir m es) 2) eqn:P2; cbn [negb].
  2:{ apply has_2_false in P2. cbn [mode_of] in P2. cbn [snd]. split.
      - intros H. apply some_inj in H. subst e. right. right. right. left. split; [assumption|]. split; [|reflexivity]. exists m. auto.
      - intros [H|[(_ & H & _)|[(_ & (k & w & H) & _)|[(_ & _ & ->)|[(_ & (k & H & Hw) & _)|(_ & (k & H & Hw & _) & _)]]]]]; try discriminate; try reflexivity;
          [destruct (NB _ H)|injection H as <-; contradiction|injection H as <-; contradiction]. }
  apply has_2 in P2. cbn [mode_of] in P2. destruct (child (Dir m es) c) as [x|] eqn:Ec; cbn [option_map snd].
  { split.
    - intros H. apply some_inj in H. subst e. right. right. right. right. left. split; [assumption|]. split; [eauto|]. split; [discriminate|reflexivity].
    - intros [H|[(_ & H & _)|[(_ & (k & w & H) & _)|[(_ & (k & H & Hw) & _)|[(_ & _ & _ & ->)|(_ & _ & H & _)]]]]]; try discriminate; try reflexivity;
        [destruct (NB _ H)|injection H as <-; contradiction]. }
  destruct (has_perm (Dir m es) 1) eqn:P1; cbn [negb].
  2:{ apply has_1_false in P1. cbn [mode_of] in P1. cbn [snd]. split.
      - intros H. apply some_inj in H. subst e. right. right. right. right. right. split; [assumption|]. split; [eauto|auto].
      - intros [H|[(_ & H & _)|[(_ & (k & w & H) & _)|[(_ & (k & H & Hw) & _)|[(_ & _ & H & _)|(_ & _ & _ & ->)]]]]]; try discriminate; try reflexivity;
          [destruct (NB _ H)|injection H as <-; contradiction|contradiction]. }
  apply has_1 in P1. cbn [mode_of] in P1. rewrite (proj2 (has_2 (Dir m es)) P2). cbn [negb snd]. split; [discriminate|].
  intros [H|[(_ & H & _)|[(_ & (k & w & H) & _)|[(_ & (k & H & Hw) & _)|[(_ & _ & H & _)|(_ & (k & H & _ & Hs) & _ & _)]]]]]; try discriminate;
    [destruct (NB _ H)|injection H as <-; contradiction|contradiction|injection H as <-; contradiction].
Qed.

(* ---- the views of the tree are known ---- *)

Definition known (s : afs) : Prop := Forall (fun i => i < length (a_views s)) (account s).
Lemma grows_known s s' : known s -> grows s s' -> known s'.
Proof.
  intros K (fresh & P & Hf & L). unfold known. apply (Permutation_Forall (Permutation_sym P)). apply Forall_app. split.
  - destruct Hf as [->| ->]; [constructor|]. constructor; [cbn in L; lia|constructor].
  - eapply Forall_impl; [|exact K]. intros i Hi. cbn in Hi |- *. lia.
Qed.
Lemma account_update_mode s p m : account (set_root s (update (a_root s) p (set_mode m))) = account s \/ Permutation (account (set_root s (update (a_root s) p (set_mode m)))) (account s).
Proof.
  right. unfold account. cbn [a_root set_root a_closed]. apply Permutation_app_tail. destruct (node_at (a_root s) p) as [x|] eqn:E.
  - destruct (views_update _ _ _ E) as (rest & A & B). rewrite (B _), A, views_mode. reflexivity.
  - rewrite update_none by assumption. reflexivity.
Qed.
Lemma realloc_known s n : sound s -> known s -> known (fst (reallocate s n)).
Proof.
  intros Hs K. unfold reallocate. destruct (find s n) as [e|[m i|m es]]; [exact K| |exact K].
  destruct (nth_error (a_views s) i) as [v|] eqn:Ev; [|exact K].
  match goal with |- context [add_file s n ?nv] => destruct (add_file_grows s n nv Hs) as [G _]; destruct (add_file s n nv) as [s1 [e1|]] eqn:Ea end; cbn [fst] in *.
  - eapply grows_known; eauto.
  - pose proof (grows_known _ _ K G) as K1. unfold known. cbn [a_views log_close set_root].
    assert (Permutation (account (log_close (set_root s1 (update (a_root s1) (comps n) (set_mode m))) [i])) (account s1 ++ [i])) as P.
    { transitivity (account (set_root s1 (update (a_root s1) (comps n) (set_mode m))) ++ [i]).
      - unfold account. cbn [a_root a_closed log_close set_root]. now rewrite app_assoc.
      - apply Permutation_app_tail. destruct (account_update_mode s1 (comps n) m) as [-> |H]; [reflexivity|exact H]. }
    apply (Permutation_Forall (Permutation_sym P)). apply Forall_app. split; [exact K1|]. constructor; [|constructor].
    destruct G as (fresh & _ & _ & L). assert (i < length (a_views s)) by (apply nth_error_Some; congruence). cbn. lia.
Qed.
Lemma step_known s o : sound s -> known s -> known (astep s o).
Proof.
  intros Hs K. destruct o; cbn [astep].
  - eapply grows_known; [exact K|now apply chmod_grows].
  - eapply grows_known; [exact K|now apply mkdir_grows].
  - eapply grows_known; [exact K|now apply mkdir_all_grows].
  - eapply grows_known; [exact K|now apply open_grows].
  - eapply grows_known; [exact K|now apply remove_grows].
  - eapply grows_known; [exact K|now apply remove_all_grows].
  - destruct (rename_shrinks s o n Hs) as (lost & P & V). unfold known. rewrite V. apply (Permutation_Forall P) in K. apply Forall_app in K. apply K.
  - eapply grows_known; [exact K|now apply add_file_grows].
  - now apply realloc_known.
Qed.
Lemma reach_known s : reachable s -> known s.
Proof.
  intros (u & a & l & ->). assert (forall s, sound s -> known s -> known (arun s l)) as H.
  { induction l as [|o l IH]; intros s Hs K; [exact K|]. apply (IH (astep s o)); [now apply step_sound|now apply step_known]. }
  apply H; [apply new_sound|constructor].
Qed.
Lemma view_in d p m v : node_at d p = Some (File m v) -> In v (views_in d).
Proof.
  intros H. destruct (views_update _ _ _ H) as (rest & P & _). eapply Permutation_in; [symmetry; exact P|]. now left.
Qed.
Lemma known_view s p m v : known s -> node_at (a_root s) p = Some (File m v) -> exists w, nth_error (a_views s) v = Some w.
Proof.
  intros K H. apply view_in in H. unfold known in K. rewrite Forall_forall in K. assert (v < length (a_views s)) as L by (apply K, in_or_app; now left).
  destruct (nth_error (a_views s) v) eqn:E; [eauto|]. apply nth_error_None in E. lia.
Qed.

(* ---- OpenFile ---- *)

Lemma may_use_false d a : has_perm d (flag_perm a) = false <-> ~ may_use a (mode_of d).
Proof. rewrite <- flag_perm_use. destruct (has_perm d (flag_perm a)); split; congruence. Qed.
Lemma alters_true q : flag_writable (o_acc q) || o_trunc q = true <-> alters q.
Proof. unfold alters. rewrite Bool.orb_true_iff. destruct (o_acc q); cbn; intuition congruence. Qed.
Lemma asks_true q : flag_writable (o_acc q) || o_append q || o_create q || o_trunc q = true <-> asks_write q.
Proof. unfold asks_write, alters. rewrite !Bool.orb_true_iff. destruct (o_acc q); cbn; intuition congruence. Qed.
Lemma mode_kind d : mode_in (kind d) = mode_of d.
Proof. destruct d; reflexivity. Qed.
Lemma bool_iff b (P : Prop) : (b = true <-> P) -> b = false -> ~ P.
Proof. intros H E K. apply H in K. congruence. Qed.
Lemma handle_err s q m v w e : nth_error (a_views s) v = Some w -> open_handle s q (File m v) = inl e <-> v_ro w = true /\ asks_write q /\ e = ERofs.
Proof.
  intros Hw. cbn [open_handle]. rewrite Hw. unfold view_opens. rewrite <- asks_true. destruct (v_ro w); cbn [andb].
  - destruct (flag_writable (o_acc q) || o_append q || o_create q || o_trunc q); split.
    + intros H. injection H as <-. auto.
    + intros (_ & _ & ->). reflexivity.
    + discriminate.
    + intros (_ & H & _). discriminate.
  - split; [discriminate|]. intros (H & _). discriminate.
Qed.
Lemma open_err s p c q perm e : reachable s -> ordinary (p ++ [c]) -> acceptable (p ++ [c]) ->
  snd (open_file s (spell (p ++ [c])) q perm) = inl e <-> blocked s (p ++ [c]) e \/ way_open s (p ++ [c]) /\ open_fault s p c q e.
Proof.
  intros Hr Ho Ha. apply reach_known in Hr. destruct (ordinary_snoc _ _ Ho) as [Hp Hc]. unfold open_file. destruct (find_parent s (spell (p ++ [c]))) as [e'|[pp d]] eqn:Ef; cbn [snd].
  { apply parent_err in Ef; auto. split.
    - intros H. injection H as <-. now left.
    - intros [H|[W _]]; [f_equal; eapply blocked_fun; eauto|destruct (blocked_not_open _ _ _ Ef W)]. }
  apply find_parent_spec in Ef; [|assumption]. cbn [fst snd] in Ef. destruct Ef as (_ & W & -> & Hn).
  assert (forall e, ~ blocked s (p ++ [c]) e) as NB by (intros e0 B; eapply blocked_not_open; eauto).
  transitivity (open_fault s p c q e); [|split; [tauto|intros [B|[_ H]]; [destruct (NB _ B)|exact H]]].
  destruct (parent_of_way _ _ _ W) as (pm & es & Hn' & Hpm). assert (d = Dir pm es) by congruence. subst d. clear Hn'.
  assert (writable_parent s p <-> may_write pm) as WP.
  { unfold writable_parent, shows. rewrite entry_is, Hn. cbn [option_map kind]. split; [intros (k & H & _ & K); injection H as <-; exact K|intros K; exists pm; auto]. }
  assert (shows s (p ++ [c]) = option_map kind (child (Dir pm es) c)) as Sc by (unfold shows; rewrite entry_is, (node_snoc _ _ _ _ Hn); reflexivity).
  rewrite base_spell by assumption. rewrite (proper_not_dot c Hc). unfold open_fault. rewrite Sc, WP. clear Sc.
  destruct (child (Dir pm es) c) as [x|] eqn:Ec; cbn [option_map].
  - transitivity ((o_excl q = true /\ e = EExist \/
      o_excl q = false /\ ~ may_use (o_acc q) (mode_of x) /\ e = EAcces \/
      o_excl q = false /\ may_use (o_acc q) (mode_of x) /\ (exists m, kind x = DirEnt m) /\ alters q /\ e = EIsDir \/
      o_excl q = false /\ may_use (o_acc q) (mode_of x) /\ (exists m v, kind x = FileEnt m v /\ read_only s v) /\ asks_write q /\ e = ERofs)).
    2:{ rewrite <- (mode_kind x). split; [intros H; left; exists (kind x); auto|]. intros [(y & Hy & H)|[H _]]; [|discriminate]. injection Hy as <-. exact H. }
    destruct (o_excl q); cbn [snd].
    { split; [intros H; injection H as <-; auto|]. intros [[_ ->]|[[H _]|[[H _]|[H _]]]]; try discriminate. reflexivity. }
    destruct (has_perm x (flag_perm (o_acc q))) eqn:Eu; cbn [negb snd].
    2:{ apply may_use_false in Eu. split; [intros H; injection H as <-; auto|]. intros [[H _]|[(_ & _ & ->)|[(_ & H & _)|(_ & H & _)]]]; try discriminate; try contradiction. reflexivity. }
    apply flag_perm_use in Eu. destruct x as [m v|m ds]; cbn [is_dir andb kind].
    + assert (exists w, nth_error (a_views s) v = Some w) as (w & Hw) by (apply (known_view s (p ++ [c]) m v Hr); now rewrite (node_snoc _ _ _ _ Hn)).
      assert (read_only s v <-> v_ro w = true) as RO by (unfold read_only; rewrite Hw; split; [intros (k & H & K); injection H as <-; exact K|eauto]).
      transitivity (v_ro w = true /\ asks_write q /\ e = ERofs).
      * destruct (o_trunc q) eqn:Et; cbn [snd].
        -- rewrite Hw. destruct (v_ro w) eqn:Ero; cbn [snd].
           ++ split; [intros H; injection H as <-; split; [reflexivity|]; split; [left; right; exact Et|reflexivity]|intros (_ & _ & ->); reflexivity].
           ++ split; [|intros (H & _); discriminate]. intros H.
              assert (nth_error (a_views (set_views s (put_nth (a_views s) v (cut_view w)))) v = Some (cut_view w)) as Hw2 by (cbn [a_views set_views]; eapply put_nth_same; eauto).
              apply (handle_err _ q m v _ e Hw2) in H. cbn [v_ro cut_view] in H. destruct H as (H & _). congruence.
        -- apply handle_err. exact Hw.
      * rewrite <- RO. split.
        -- intros (A & B & C). right. right. right. split; [reflexivity|]. split; [assumption|]. split; [eauto|auto].
        -- intros [[H _]|[(_ & H & _)|[(_ & _ & (k & H) & _)|(_ & _ & (k & u & H & A) & B & C)]]]; try discriminate; try contradiction. injection H as <- <-. auto.
    + destruct (flag_writable (o_acc q) || o_trunc q) eqn:Ea; cbn [snd].
      * apply alters_true in Ea. split; [intros H; injection H as <-; right; right; left; split; [reflexivity|]; split; [assumption|]; split; [eauto|auto]|].
        intros [[H _]|[(_ & H & _)|[(_ & _ & _ & _ & ->)|(_ & _ & (k & u & H & A) & B & C)]]]; try discriminate; try contradiction. reflexivity.
      * pose proof (bool_iff _ _ (alters_true q) Ea) as NA. destruct (o_trunc q) eqn:Et; [exfalso; apply NA; right; exact Et|]. cbn [snd open_handle]. split; [discriminate|].
        intros [[H _]|[(_ & H & _)|[(_ & _ & _ & H & _)|(_ & _ & (k & u & H & A) & B & C)]]]; try discriminate; contradiction.
  - destruct (o_create q); cbn [negb snd].
    2:{ split; [intros H; injection H as <-; auto|]. intros [(x & H & _)|(_ & [(_ & ->)|[(H & _)|(H & _)]])]; try discriminate. reflexivity. }
    destruct (has_perm (Dir pm es) 3) eqn:E3; cbn [negb snd].
    2:{ apply has_3_false in E3. cbn [mode_of] in E3. split; [intros H; injection H as <-; right; split; [reflexivity|]; right; left; split; [reflexivity|]; split; [tauto|reflexivity]|].
        intros [(x & H & _)|(_ & [(H & _)|[(_ & _ & ->)|(_ & H & _)]])]; try discriminate; try reflexivity; tauto. }
    apply has_3 in E3. cbn [mode_of] in E3. destruct (a_alloc s); cbn [negb snd].
    + split; [discriminate|]. intros [(x & H & _)|(_ & [(H & _)|[(_ & H & _)|(_ & _ & H & _)]])]; try discriminate; tauto.
    + split; [intros H; injection H as <-; right; split; [reflexivity|]; right; right; split; [reflexivity|]; split; [tauto|auto]|].
      intros [(x & H & _)|(_ & [(H & _)|[(_ & H & _)|(_ & _ & _ & ->)]])]; try discriminate; try reflexivity; tauto.
Qed.

(* ---- Remove ---- *)

Lemma emptyish_node s p x : node_at (a_root s) p = Some x -> emptyish s p <-> is_dir x && (0 <? count x) = false.
Proof.
  intros H. unfold emptyish, shows. split.
  - intros E. destruct x as [m v|m [|[c y] es]]; [reflexivity|reflexivity|]. exfalso. specialize (E c). rewrite entry_is, (node_snoc _ _ _ _ H) in E. cbn [child assoc] in E. rewrite eqb_refl' in E. discriminate.
  - intros E c. apply count_zero in E. destruct E as [_ E]. rewrite entry_is, (node_snoc _ _ _ _ H), E. reflexivity.
Qed.
Lemma remove_err s p c e : reachable s -> ordinary (p ++ [c]) -> acceptable (p ++ [c]) ->
  snd (remove s (spell (p ++ [c]))) = Some e <-> blocked s (p ++ [c]) e \/ way_open s (p ++ [c]) /\ remove_fault s p c e.
Proof.
  intros Hr Ho Ha. apply reach_known in Hr. destruct (ordinary_snoc _ _ Ho) as [Hp Hc]. unfold remove. destruct (find_parent s (spell (p ++ [c]))) as [e'|[pp d]] eqn:Ef; cbn [snd].
  { apply parent_err in Ef; auto. split.
    - intros H. apply some_inj in H. subst e'. now left.
    - intros [H|[W _]]; [f_equal; eapply blocked_fun; eauto|destruct (blocked_not_open _ _ _ Ef W)]. }
  apply find_parent_spec in Ef; [|assumption]. cbn [fst snd] in Ef. destruct Ef as (_ & W & -> & Hn).
  assert (forall e, ~ blocked s (p ++ [c]) e) as NB by (intros e0 B; eapply blocked_not_open; eauto).
  transitivity (remove_fault s p c e); [|split; [tauto|intros [B|[_ H]]; [destruct (NB _ B)|exact H]]].
  destruct (parent_of_way _ _ _ W) as (pm & es & Hn' & Hpm). assert (d = Dir pm es) by congruence. subst d. clear Hn'.
  assert (writable_parent s p <-> may_write pm) as WP.
  { unfold writable_parent, shows. rewrite entry_is, Hn. cbn [option_map kind]. split; [intros (k & H & _ & K); injection H as <-; exact K|intros K; exists pm; auto]. }
  assert (node_at (a_root s) (p ++ [c]) = child (Dir pm es) c) as Nc by (apply node_snoc; exact Hn).
  assert (shows s (p ++ [c]) = option_map kind (child (Dir pm es) c)) as Sc by (unfold shows; rewrite entry_is, Nc; reflexivity).
  rewrite base_spell by assumption. unfold remove_from, remove_fault. rewrite (proper_not_dot c Hc), WP, Sc.
  destruct (has_perm (Dir pm es) 3) eqn:E3; cbn [negb snd].
  2:{ apply has_3_false in E3. cbn [mode_of] in E3. split; [intros H; apply some_inj in H; subst e; left; tauto|].
      intros [(_ & ->)|[(H & _)|[(H & _)|(H & _)]]]; [reflexivity|tauto|tauto|tauto]. }
  apply has_3 in E3. cbn [mode_of] in E3. destruct (child (Dir pm es) c) as [x|] eqn:Ec; cbn [option_map snd].
  2:{ split; [intros H; apply some_inj in H; subst e; tauto|]. intros [(H & _)|[(_ & _ & ->)|[(_ & H & _)|(_ & (m & v & w & H & _) & _)]]]; [tauto|reflexivity|tauto|].
      rewrite Sc in H. discriminate. }
  assert (emptyish s (p ++ [c]) <-> is_dir x && (0 <? count x) = false) as Em by (apply emptyish_node; exact Nc).
  destruct (is_dir x && (0 <? count x)) eqn:Ex; cbn [snd].
  - split; [intros H; apply some_inj in H; subst e; right; right; left; split; [tauto|]; split; [discriminate|]; split; [intros K; apply Em in K; discriminate|reflexivity]|].
    intros [(H & _)|[(_ & H & _)|[(_ & _ & _ & ->)|(_ & (m & v & w & H & _) & _)]]]; [tauto|discriminate|reflexivity|]. rewrite Sc in H. destruct x; [|discriminate]. discriminate.
  - assert (closes_badly s (p ++ [c]) <-> close_fails s x = true) as Cb.
    { unfold closes_badly, close_fails. rewrite Sc. destruct x as [m v|m ds]; cbn [kind].
      - split.
        + intros (m' & v' & w & H & H1 & H2). injection H as <- <-. now rewrite H1.
        + destruct (nth_error (a_views s) v) as [w|] eqn:Ew; [|discriminate]. intros H. exists m, v, w. auto.
      - split; [intros (m' & v' & w & H & _); discriminate|discriminate]. }
    destruct (close_fails s x); cbn [snd].
    + split; [intros H; apply some_inj in H; subst e; right; right; right; split; [tauto|]; split; [now apply Cb|reflexivity]|].
      intros [(H & _)|[(_ & H & _)|[(_ & _ & H & _)|(_ & _ & ->)]]]; [tauto|discriminate|tauto|reflexivity].
    + split; [discriminate|]. intros [(H & _)|[(_ & H & _)|[(_ & _ & H & _)|(_ & H & _)]]]; [tauto|discriminate|tauto|]. apply Cb in H. discriminate.
Qed.

(* ---- Rename ---- *)

Lemma inside_only o n : ordinary o -> ordinary n -> o <> [] -> n <> [] -> inside (spell o) (spell n) = true -> below o n.
Proof.
  intros Ho Hn No Nn H. unfold inside in H. apply eqb_true in H.
  assert (exists t, spell n ++ [sep] = spell o ++ sep :: t) as (t & E).
  { exists (skipn (S (length (spell o))) (spell n ++ [sep])). rewrite <- (firstn_skipn (S (length (spell o))) (spell n ++ [sep])) at 1. rewrite H, <- app_assoc. reflexivity. }
  apply (f_equal split_sep) in E. change (spell n ++ [sep]) with (spell n ++ sep :: []) in E. rewrite !split_app_gen in E.
  assert (forall l, ordinary l -> l <> [] -> split_sep (spell l) = l) as Sp.
  { intros l Hl Nl. pose proof (comps_spell l Hl) as K. unfold comps in K. rewrite spell_dot in K by assumption. destruct l; [contradiction|exact K]. }
  rewrite (Sp o Ho No), (Sp n Hn Nn) in E. change (split_sep []) with [@nil N] in E.
  destruct (app_cases _ _ _ _ E) as [(k & ->)|(k & r & ->)].
  - destruct (snoc_cases k) as [->|(k' & b & ->)]; [rewrite app_nil_r; apply below_refl|]. rewrite <- app_assoc in E. apply app_inv_head in E.
    exfalso. apply Forall_app in Ho. destruct Ho as [_ Ho]. apply Forall_app in Ho. destruct Ho as [_ Ho]. inversion Ho as [|? ? Hb _]; subst. destruct Hb as (Hb & _).
    destruct k' as [|k0 k']; cbn in E; injection E as E0 E; [congruence|]. destruct k'; discriminate.
  - now exists (k :: r).
Qed.
Lemma inside_iff o n : ordinary o -> ordinary n -> o <> [] -> n <> [] -> inside (spell o) (spell n) = true <-> below o n.
Proof. intros Ho Hn No Nn. split; [now apply inside_only|now apply inside_below]. Qed.

Lemma end_err s p c e : ordinary (p ++ [c]) -> acceptable (p ++ [c]) -> find_dirent s (spell (p ++ [c])) = inl e <-> end_fault s p c e.
Proof.
  intros Ho Ha. unfold find_dirent, end_fault. destruct (find_parent s (spell (p ++ [c]))) as [e'|[pp d]] eqn:Ef.
  { apply parent_err in Ef; auto. split.
    - intros H. injection H as <-. now left.
    - intros [H|[W _]]; [f_equal; eapply blocked_fun; eauto|destruct (blocked_not_open _ _ _ Ef W)]. }
  apply find_parent_spec in Ef; [|assumption]. cbn [fst snd] in Ef. destruct Ef as (_ & W & -> & Hn).
  assert (forall e, ~ blocked s (p ++ [c]) e) as NB by (intros e0 B; eapply blocked_not_open; eauto).
  destruct (parent_of_way _ _ _ W) as (pm & es & Hn' & Hpm). assert (d = Dir pm es) by congruence. subst d. clear Hn'.
  assert (writable_parent s p <-> may_write pm) as WP.
  { unfold writable_parent, shows. rewrite entry_is, Hn. cbn [option_map kind]. split; [intros (k & H & _ & K); injection H as <-; exact K|intros K; exists pm; auto]. }
  rewrite WP. destruct (has_perm (Dir pm es) 2) eqn:E2; cbn [negb].
  - apply has_2 in E2. cbn [mode_of] in E2. split; [discriminate|]. intros [B|(_ & H & _)]; [destruct (NB _ B)|contradiction].
  - apply has_2_false in E2. cbn [mode_of] in E2. split; [intros H; injection H as <-; auto|]. intros [B|(_ & _ & ->)]; [destruct (NB _ B)|reflexivity].
Qed.
Lemma fine_not_fault s p c e : end_fine s p c -> ~ end_fault s p c e.
Proof. intros [W P] [B|(_ & H & _)]; [eapply blocked_not_open; eauto|contradiction]. Qed.
Lemma fault_fun s p c e e' : end_fault s p c e -> end_fault s p c e' -> e = e'.
Proof.
  intros [B|(W & H & ->)] [B'|(W' & H' & ->)]; [eapply blocked_fun; eauto|destruct (blocked_not_open _ _ _ B W')|destruct (blocked_not_open _ _ _ B' W)|reflexivity].
Qed.
Lemma rename_err s o oc n nc e : ordinary (o ++ [oc]) -> acceptable (o ++ [oc]) -> ordinary (n ++ [nc]) -> acceptable (n ++ [nc]) -> o ++ [oc] <> n ++ [nc] ->
  snd (rename s (spell (o ++ [oc])) (spell (n ++ [nc]))) = Some e <-> rename_fault s o oc n nc e.
Proof.
  intros Ho Ao Hn An Hne. unfold rename. rewrite (proj2 (validate_ok _ Ho) Ao), (proj2 (validate_ok _ Hn) An).
  rewrite eqb_false by (intros E; apply Hne; now apply spell_inj). rewrite !spell_dot by assumption.
  replace (match o ++ [oc] with [] => true | _ => false end) with false by (destruct o; reflexivity).
  replace (match n ++ [nc] with [] => true | _ => false end) with false by (destruct n; reflexivity). cbn [orb].
  pose proof (inside_iff _ _ Ho Hn (snoc_not_nil o oc) (snoc_not_nil n nc)) as Hi. unfold rename_fault.
  destruct (inside (spell (o ++ [oc])) (spell (n ++ [nc]))); cbn [snd].
  { pose proof (proj1 Hi eq_refl) as B. split; [intros H; apply some_inj in H; subst e; auto|]. intros [(_ & ->)|(H & _)]; [reflexivity|contradiction]. }
  assert (~ below (o ++ [oc]) (n ++ [nc])) as NB by (intros B; apply Hi in B; discriminate). clear Hi.
  match goal with |- _ <-> ?b /\ _ \/ _ /\ ?R => transitivity R; [|tauto] end.
  destruct (find_dirent s (spell (o ++ [oc]))) as [e'|[[op d] x]] eqn:Eo; cbn [snd].
  { apply end_err in Eo; auto. split; [intros H; apply some_inj in H; subst e'; auto|]. intros [H|[(F & _)|[(F & _)|(F & _)]]].
    - f_equal. eapply fault_fun; eauto.
    - destruct (fine_not_fault _ _ _ _ F Eo).
    - destruct (fine_not_fault _ _ _ _ F Eo).
    - destruct (fine_not_fault _ _ _ _ F Eo). }
  apply find_dirent_spec in Eo; [|assumption]. cbn [fst snd] in Eo. destruct Eo as (W1 & P1 & -> & X). assert (end_fine s o oc) as F1 by (split; assumption). 
  pose proof (fun e => fine_not_fault s o oc e F1) as NF1. assert (shows s (o ++ [oc]) = option_map kind x) as Sx by (unfold shows; rewrite entry_is, X; reflexivity).
  destruct x as [x|]; cbn [snd option_map] in *.
  2:{ split; [intros H; apply some_inj in H; subst e; right; left; auto|]. rewrite Sx. intros [H|[(_ & _ & ->)|[(_ & H & _)|(_ & _ & H)]]].
      - destruct (NF1 _ H).
      - reflexivity.
      - contradiction.
      - destruct H as [((m & H & _) & _)|[((m & v & k & H & _) & _)|[((m & k & v & H & _) & _)|((m & k & H & _) & _)]]]; discriminate. }
  destruct (find_dirent s (spell (n ++ [nc]))) as [e'|[[np d'] y]] eqn:En; cbn [snd].
  { apply end_err in En; auto. split; [intros H; apply some_inj in H; subst e'; right; right; left; split; [assumption|]; split; [rewrite Sx; discriminate|assumption]|].
    intros [H|[(_ & H & _)|[(_ & _ & H)|(_ & F & _)]]].
    - destruct (NF1 _ H).
    - rewrite Sx in H. discriminate.
    - f_equal. eapply fault_fun; eauto.
    - destruct (fine_not_fault _ _ _ _ F En). }
  apply find_dirent_spec in En; [|assumption]. cbn [fst snd] in En. destruct En as (W2 & P2 & -> & Y). assert (end_fine s n nc) as F2 by (split; assumption).
  pose proof (fun e => fine_not_fault s n nc e F2) as NF2. assert (shows s (n ++ [nc]) = option_map kind y) as Sy by (unfold shows; rewrite entry_is, Y; reflexivity).
  match goal with |- _ <-> _ \/ _ \/ _ \/ _ /\ _ /\ ?R => transitivity R end.
  2:{ split; [intros H; right; right; right; auto|]. intros [H|[(_ & H & _)|[(_ & _ & H)|(_ & _ & H)]]]; [destruct (NF1 _ H)|rewrite Sx in H; discriminate|destruct (NF2 _ H)|exact H]. }
  rewrite Sx, Sy. clear NF1 NF2. destruct x as [xm xv|xm xs]; cbn [is_dir andb kind].
  - unfold bad_target. destruct y as [[ym yv|ym ys]|]; cbn [is_dir andb negb option_map kind snd].
    + split; [discriminate|]. intros [((m & H & _) & _)|[((m & v & k & _ & H) & _)|[((m & k & v & H & _) & _)|((m & k & H & _) & _)]]]; discriminate.
    + split; [intros H; apply some_inj in H; subst e; right; left; split; [exists xm, xv, ym; auto|reflexivity]|].
      intros [((m & H & _) & _)|[(_ & ->)|[((m & k & v & H & _) & _)|((m & k & H & _) & _)]]]; try discriminate. reflexivity.
    + split; [discriminate|]. intros [((m & H & _) & _)|[((m & v & k & _ & H) & _)|[((m & k & v & H & _) & _)|((m & k & H & _) & _)]]]; discriminate.
  - destruct (has_perm (Dir xm xs) 2) eqn:E2; cbn [negb snd].
    2:{ apply has_2_false in E2. cbn [mode_of] in E2. split; [intros H; apply some_inj in H; subst e; left; split; [exists xm; auto|reflexivity]|].
        intros [(_ & ->)|[((m & v & k & H & _) & _)|[((m & k & v & H & H1 & _) & _)|((m & k & H & H1 & _) & _)]]]; [reflexivity|discriminate|injection H as <-; contradiction|injection H as <-; contradiction]. }
    apply has_2 in E2. cbn [mode_of] in E2. unfold bad_target. destruct y as [[ym yv|ym ys]|]; cbn [is_dir andb negb option_map kind snd].
    + split; [intros H; apply some_inj in H; subst e; right; right; left; split; [exists xm, ym, yv; auto|reflexivity]|].
      intros [((m & H & H1) & _)|[((m & v & k & H & _) & _)|[(_ & ->)|((m & k & _ & _ & H) & _)]]]; [injection H as <-; contradiction|discriminate|reflexivity|discriminate].
    + symmetry in Y. pose proof (emptyish_node s _ _ Y) as Em. cbn [is_dir andb] in Em. destruct (0 <? count (Dir ym ys)); cbn [snd].
      * assert (~ emptyish s (n ++ [nc])) as NE by (intros K; apply Em in K; discriminate).
        split; [intros H; apply some_inj in H; subst e; right; right; right; split; [exists xm, ym; auto|auto]|].
        intros [((m & H & H1) & _)|[((m & v & k & H & _) & _)|[((m & k & v & _ & _ & H) & _)|(_ & _ & ->)]]]; [injection H as <-; contradiction|discriminate|discriminate|reflexivity].
      * split; [discriminate|]. intros [((m & H & H1) & _)|[((m & v & k & H & _) & _)|[((m & k & v & _ & _ & H) & _)|(_ & H & _)]]]; [injection H as <-; contradiction|discriminate|discriminate|tauto].
    + split; [discriminate|]. intros [((m & H & H1) & _)|[((m & v & k & H & _) & _)|[((m & k & v & _ & _ & H) & _)|((m & k & _ & _ & H) & _)]]]; [injection H as <-; contradiction|discriminate|discriminate|discriminate].
Qed.

(* ---- MkdirAll ---- *)

Lemma mk_all_fresh m cs : searchable (Some (Dir m [])) = None -> snd (mk_all m (Dir m []) cs) = None.
Proof.
  intros H. induction cs as [|c r IH]; [reflexivity|]. cbn [mk_all]. change (child (Dir m []) c) with (@None node). cbv iota zeta. rewrite H.
  destruct (mk_all m (Dir m []) r) as [x' e]. exact IH.
Qed.
Lemma open_below_cons d c x q m es : child d c = Some x -> x = Dir m es -> may_search m -> open_below d (c :: q) <-> open_below x q.
Proof.
  intros E Ex Hm. split.
  - intros B a b t H. subst q. destruct (B (c :: a) b t eq_refl) as (k & A1 & A2). exists k. cbn [app] in A1. rewrite (entry_child _ _ _ _ E) in A1. auto.
  - intros B a b t H. destruct a as [|a0 a]; cbn in H; injection H as <- H.
    + exists m. cbn [app]. rewrite (entry_child _ _ _ _ E). subst x. split; [reflexivity|assumption].
    + destruct (B a b t H) as (k & A1 & A2). exists k. cbn [app]. rewrite (entry_child _ _ _ _ E). auto.
Qed.
Lemma open_below_first d c q : open_below d (c :: q) -> searchable (child d c) = None.
Proof.
  intros B. destruct (B [] c q eq_refl) as (m & A & Hm). cbn [app] in A. rewrite entry_is in A. cbn [node_at] in A.
  destruct (child d c) as [[k v|k es]|]; try discriminate. cbn in A. injection A as ->. apply searchable_ok. eauto.
Qed.
Definition stopped (m : N) (d : node) (cs : list name) (e : aerr) : Prop :=
  exists q c r, cs = q ++ c :: r /\ open_below d q /\
    (node_at d (q ++ [c]) <> None /\ searchable (node_at d (q ++ [c])) = Some e \/ node_at d (q ++ [c]) = None /\ searchable (Some (Dir m [])) = Some e).
Lemma mk_all_err m cs : forall d e, snd (mk_all m d cs) = Some e <-> stopped m d cs e.
Proof.
  induction cs as [|c r IH]; intros d e; cbn [mk_all].
  { split; [discriminate|]. intros (q & b & t & H & _). destruct q; discriminate. }
  assert (node_at d ([] ++ [c]) = child d c) as N1 by (cbn [app node_at]; destruct (child d c); reflexivity).
  assert (open_below d []) as O1 by (intros a b t H; destruct a; discriminate).
  destruct (child d c) as [x|] eqn:Ec.
  - destruct (searchable (Some x)) as [e0|] eqn:Es; cbn [snd].
    + split.
      * intros H. apply some_inj in H. subst e0. exists [], c, r. split; [reflexivity|]. split; [assumption|]. left. rewrite N1. split; [discriminate|assumption].
      * intros (q & b & t & H & B & F). destruct q as [|a q]; cbn in H; injection H as <- H.
        -- rewrite N1 in F. destruct F as [[_ F]|[F _]]; congruence.
        -- apply open_below_first in B. congruence.
    + pose proof Es as Es'. apply searchable_ok in Es'. destruct Es' as (k & es & Ex & Hk). apply some_inj in Ex.
      specialize (IH x e). destruct (mk_all m x r) as [x' e']. cbn [snd] in *. rewrite IH. split.
      * intros (q & b & t & -> & B & F). exists (c :: q), b, t. split; [reflexivity|]. split; [eapply open_below_cons; eauto|]. cbn [app node_at]. rewrite Ec. exact F.
      * intros (q & b & t & H & B & F). destruct q as [|a q]; cbn in H; injection H as <- H.
        -- rewrite N1 in F. destruct F as [[_ F]|[F _]]; congruence.
        -- exists q, b, t. split; [exact H|]. split; [eapply open_below_cons; eauto|]. cbn [app node_at] in F. rewrite Ec in F. exact F.
  - destruct (searchable (Some (Dir m []))) as [e0|] eqn:Es; cbn [snd].
    + split.
      * intros H. apply some_inj in H. subst e0. exists [], c, r. split; [reflexivity|]. split; [assumption|]. right. rewrite N1. auto.
      * intros (q & b & t & H & B & F). destruct q as [|a q]; cbn in H; injection H as <- H.
        -- destruct F as [[F _]|[_ F]]; congruence.
        -- apply open_below_first in B. rewrite Ec in B. discriminate.
    + pose proof (mk_all_fresh m r Es) as Hf. destruct (mk_all m (Dir m []) r) as [x' e']. cbn [snd] in *. subst e'. split; [discriminate|].
      intros (q & b & t & H & B & F). destruct q as [|a q]; cbn in H; injection H as <- H.
      * destruct F as [[F _]|[_ F]]; congruence.
      * apply open_below_first in B. rewrite Ec in B. discriminate.
Qed.
Lemma fresh_searchable s perm e : searchable (Some (Dir (dir_mode s perm) [])) = Some e <-> (N.testbit perm 6 = false \/ N.testbit (a_umask s) 6 = true) /\ e = EAcces.
Proof.
  cbn [searchable is_dir negb]. pose proof (dir_mode_masked s perm 6%N) as Hm. cbn [N.ltb] in Hm. change ((6 <? 9)%N) with true in Hm. change ((6 =? 31)%N) with false in Hm.
  rewrite Bool.orb_false_r, Bool.andb_true_l in Hm.
  destruct (has_perm (Dir (dir_mode s perm) []) 1) eqn:E; cbn [negb].
  - apply has_1 in E. cbn [mode_of] in E. unfold may_search in E. rewrite Hm in E. apply andb_prop in E. destruct E as [E1 E2]. apply Bool.negb_true_iff in E2.
    split; [discriminate|]. intros ([H|H] & _); congruence.
  - apply has_1_false in E. cbn [mode_of] in E. unfold may_search in E. rewrite Hm in E. split.
    + intros H. apply some_inj in H. subst e. split; [|reflexivity]. destruct (N.testbit perm 6); [right|now left]. destruct (N.testbit (a_umask s) 6); [reflexivity|]. exfalso. now apply E.
    + intros (_ & ->). reflexivity.
Qed.
Lemma way_first s c p : way_open s (c :: p) -> exists m es, a_root s = Dir m es /\ may_search m.
Proof.
  intros H. destruct (H [] c p eq_refl) as (m & A & B). unfold shows in A. cbn [entry_at] in A. destruct (a_root s); [discriminate|]. cbn in A. injection A as ->. eauto.
Qed.
Lemma mkdir_all_err s p perm e : sound s -> ordinary p -> acceptable p -> snd (mkdir_all s (spell p) perm) = Some e <-> mkdir_all_fault s p perm e.
Proof.
  intros Hr Ho Ha. destruct Hr as [_ (rm & res & Er)]. assert (shows s [] = Some (DirEnt rm)) as S0 by (unfold shows; rewrite Er; reflexivity).
  unfold mkdir_all, mkdir_all_fault. rewrite (proj2 (validate_ok _ Ho) Ha), spell_dot by assumption. destruct p as [|c0 p0].
  { cbn [snd]. split; [discriminate|]. intros [(q & r & _ & H & _)|((q & r & H & _ & N) & _)]; [contradiction|]. destruct q; [|discriminate]. congruence. }
  set (p := c0 :: p0) in *. rewrite comps_spell by assumption. destruct (searchable (Some (a_root s))) as [e0|] eqn:Es; cbn [snd].
  - assert (obstacle s [] e0) as Ob by (apply searchable_err; exact Es). assert (forall q r, p = q ++ r -> way_open s q -> q = []) as Q0.
    { intros q r Hq W. destruct q as [|a q]; [reflexivity|]. apply way_first in W. destruct W as (m & es & E & Hm). exfalso. eapply obstacle_not_passed; [exact Ob|exact S0|]. congruence. }
    split.
    + intros H. apply some_inj in H. subst e0. left. exists [], p. split; [reflexivity|]. split; [discriminate|]. split; [apply way_nil|]. split; [assumption|]. congruence.
    + intros [(q & r & Hq & _ & W & F & _)|((q & r & Hq & W & N) & _)]; pose proof (Q0 q r Hq W); subst q; [|congruence]. f_equal. eapply obstacle_fun; eauto.
  - pose proof Es as Es'. apply searchable_ok in Es'. destruct Es' as (rm' & res' & Er' & Hrm). apply some_inj in Er'. assert (rm' = rm) by congruence. subst rm'. clear res' Er'.
    pose proof (mk_all_err (dir_mode s perm) p (a_root s) e) as K. destruct (mk_all (dir_mode s perm) (a_root s) p) as [r' e']. cbn [snd] in *. rewrite K. clear K r' e'. split.
    + intros (q & b & t & Hp & B & F). assert (way_open s (q ++ [b])) as W by (apply way_from_root; split; [eauto|assumption]).
      assert (p = (q ++ [b]) ++ t) as Hp' by (rewrite Hp, <- app_assoc; reflexivity). destruct F as [[N F]|[N F]].
      * left. exists (q ++ [b]), t. split; [assumption|]. split; [discriminate|]. split; [assumption|]. split; [now apply searchable_err|]. intros H. apply shows_none in H. contradiction.
      * right. apply fresh_searchable in F. destruct F as [F ->]. split; [|auto]. exists (q ++ [b]), t. split; [assumption|]. split; [assumption|]. now apply shows_none.
    + intros [(q & r & Hq & _ & W & F & N)|((q & r & Hq & W & N) & F & ->)].
      * destruct (snoc_cases q) as [->|(q' & b & ->)]; [destruct (obstacle_not_passed _ _ _ _ F S0 Hrm)|]. apply way_from_root in W. destruct W as [_ W].
        exists q', b, r. split; [rewrite Hq, <- app_assoc; reflexivity|]. split; [assumption|]. left. split; [intros H; apply shows_none in H; contradiction|]. now apply searchable_obstacle.
      * destruct (snoc_cases q) as [->|(q' & b & ->)]; [congruence|]. apply way_from_root in W. destruct W as [_ W].
        exists q', b, r. split; [rewrite Hq, <- app_assoc; reflexivity|]. split; [assumption|]. right. split; [now apply shows_none|]. apply fresh_searchable. auto.
Qed.

(* ---- AddFile ---- *)

Lemma mk_all_kind m cs d : kind (fst (mk_all m d cs)) = kind d.
Proof.
  destruct cs as [|c r]; [reflexivity|]. cbn [mk_all].
  assert (kind (match child d c with Some _ => d | None => add_child c (match child d c with Some x => x | None => Dir m [] end) d end) = kind d) as K by (destruct (child d c); [reflexivity|apply kind_add]).
  destruct (searchable _); [exact K|]. destruct (mk_all m _ r) as [x' e]. cbn [fst]. rewrite kind_update. exact K.
Qed.
Lemma mk_all_open m cs : forall d, unique d -> dirish d -> snd (mk_all m d cs) = None -> open_below (fst (mk_all m d cs)) cs.
Proof.
  induction cs as [|c r IH]; intros d Hu Hd H.
  { intros q b t E. destruct q; discriminate. }
  cbn [mk_all] in *. set (x := match child d c with Some x => x | None => Dir m [] end) in *. set (d1 := match child d c with Some _ => d | None => add_child c x d end) in *.
  destruct (searchable (Some x)) as [e|] eqn:Es; [discriminate|]. apply searchable_ok in Es. destruct Es as (k & es & Ex & Hk). apply some_inj in Ex.
  assert (unique x) as Ux by (unfold x; now apply unique_child_add). assert (dirish x) as Dx by (unfold dirish; eauto).
  specialize (IH x Ux Dx). pose proof (mk_all_kind m r x) as Kx. destruct (mk_all m x r) as [x' e]. cbn [fst snd] in *. specialize (IH H).
  assert (node_at d1 [c] = Some x) as N1.
  { unfold d1. destruct (child d c) as [y|] eqn:Ec; [cbn [node_at]; rewrite Ec; reflexivity|]. rewrite (add_here c x d Hu Hd []). reflexivity. }
  assert (child (update d1 [c] (fun _ => x')) c = Some x') as C1.
  { pose proof (node_update_in d1 [c] (fun _ => x') x [] N1) as E. cbn [app node_at] in E. destruct (child (update d1 [c] (fun _ => x')) c); [|discriminate]. congruence. }
  rewrite Ex in Kx. destruct x' as [a b|a b]; [discriminate|]. cbn in Kx. injection Kx as ->. eapply open_below_cons; eauto.
Qed.
Lemma mkdir_all_opens s p perm s' : sound s -> ordinary p -> mkdir_all s (spell p) perm = (s', None) -> way_open s' p /\ (p = [] \/ forall m, shows s' p = Some (DirEnt m) -> may_search m).
Proof.
  intros [Hu Hr] Ho. unfold mkdir_all. destruct (validate (spell p)); [discriminate|]. rewrite spell_dot by assumption. destruct p as [|c r]; [intros H; injection H as <-; split; [apply way_nil|auto]|].
  rewrite comps_spell by assumption. destruct (searchable (Some (a_root s))) as [e|] eqn:Es; [discriminate|]. apply searchable_ok in Es. destruct Es as (rm & res & Er & Hrm). apply some_inj in Er.
  pose proof (mk_all_open (dir_mode s perm) (c :: r) (a_root s) Hu Hr) as K. pose proof (mk_all_kind (dir_mode s perm) (c :: r) (a_root s)) as Kk. destruct (mk_all (dir_mode s perm) (a_root s) (c :: r)) as [x e]. cbn [fst snd] in K, Kk.
  intros H. apply pair_inj in H. destruct H as [<- ->]. specialize (K eq_refl). rewrite Er in Kk. destruct x as [a b|a b]; [discriminate|]. cbn in Kk. injection Kk as ->.
  assert (forall c', way_open (set_root s (Dir rm b)) ((c :: r) ++ [c'])) as W by (intros c'; apply way_from_root; split; [exists rm, b; auto|exact K]).
  split; [exact (way_prefix _ _ _ (W c))|right]. intros m Hm. destruct (W c (c :: r) c [] eq_refl) as (m' & A & B). rewrite Hm in A. injection A as <-. exact B.
Qed.

Lemma present_prefix s q r : shows s (q ++ r) <> None -> shows s q <> None.
Proof. intros H E. apply H. unfold shows in *. apply shows_none. apply shows_none in E. now apply none_below. Qed.
Lemma way_back s s' p : (forall q, below q p -> shows s' q = shows s q \/ shows s q = None) ->
  way_open s' p -> (forall q c r, p = q ++ c :: r -> shows s q <> None) -> way_open s p.
Proof.
  intros F W N q c r E. destruct (W q c r E) as (m & A & B). exists m. split; [|assumption]. destruct (F q) as [K|K]; [subst p; now exists (c :: r)|congruence|]. destruct (N q c r E K).
Qed.
Lemma first_absent s p : shows s [] <> None -> shows s p = None -> exists q r, p = q ++ r /\ shows s q = None /\ forall a c t, q = a ++ c :: t -> shows s a <> None.
Proof.
  intros H0. induction p as [|b p IH] using rev_ind; intros H; [contradiction|]. destruct (shows s p) eqn:E.
  - exists (p ++ [b]), []. split; [now rewrite app_nil_r|]. split; [assumption|]. intros a c t Ha. destruct (snoc_cases t) as [->|(t' & z & ->)].
    + change (a ++ c :: []) with (a ++ [c]) in Ha. apply app_inj_tail in Ha. destruct Ha as [<- _]. congruence.
    + replace (a ++ c :: t' ++ [z]) with ((a ++ c :: t') ++ [z]) in Ha by (now rewrite <- app_assoc). apply app_inj_tail in Ha. destruct Ha as [-> _]. eapply present_prefix. rewrite E. discriminate.
  - destruct (IH eq_refl) as (q & r & -> & A & B). exists q, (r ++ [b]). split; [now rewrite app_assoc|auto].
Qed.

Lemma dir_view v : match v_mode v with Some m => negb (N.eqb (N.land m m_dir) 0) | None => false end = true <-> calls_itself_dir v.
Proof.
  unfold calls_itself_dir. destruct (v_mode v) as [k|]; [|split; [discriminate|intros (k & H & _); discriminate]].
  transitivity (N.testbit k 31 = true); [|split; [eauto|intros (k' & H & K); injection H as <-; exact K]].
  rewrite Bool.negb_true_iff, N.eqb_neq. split.
  - intros H. destruct (N.testbit k 31) eqn:E; [reflexivity|]. exfalso. apply H. apply N.bits_inj. intros i. rewrite N.land_spec, m_dir_bit, N.bits_0. destruct (N.eqb_spec i 31); [subst; now rewrite E|apply Bool.andb_false_r].
  - intros H E. apply (f_equal (fun n => N.testbit n 31)) in E. rewrite N.land_spec, m_dir_bit, N.bits_0, H in E. discriminate.
Qed.

Lemma add_file_err s p c v e : reachable s -> ordinary (p ++ [c]) -> acceptable p -> acceptable (p ++ [c]) ->
  snd (add_file s (spell (p ++ [c])) v) = Some e <-> add_file_fault s p v e.
Proof.
  intros Hr Ho Hap Ha. apply reach_sound in Hr. destruct (ordinary_snoc _ _ Ho) as [Hp Hc]. unfold add_file, add_file_fault. rewrite (proj2 (validate_ok _ Ho) Ha).
  pose proof (dir_view v) as Dv. destruct (match v_mode v with Some m => negb (N.eqb (N.land m m_dir) 0) | None => false end); cbn [snd].
  { pose proof (proj1 Dv eq_refl) as D. split; [intros H; apply some_inj in H; subst e; auto|]. intros [(_ & ->)|(H & _)]; [reflexivity|contradiction]. }
  assert (~ calls_itself_dir v) as ND by (intros D; apply Dv in D; discriminate). clear Dv.
  match goal with |- _ <-> ?b /\ _ \/ _ /\ ?R => transitivity R; [|tauto] end.
  rewrite last_comp by assumption. destruct c as [|c0 c1]; [exfalso; destruct Hc as (Hc & _); now apply Hc|]. set (c := c0 :: c1) in *. clearbody c.
  rewrite dir_spell, base_spell by assumption. pose proof (sound_add_view s v Hr) as Hs0.
  pose proof (mkdir_all_err (add_view s v) p m_perm) as Me. 
  change (forall e, sound (add_view s v) -> ordinary p -> acceptable p -> snd (mkdir_all (add_view s v) (spell p) m_perm) = Some e <-> mkdir_all_fault s p 511 e) in Me.
  assert (forall q e0, way_open s p -> (exists m, shows s p = Some (DirEnt m)) -> below q p -> way_open s q -> obstacle s q e0 -> e0 = EAcces) as OB.
  { intros q e0 W (m & Sm) [r Hq] Wq F. destruct r as [|b r].
    - rewrite app_nil_r in Hq. subst q. destruct F as [[F _]|[[(k & w & F) _]|[_ F]]]; [congruence|congruence|exact F].
    - destruct (W q b r Hq) as (k & A & B). destruct (obstacle_not_passed _ _ _ _ F A B). }
  destruct (mkdir_all (add_view s v) (spell p) m_perm) as [s1 e1] eqn:Em. cbn [snd] in Me.
  destruct (mkdir_all_spec _ _ _ Hs0 Hp _ _ Em) as (_ & M2 & M3 & _).
  change (forall q, below q p -> shows s1 q = shows s q \/ shows s q = None /\ exists m, shows s1 q = Some (DirEnt m) /\ masked (a_umask s) 511 m) in M2.
  destruct e1 as [e1|]; cbn [snd].
  { pose proof (proj1 (Me e1 Hs0 Hp Hap) eq_refl) as F1. split; [intros H; apply some_inj in H; subst e; now left|]. intros H. f_equal. destruct H as [H|[((m & W & Sm & _) & ->)|((q & r & Hq & W & N) & _ & ->)]].
    - apply (Me e Hs0 Hp Hap) in H. congruence.
    - destruct F1 as [(q & r & Hq & _ & Wq & F & _)|(_ & _ & F)]; [|exact F]. apply (OB q e1 W); eauto. now exists r.
    - destruct F1 as [(q' & r' & Hq' & _ & Wq & F & N')|(_ & _ & F)]; [|exact F]. exfalso. rewrite Hq' in Hq. destruct (app_cases _ _ _ _ Hq) as [([|b t] & E)|(b & t & E)]; subst.
      + rewrite app_nil_r in N. contradiction.
      + destruct (W q' b t eq_refl) as (m & A & B). exact (obstacle_not_passed _ _ _ _ F A B).
      + apply present_prefix in N'. contradiction. }
  assert (forall e, ~ mkdir_all_fault s p 511 e) as NF by (intros e0 F; apply (Me e0 Hs0 Hp Hap) in F; discriminate).
  specialize (M3 eq_refl). destruct (mkdir_all_opens _ _ _ _ Hs0 Hp Em) as [W1 S1].
  destruct (M3 p (below_refl p)) as (m & Sm). pose proof Sm as Sm'. apply shows_dir in Sm'. destruct Sm' as (es & Hn).
  assert (find s1 (spell p) = inr (Dir m es)) as Ef by (apply find_spec; auto). rewrite Ef.
  assert (shows s [] <> None) as S0 by (destruct Hr as [_ (rm & res & E)]; unfold shows; rewrite E; discriminate).
  assert (forall q, below q p -> shows s1 q = shows s q \/ shows s q = None) as F12 by (intros q Hq; destruct (M2 q Hq) as [|[]]; auto).
  assert (snd (match searchable (Some (Dir m es)) with
               | Some e0 => (s1, Some e0)
               | None => if negb (has_perm (Dir m es) 2) then (s1, Some EAcces)
                         else let s2 := match child (Dir m es) c with Some x => log_close s1 (closes x) | None => s1 end in
                              (set_root s2 (update (a_root s2) (comps (spell p)) (add_child c (file_node v (length (a_views s))))), None)
               end) = Some e <-> ~ (may_write m /\ may_search m) /\ e = EAcces) as K.
  { cbn [searchable is_dir negb]. destruct (has_perm (Dir m es) 1) eqn:E1; cbn [negb snd].
    - apply has_1 in E1. cbn [mode_of] in E1. destruct (has_perm (Dir m es) 2) eqn:E2; cbn [negb snd].
      + apply has_2 in E2. cbn [mode_of] in E2. split; [discriminate|tauto].
      + apply has_2_false in E2. cbn [mode_of] in E2. split; [intros H; apply some_inj in H; subst e; tauto|intros (_ & ->); reflexivity].
    - apply has_1_false in E1. cbn [mode_of] in E1. split; [intros H; apply some_inj in H; subst e; tauto|intros (_ & ->); reflexivity]. }
  rewrite K. clear K. split.
  - intros (NP & ->). right. destruct (M2 p (below_refl p)) as [E|(N & m' & E & Mk)].
    + left. split; [|reflexivity]. exists m. split; [|split; [congruence|assumption]]. apply (way_back s s1 p F12 W1). intros q b r ->. apply (present_prefix s q (b :: r)). congruence.
    + rewrite Sm in E. injection E as <-. right. destruct (first_absent s p S0 N) as (q & r & Hq & Nq & Pq). split; [exists q, r; split; [assumption|]; split; [|assumption]|].
      * apply (way_back s s1 q); [|apply (way_prefix _ q r); rewrite <- Hq; exact W1|assumption]. intros a [t Ht]. apply F12. exists (t ++ r). rewrite app_assoc. congruence.
      * split; [|reflexivity]. destruct S1 as [S1|S1]; [subst p; contradiction|]. pose proof (S1 m Sm) as Hs. destruct (N.testbit (a_umask s) 7) eqn:Eu; [reflexivity|]. exfalso. apply NP. split; [|assumption].
        unfold may_write. rewrite (Mk 7%N), Eu. reflexivity.
  - intros [F|[((m' & W & Sm' & NP) & ->)|((q & r & Hq & Wq & Nq) & Hu & ->)]].
    + destruct (NF _ F).
    + split; [|reflexivity]. destruct (M2 p (below_refl p)) as [E|(N & _)]; [|congruence]. rewrite Sm, Sm' in E. injection E as ->. assumption.
    + split; [|reflexivity]. destruct (M2 p (below_refl p)) as [E|(N & m' & E & Mk)].
      * exfalso. apply (present_prefix s q r); [|assumption]. rewrite <- Hq, <- E, Sm. discriminate.
      * rewrite Sm in E. injection E as <-. intros [Hw _]. unfold may_write in Hw. rewrite (Mk 7%N), Hu in Hw. discriminate.
Qed.

(* ---- RemoveAll ---- *)

Definition full (d : node) : Prop := is_dir d && (0 <? count d) = true.
Definition stuck (d : node) : Prop := exists r m es, node_at d r = Some (Dir m es) /\ (r = [] \/ full (Dir m es)) /\ has_perm (Dir m es) 3 = false.
Lemma purge_ents_err es : Forall (fun x => unique (snd x) -> forall e, snd (purge (snd x)) = Some e <-> is_dir (snd x) = true /\ stuck (snd x) /\ e = EAcces) es ->
  (forall c x, In (c, x) es -> unique x) ->
  forall e, snd (purge_ents purge es) = Some e <-> (exists c x, In (c, x) es /\ full x /\ stuck x) /\ e = EAcces.
Proof.
  induction 1 as [|[c x] r Hx Hr IH]; intros Hu e; cbn [purge_ents].
  { split; [discriminate|]. intros ((c & x & [] & _) & _). }
  specialize (IH (fun b y Hi => Hu b y (or_intror Hi))). specialize (Hx (Hu c x (or_introl eq_refl))). cbn [snd] in Hx.
  destruct (is_dir x && (0 <? count x)) eqn:Ed.
  - pose proof Ed as Ed'. apply andb_prop in Ed'. destruct Ed' as [Ei _]. destruct (purge x) as [[x' cl] e1]. cbn [snd] in Hx. destruct e1 as [e1|]; cbn [snd].
    + destruct (proj1 (Hx e1) eq_refl) as (_ & St & ->). split.
      * intros H. apply some_inj in H. subst e. split; [|reflexivity]. exists c, x. split; [now left|]. split; assumption.
      * intros (_ & ->). reflexivity.
    + destruct (purge_ents purge r) as [[r' cl'] e']. cbn [snd] in *. rewrite IH. split.
      * intros ((b & y & Hi & F & St) & ->). split; [|reflexivity]. exists b, y. split; [now right|auto].
      * intros ((b & y & [Eb|Hi] & F & St) & ->); (split; [|reflexivity]).
        -- injection Eb as <- <-. assert (@None aerr = Some EAcces) by (apply Hx; auto). discriminate.
        -- exists b, y. auto.
  - destruct (purge_ents purge r) as [[r' cl'] e']. cbn [snd] in *. rewrite IH. split.
    + intros ((b & y & Hi & F & St) & ->). split; [|reflexivity]. exists b, y. split; [now right|auto].
    + intros ((b & y & [Eb|Hi] & F & St) & ->); (split; [|reflexivity]).
      * injection Eb as <- <-. unfold full in F. congruence.
      * exists b, y. auto.
Qed.
Lemma purge_err d : unique d -> forall e, snd (purge d) = Some e <-> is_dir d = true /\ stuck d /\ e = EAcces.
Proof.
  induction d as [m v|m es IH] using node_nested; intros Hu e.
  - cbn. split; [discriminate|]. intros (H & _). discriminate.
  - inversion Hu as [|? ? Hn Hc]; subst. rewrite purge_dir. destruct (has_perm (Dir m es) 3) eqn:E3; cbn [negb snd].
    + pose proof (purge_ents_err es IH Hc e) as K. destruct (purge_ents purge es) as [[es' cl] e']. cbn [snd] in *. rewrite K. split.
      * intros ((c & x & Hi & F & (r & k & ks & N & D & P)) & ->). split; [reflexivity|]. split; [|reflexivity].
        exists (c :: r), k, ks. split; [cbn [node_at child]; rewrite (in_assoc es c x Hn Hi); exact N|]. split; [|exact P]. right.
        destruct D as [->|D]; [|exact D]. cbn in N. injection N as ->. exact F.
      * intros (_ & (r & k & ks & N & D & P) & ->). split; [|reflexivity]. destruct r as [|c r]; [cbn in N; injection N as -> ->; congruence|].
        cbn [node_at child] in N. destruct (assoc es c) as [x|] eqn:Ec; [|discriminate]. destruct D as [D|D]; [discriminate|]. apply assoc_in in Ec. exists c, x. split; [exact Ec|].
        split; [|exists r, k, ks; auto]. destruct r as [|b r]; [cbn in N; injection N as ->; exact D|]. destruct x as [xm xv|xm xs]; [discriminate|]. destruct xs; [discriminate|reflexivity].
    + split.
      * intros H. apply some_inj in H. subst e. split; [reflexivity|]. split; [|reflexivity]. exists [], m, es. auto.
      * intros (_ & _ & ->). reflexivity.
Qed.
Lemma remove_all_err s p c e : reachable s -> ordinary (p ++ [c]) -> acceptable (p ++ [c]) ->
  snd (remove_all s (spell (p ++ [c]))) = Some e <-> remove_all_fault s p c e.
Proof.
  intros Hr Ho Ha. pose proof (reach_sound _ Hr) as Hs. destruct (ordinary_snoc _ _ Ho) as [Hp Hc]. rewrite remove_all_is, (proj2 (validate_ok _ Ho) Ha), spell_dot by assumption.
  replace (match p ++ [c] with [] => true | _ => false end) with false by (destruct p; reflexivity). unfold remove_all_fault.
  pose proof (remove_err s p c) as R. specialize (fun e => R e Hr Ho Ha).
  destruct (find_parent s (spell (p ++ [c]))) as [e0|[pp d]] eqn:Ef.
  { assert (remove s (spell (p ++ [c])) = (s, Some e0)) as Er by (unfold remove; rewrite Ef; reflexivity). rewrite Er.
    assert (remove_all_rest s (spell (p ++ [c])) = (s, Some e0)) as Erest by (unfold remove_all_rest; rewrite Ef; reflexivity).
    apply parent_err in Ef; auto.
    assert (blocked s (p ++ [c]) e /\ e <> ENoEnt <-> Some e0 = Some e /\ e0 <> ENoEnt) as B.
    { split; [intros [B Ne]; assert (e0 = e) by (eapply blocked_fun; eauto); subst; auto|intros [E Ne]; injection E as <-; auto]. }
    assert (~ way_open s (p ++ [c])) as NW by (intros W; eapply blocked_not_open; eauto).
    transitivity (Some e0 = Some e /\ e0 <> ENoEnt); [|tauto].
    destruct (aerr_cases e0) as [->|[->|[->|(A1 & A2 & A3)]]]; cbn [snd]; rewrite ?Erest; cbn [snd].
    - split; [intros H; split; [exact H|discriminate]|tauto].
    - split; [discriminate|tauto].
    - split; [intros H; split; [exact H|discriminate]|tauto].
    - destruct e0; rewrite ?Erest; cbn [snd]; try contradiction; (split; [intros H; split; [exact H|discriminate]|tauto]). }
  pose proof Ef as Ef'. apply find_parent_spec in Ef'; [|assumption]. cbn [fst snd] in Ef'. destruct Ef' as (_ & W & -> & Hn).
  assert (forall e, ~ blocked s (p ++ [c]) e) as NB by (intros e0 B; eapply blocked_not_open; eauto).
  destruct (parent_of_way _ _ _ W) as (pm & es & Hn' & Hpm). assert (d = Dir pm es) by congruence. subst d. clear Hn'.
  assert (writable_parent s p <-> may_write pm) as WP.
  { unfold writable_parent, shows. rewrite entry_is, Hn. cbn [option_map kind]. split; [intros (k & H & _ & K); injection H as <-; exact K|intros K; exists pm; auto]. }
  assert (node_at (a_root s) (p ++ [c]) = child (Dir pm es) c) as Nc by (apply node_snoc; exact Hn).
  assert (remove s (spell (p ++ [c])) = remove_from s p (Dir pm es) c) as Er by (unfold remove; rewrite Ef, base_spell by assumption; reflexivity).
  assert (remove_all_rest s (spell (p ++ [c])) = match remove_from s p (Dir pm es) c with
      | (s2, None) | (s2, Some ENoEnt) | (s2, Some EClosedWith) => (s2, None)
      | (s2, Some ENotEmpty) =>
          match child (Dir pm es) c with
          | None => (s2, None)
          | Some x => let '(x', cl, e) := purge x in (log_close (set_root s2 (update (a_root s2) (p ++ [c]) (fun _ => x'))) cl, e)
          end
      | (s2, e) => (s2, e)
      end) as Erest by (unfold remove_all_rest; rewrite Ef, base_spell by assumption; reflexivity).
  transitivity (~ may_write pm /\ e = EAcces \/ may_write pm /\ (exists q m, below (p ++ [c]) q /\ shows s q = Some (DirEnt m) /\ ~ emptyish s q /\ ~ (may_search m /\ may_write m)) /\ e = EAcces).
  2:{ rewrite <- WP. split; [tauto|]. intros [[B _]|H]; [destruct (NB _ B)|tauto]. }
  rewrite Er. unfold remove_from in Erest |- *. rewrite (proper_not_dot c Hc) in Erest |- *. destruct (has_perm (Dir pm es) 3) eqn:E3; cbn [negb] in Erest |- *.
  2:{ apply has_3_false in E3. cbn [mode_of] in E3. rewrite Erest. cbn [snd]. split; [intros H; apply some_inj in H; subst e; left; tauto|]. intros [(_ & ->)|(H & _)]; [reflexivity|tauto]. }
  apply has_3 in E3. cbn [mode_of] in E3. destruct E3 as [_ Hw].
  match goal with |- _ <-> _ \/ _ /\ ?R /\ _ => transitivity (R /\ e = EAcces); [|tauto] end.
  destruct (child (Dir pm es) c) as [x|] eqn:Ec.
  2:{ cbn [snd]. split; [discriminate|]. intros ((q & m & [t ->] & Sq & _) & _). unfold shows in Sq. rewrite entry_is, node_app, Nc in Sq. discriminate. }
  assert (forall t, shows s ((p ++ [c]) ++ t) = option_map kind (node_at x t)) as St by (intros t; unfold shows; rewrite entry_is, node_app, Nc; reflexivity).
  destruct (is_dir x && (0 <? count x)) eqn:Ex.
  - rewrite Erest. destruct (purge x) as [[x' cl] e'] eqn:Ep. cbn [snd].
    assert (unique x) as Ux by (eapply unique_at; [exact (proj1 Hs)|exact Nc]). pose proof (purge_err x Ux e) as P. rewrite Ep in P. cbn [snd] in P. rewrite P. clear P Ep.
    apply andb_prop in Ex as Ex'. destruct Ex' as [Ei _]. split.
    + intros (_ & (r & k & ks & N & D & Pm) & ->). split; [|reflexivity]. exists ((p ++ [c]) ++ r), k. split; [now exists r|]. split; [rewrite St, N; reflexivity|].
      assert (node_at (a_root s) ((p ++ [c]) ++ r) = Some (Dir k ks)) as N2 by (rewrite node_app, Nc; exact N). split.
      * intros Em. apply (emptyish_node s _ _ N2) in Em. destruct D as [->|D]; [cbn in N; injection N as ->; congruence|unfold full in D; congruence].
      * apply has_3_false in Pm. exact Pm.
    + intros ((q & m & [t ->] & Sq & Ne & Pm) & ->). split; [exact Ei|]. split; [|reflexivity]. rewrite St in Sq. destruct (node_at x t) as [[|k ks]|] eqn:Nt; try discriminate. cbn in Sq. injection Sq as ->.
      exists t, m, ks. split; [assumption|]. assert (node_at (a_root s) ((p ++ [c]) ++ t) = Some (Dir m ks)) as N2 by (rewrite node_app, Nc; exact Nt). split.
      * right. unfold full. destruct (is_dir (Dir m ks) && (0 <? count (Dir m ks))) eqn:F; [reflexivity|]. exfalso. apply Ne. now apply (emptyish_node s _ _ N2).
      * now apply has_3_false.
  - match goal with |- ?L <-> ?R => cut (~ L /\ ~ R); [tauto|] end. split.
    2:{ intros ((q & m & [t ->] & Sq & Ne & _) & _). rewrite St in Sq. destruct (count_zero x Ex) as [_ Cz]. destruct t as [|b t].
        - rewrite app_nil_r in Ne. apply Ne. now apply (emptyish_node s _ _ Nc).
        - cbn [node_at] in Sq. rewrite Cz in Sq. discriminate. }
    set (s1 := log_close (set_root s (update (a_root s) p (remove_child c))) (closes x)) in *. destruct (close_fails s x); [|discriminate].
    assert (s1 = fst (remove s (spell (p ++ [c])))) as E1 by (rewrite Er; unfold remove_from; rewrite (proper_not_dot c Hc), (proj2 (has_3 (Dir pm es)) (conj Hpm Hw)), Ec, Ex; reflexivity).
    assert (reachable s1) as R1.
    { destruct Hr as (u & a & l & El). exists u, a, (l ++ [ARemove (spell (p ++ [c]))]). rewrite E1, El. unfold arun. rewrite fold_left_app. reflexivity. }
    assert (forall q, q <> p ++ [c] -> (exists t, p = q ++ t) -> shows s1 q = shows s q) as Sq.
    { intros q _ [t Ht]. unfold shows, s1. cbn [a_root log_close set_root]. apply remove_out. intros [k Hk]. rewrite Hk in Ht. apply (f_equal (@length name)) in Ht. rewrite !app_length in Ht. cbn in Ht. lia. }
    assert (way_open s1 (p ++ [c])) as W1.
    { intros q b t E. destruct (W q b t E) as (m & A & B). exists m. split; [|assumption]. rewrite Sq; [assumption| |].
      - intros ->. apply (f_equal (@length name)) in E. rewrite !app_length in E. cbn in E. lia.
      - destruct (snoc_cases t) as [->|(t' & z & ->)].
        + apply app_inj_tail in E. destruct E as [-> _]. exists []. now rewrite app_nil_r.
        + replace (q ++ b :: t' ++ [z]) with ((q ++ b :: t') ++ [z]) in E by (now rewrite <- app_assoc). apply app_inj_tail in E. destruct E as [-> _]. eauto. }
    assert (node_at (a_root s1) (p ++ [c]) = None) as G1.
    { unfold s1. cbn [a_root log_close set_root]. pose proof (remove_in (a_root s) p c _ [] (proj1 Hs) Hn) as G. rewrite app_nil_r in G. now apply shows_none. }
    destruct (parent_of_way _ _ _ W1) as (pm1 & es1 & Hn1 & Hpm1).
    assert (pm1 = pm) as ->.
    { assert (shows s1 p = shows s p) as E by (apply Sq; [intros E; apply (f_equal (@length name)) in E; rewrite app_length in E; cbn in E; lia|exists []; now rewrite app_nil_r]).
      unfold shows in E. rewrite !entry_is, Hn1, Hn in E. cbn in E. congruence. }
    assert (find_parent s1 (spell (p ++ [c])) = inr (p, Dir pm es1)) as F1 by (apply find_parent_spec; auto).
    unfold remove_all_rest. rewrite F1, base_spell by assumption. unfold remove_from. rewrite (proper_not_dot c Hc), (proj2 (has_3 (Dir pm es1)) (conj Hpm Hw)). cbn [negb].
    rewrite (node_snoc _ _ c _ Hn1) in G1. rewrite G1. discriminate.
Qed.

(* ---- names, once more; Reallocate ---- *)

Lemma bad_name_refused s n e : bad_name n e ->
  stat s n = inl e /\ (forall m, chmod s n m = (s, Some e)) /\ (forall m, mkdir_all s n m = (s, Some e)) /\
  (forall q m, open_file s n q m = (s, inl e)) /\ remove s n = (s, Some e) /\ remove_all s n = (s, Some e) /\
  (forall v, add_file s n v = (s, Some e)) /\ reallocate s n = (s, Some e) /\
  (forall n', rename s n n' = (s, Some e)) /\ (forall p, ordinary p -> acceptable p -> rename s (spell p) n = (s, Some e)).
Proof.
  intros H. apply validate_err in H. assert (find_parent s n = inl e) as F by (unfold find_parent; rewrite H; reflexivity). assert (find s n = inl e) as G by (unfold find; rewrite F; reflexivity).
  split; [unfold stat; now rewrite G|]. split; [intros m; unfold chmod; now rewrite G|]. split; [intros m; unfold mkdir_all; now rewrite H|].
  split; [intros q m; unfold open_file; now rewrite F|]. split; [unfold remove; now rewrite F|]. split; [rewrite remove_all_is; now rewrite H|].
  split; [intros v; unfold add_file; now rewrite H|]. split; [unfold reallocate; now rewrite G|]. split; [intros n'; unfold rename; now rewrite H|].
  intros p Hp Ap. unfold rename. rewrite (proj2 (validate_ok _ Hp) Ap), H. reflexivity.
Qed.
Lemma realloc_err s p : ordinary p -> acceptable p ->
  (forall e, blocked s p e \/ absent s p e -> reallocate s (spell p) = (s, Some e)) /\
  (forall m, way_open s p -> shows s p = Some (DirEnt m) -> reallocate s (spell p) = (s, Some EBadf)).
Proof.
  intros Ho Ha. split.
  - intros e H. apply find_err in H; auto. unfold reallocate. now rewrite H.
  - intros m W H. apply shows_dir in H. destruct H as (es & H). assert (find s (spell p) = inr (Dir m es)) as E by (apply find_spec; auto). unfold reallocate. now rewrite E.
Qed.
Lemma name_cases n : (exists e, bad_name n e) \/ exists p, ordinary p /\ acceptable p /\ n = spell p.
Proof.
  destruct (validate n) as [e|] eqn:E; [left; exists e; now apply validate_err|right]. destruct (validate_spell n E) as (p & Hp & ->). exists p. split; [assumption|]. split; [now apply validate_ok|reflexivity].
Qed.
