(* RemoveAll, Rename, AddFile and Reallocate of aferofs/synth. *)
From Coq Require Import Permutation.
From Verif Require Import Common CommonLemmas ContentRange_Model PathLex_Model PathLex_Proofs Afero_Model Afero_Spec Afero_Proofs AferoOps_Proofs AferoCalls_Proofs AferoMore_Proofs.
Open Scope nat_scope.


Lemma thinned_refl s p : thinned s s p.
Proof. split; [auto|]. split; [auto|]. split; [reflexivity|reflexivity]. Qed.
Lemma removed_thins s s' p : removed s s' p -> Permutation (account s) (account s') -> emptyish s p -> thinned s s' p.
Proof.
  intros (_ & B & C & D) P Em. split; [|split; [|split; [assumption|now symmetry]]].
  - intros q Hq. apply C. intros ->. apply Hq, below_refl.
  - intros q. destruct (list_eq_dec (list_eq_dec N.eq_dec) q p) as [->|Hq]; auto.
Qed.

Definition remove_all_rest (s1 : afs) (p : name) : afs * option aerr :=
  match find_parent s1 p with
  | inl e => (s1, Some e)
  | inr (pp, d) =>
      match remove_from s1 pp d (base p) with
      | (s2, None) | (s2, Some ENoEnt) | (s2, Some EClosedWith) => (s2, None)
      | (s2, Some ENotEmpty) =>
          match child d (base p) with
          | None => (s2, None)
          | Some x =>
              let '(x', cl, e) := purge x in
              (log_close (set_root s2 (update (a_root s2) (pp ++ [base p]) (fun _ => x'))) cl, e)
          end
      | (s2, e) => (s2, e)
      end
  end.
Lemma remove_all_is s p : remove_all s p =
  match validate p with
  | Some e => (s, Some e)
  | None => if is_dot p then (s, Some EAcces)
            else match remove s p with
                 | (s1, None) | (s1, Some ENoEnt) => (s1, None)
                 | (s1, Some _) => remove_all_rest s1 p
                 end
  end.
Proof. reflexivity. Qed.

Lemma no_files_if_gone (s : afs) p : shows s p = None -> forall q m v, below p q -> shows s q <> Some (FileEnt m v).
Proof. intros H q m v [r ->]. unfold shows in *. apply shows_none in H. rewrite entry_is, node_app, H. discriminate. Qed.

Lemma aerr_cases (e : aerr) : e = EClosedWith \/ e = ENoEnt \/ e = ENotEmpty \/ (e <> EClosedWith /\ e <> ENoEnt /\ e <> ENotEmpty).
Proof. destruct e; auto; right; right; right; repeat split; discriminate. Qed.
(* The rest of RemoveAll, from a state where Remove was refused. *)
Lemma rest_spec s p c s' e : sound s -> ordinary (p ++ [c]) -> acceptable (p ++ [c]) -> remove_all_rest s (spell (p ++ [c])) = (s', e) ->
  thinned s s' (p ++ [c]) /\ (e = None -> forall q m v, below (p ++ [c]) q -> shows s' q <> Some (FileEnt m v)).
Proof.
  intros Hs Ho Ha. unfold remove_all_rest. pose proof (remove_spec s p c) as RS. unfold remove in RS.
  destruct (find_parent s (spell (p ++ [c]))) as [e0|[pp d]] eqn:Ef.
  { intros H. injection H as <- <-. split; [apply thinned_refl|discriminate]. }
  apply find_parent_spec in Ef; [|assumption]. cbn [fst snd] in Ef. destruct Ef as (_ & W & -> & Hn). rewrite base_spell in * by assumption.
  destruct (remove_from s p d c) as [s2 e2] eqn:Er. destruct (RS s2 e2 Hs Ho eq_refl) as (R1 & R2 & R3 & R4). clear RS.
  assert (e2 = None \/ e2 = Some EClosedWith -> thinned s s2 (p ++ [c]) /\ (forall q m v, below (p ++ [c]) q -> shows s2 q <> Some (FileEnt m v))) as Hgone.
  { intros H. destruct (R2 H) as (R & _ & P). apply R1 in H. destruct H as (_ & _ & _ & _ & Em). split; [now apply removed_thins|]. apply no_files_if_gone. apply R. }
  destruct e2 as [e2|].
  2: { intros H. injection H as <- <-. destruct (Hgone (or_introl eq_refl)) as [A B]. split; [assumption|]. intros _. assumption. }
  destruct (aerr_cases e2) as [-> | [-> | [-> | (N1 & N2 & N3)]]].
  - intros H. injection H as <- <-. destruct (Hgone (or_intror eq_refl)) as [A B]. split; [assumption|]. intros _. assumption.
  - intros H. injection H as <- <-. rewrite (R3 ltac:(discriminate) ltac:(discriminate)). split; [apply thinned_refl|]. intros _. apply no_files_if_gone. auto.
  - assert (s2 = s) as -> by (apply R3; discriminate). destruct (child d c) as [x|] eqn:Ec.
    2: { exfalso. unfold remove_from in Er. destruct (is_dot c); [discriminate|]. destruct (negb (has_perm d 3)); [discriminate|]. rewrite Ec in Er. discriminate. }
    pose proof (node_snoc _ _ c _ Hn) as Hx. rewrite Ec in Hx.
    assert (is_dir x = true) as Dx.
    { unfold remove_from in Er. destruct (is_dot c); [discriminate|]. destruct (negb (has_perm d 3)); [discriminate|]. rewrite Ec in Er.
      destruct (is_dir x); [reflexivity|]. cbn [andb] in Er. destruct (close_fails s x); discriminate. }
    destruct (purge x) as [[x' cl] e'] eqn:Ep. intros H. apply pair_inj in H. destruct H as [<- <-].
    destruct (purge_spec _ _ _ _ Ep) as (K & U & O & F & V). assert (unique x) as Ux by (eapply unique_at; [apply Hs|exact Hx]).
    split.
    + unfold thinned, shows, account. cbn [a_root a_views a_closed log_close set_root]. split; [|split; [|split; [reflexivity|]]].
      * intros q Hq. now apply entry_update_out.
      * intros q. destruct (below_dec (p ++ [c]) q) as [[r ->]|Hb]; [|left; now apply entry_update_out].
        rewrite !entry_is. rewrite (node_update_in _ _ _ _ _ Hx), node_app, Hx. rewrite <- !entry_is. now apply O.
      * destruct (views_update _ _ _ Hx) as (rest & P1 & P2). rewrite (P2 _), P1, V.
        replace ((views_in x' ++ rest) ++ a_closed s ++ cl) with ((views_in x' ++ rest ++ a_closed s) ++ cl) by (now rewrite <- !app_assoc).
        rewrite (Permutation_app_comm _ cl). now rewrite <- !app_assoc.
    + intros He q m v [r ->]. unfold shows. cbn [a_root log_close set_root]. rewrite entry_is, (node_update_in _ _ _ _ _ Hx), <- entry_is. now apply F.
  - assert (s2 = s) as -> by (apply R3; congruence). destruct e2; try congruence; intros H; injection H as <- <-; (split; [apply thinned_refl|discriminate]).
Qed.
Theorem remove_all_spec s p c s' e : sound s -> ordinary (p ++ [c]) -> remove_all s (spell (p ++ [c])) = (s', e) ->
  thinned s s' (p ++ [c]) /\ (e = None -> forall q m v, below (p ++ [c]) q -> shows s' q <> Some (FileEnt m v)).
Proof.
  intros Hs Ho. rewrite remove_all_is. destruct (validate (spell (p ++ [c]))) as [e0|] eqn:Ev.
  { intros H. injection H as <- <-. split; [apply thinned_refl|discriminate]. }
  apply validate_ok in Ev; [|assumption]. destruct (is_dot (spell (p ++ [c]))).
  { intros H. injection H as <- <-. split; [apply thinned_refl|discriminate]. }
  destruct (remove s (spell (p ++ [c]))) as [s1 e1] eqn:Er. pose proof (remove_sound s (spell (p ++ [c])) Hs) as Hs1. rewrite Er in Hs1. cbn [fst] in Hs1.
  destruct (remove_spec _ _ _ _ _ Hs Ho Er) as (R1 & R2 & R3 & R4).
  assert (e1 = None \/ e1 = Some EClosedWith -> thinned s s1 (p ++ [c]) /\ (forall q m v, below (p ++ [c]) q -> shows s1 q <> Some (FileEnt m v))) as Hgone.
  { intros H. destruct (R2 H) as (R & _ & P). apply R1 in H. destruct H as (_ & _ & _ & _ & Em). split; [now apply removed_thins|]. apply no_files_if_gone. apply R. }
  destruct e1 as [e1|].
  2: { intros H. injection H as <- <-. destruct (Hgone (or_introl eq_refl)) as [A B]. split; [assumption|]. intros _. assumption. }
  assert (e1 <> ENoEnt -> remove_all_rest s1 (spell (p ++ [c])) = (s', e) -> thinned s s' (p ++ [c]) /\ (e = None -> forall q m v, below (p ++ [c]) q -> shows s' q <> Some (FileEnt m v))) as Hrest.
  { intros Hne H. destruct (rest_spec _ _ _ _ _ Hs1 Ho Ev H) as [T F]. split; [|assumption]. destruct (aerr_cases e1) as [-> | Hc].
    - destruct (Hgone (or_intror eq_refl)) as [(A1 & A2 & A3 & A4) _]. destruct T as (T1 & T2 & T3 & T4). split; [|split; [|split; [congruence|etransitivity; eassumption]]].
      + intros q Hq. rewrite (T1 q Hq). auto.
      + intros q. destruct (T2 q) as [->|]; auto.
    - rewrite (R3 ltac:(discriminate)) in T; [assumption|]. destruct Hc as [-> | [-> | (Hc & _)]]; congruence. }
  destruct (aerr_cases e1) as [-> | [-> | [-> | (N1 & N2 & N3)]]].
  - apply Hrest; discriminate.
  - intros H. injection H as <- <-. assert (s1 = s) as -> by (apply R3; discriminate). split; [apply thinned_refl|]. intros _. apply no_files_if_gone. auto.
  - apply Hrest; discriminate.
  - destruct e1; try congruence; (apply Hrest; discriminate).
Qed.

(* ---- Rename ---- *)

Lemma inside_below o n : o <> [] -> below o n -> inside (spell o) (spell n) = true.
Proof.
  intros Hn [r ->]. unfold inside. apply eqb_true.
  assert (exists t, spell (o ++ r) ++ [sep] = (spell o ++ [sep]) ++ t) as (t & ->).
  { rewrite !spell_is. unfold render. assert (o ++ r <> []) as Hn2 by (destruct o; [contradiction|discriminate]).
    destruct (o ++ r) as [|b1 t1] eqn:E1; [contradiction|]. rewrite <- E1. clear b1 t1 E1 Hn2. destruct o as [|c o]; [contradiction|]. cbn [app].
    destruct r as [|b r]; [exists []; now rewrite !app_nil_r|]. change (c :: o ++ b :: r) with ((c :: o) ++ b :: r). rewrite join_app by discriminate.
    exists (join_sep (b :: r) ++ [sep]). rewrite <- !app_assoc. reflexivity. }
  replace (S (length (spell o))) with (length (spell o ++ [sep])) by (rewrite app_length; cbn; lia).
  rewrite firstn_app, Nat.sub_diag, firstn_all. cbn. apply app_nil_r.
Qed.
Lemma find_dirent_spec s p c r : ordinary (p ++ [c]) -> find_dirent s (spell (p ++ [c])) = inr r ->
  way_open s (p ++ [c]) /\ writable_parent s p /\ fst (fst r) = p /\ snd r = node_at (a_root s) (p ++ [c]).
Proof.
  intros Ho. unfold find_dirent. destruct (find_parent s (spell (p ++ [c]))) as [e|[pp d]] eqn:Ef; [discriminate|].
  apply find_parent_spec in Ef; [|assumption]. cbn [fst snd] in Ef. destruct Ef as (A & W & -> & Hn). destruct (has_perm d 2) eqn:E2; [|discriminate]. cbn [negb].
  rewrite base_spell by assumption. intros H. injection H as <-. cbn [fst snd]. split; [assumption|]. destruct (parent_of_way _ _ _ W) as (m & es & Hn' & Hm).
  assert (d = Dir m es) as -> by congruence. apply has_2 in E2. split; [exists m; split; [apply shows_dir; eauto|auto]|]. split; [reflexivity|]. now rewrite (node_snoc _ _ c _ Hn).
Qed.
Theorem rename_spec s o oc n nc s' : sound s -> ordinary (o ++ [oc]) -> ordinary (n ++ [nc]) -> o ++ [oc] <> n ++ [nc] ->
  rename s (spell (o ++ [oc])) (spell (n ++ [nc])) = (s', None) ->
  way_open s (o ++ [oc]) /\ way_open s (n ++ [nc]) /\ writable_parent s o /\ writable_parent s n /\
  shows s (o ++ [oc]) <> None /\ ~ below (o ++ [oc]) (n ++ [nc]) /\ replaceable s (o ++ [oc]) (n ++ [nc]) /\
  (forall r, shows s' ((n ++ [oc]) ++ r) = shows s ((o ++ [oc]) ++ r)) /\
  (forall q, ~ below (n ++ [oc]) q -> below (o ++ [oc]) q -> shows s' q = None) /\
  (forall q, ~ below (n ++ [oc]) q -> ~ below (o ++ [oc]) q -> shows s' q = shows s q) /\
  a_views s' = a_views s /\ a_closed s' = a_closed s /\
  exists lost, Permutation (account s) (account s' ++ lost).
Proof.
  intros [Hu Hr] Ho Hn Hne. unfold rename. destruct (validate (spell (o ++ [oc]))); [discriminate|]. destruct (validate (spell (n ++ [nc]))); [discriminate|].
  rewrite eqb_false by (intros E; apply Hne; now apply spell_inj). destruct (is_dot (spell (o ++ [oc])) || is_dot (spell (n ++ [nc]))); [discriminate|].
  destruct (inside (spell (o ++ [oc])) (spell (n ++ [nc]))) eqn:Ei; [discriminate|].
  assert (~ below (o ++ [oc]) (n ++ [nc])) as Hb by (intros H; apply inside_below in H; [congruence|apply snoc_not_nil]).
  destruct (find_dirent s (spell (o ++ [oc]))) as [e|[[op d] [x|]]] eqn:Eo; [discriminate| |discriminate].
  destruct (find_dirent s (spell (n ++ [nc]))) as [e|[[np d'] y]] eqn:En; [discriminate|].
  apply find_dirent_spec in Eo; [|assumption]. apply find_dirent_spec in En; [|assumption]. cbn [fst snd] in *.
  destruct Eo as (W1 & P1 & -> & X1). destruct En as (W2 & P2 & -> & Y1). symmetry in X1.
  destruct (is_dir x && negb (has_perm x 2)); [discriminate|]. destruct (bad_target x y) eqn:Eb; [discriminate|].
  intros H. apply pair_inj in H. destruct H as [<- _]. rewrite base_spell by assumption.
  assert (~ below (o ++ [oc]) n) as Hbn by (intros [t ->]; apply Hb; exists (t ++ [nc]); now rewrite <- app_assoc).
  destruct (parent_of_way _ _ _ W1) as (m1 & es1 & N1 & _). destruct (parent_of_way _ _ _ W2) as (m2 & es2 & N2 & _).
  assert (child (Dir m1 es1) oc = Some x) as C1 by (rewrite <- (node_snoc _ _ oc _ N1); assumption).
  set (r1 := update (a_root s) o (remove_child oc)).
  assert (unique r1) as U1 by (apply unique_update; [assumption|]; intros z Hz; apply unique_remove; eapply unique_at; eauto).
  assert (exists d2, node_at r1 n = Some d2 /\ dirish d2) as (d2 & N3 & D2).
  { assert (entry_at r1 n = Some (DirEnt m2)) as E by (unfold r1; rewrite remove_out by assumption; apply shows_dir; eauto). apply shows_dir in E. destruct E as (es & E).
    exists (Dir m2 es). split; [assumption|unfold dirish; eauto]. }
  split; [assumption|]. split; [assumption|]. split; [assumption|]. split; [assumption|]. split; [|split; [assumption|split]].
  - intros H. apply shows_none in H. congruence.
  - unfold replaceable, shows, emptyish. rewrite !entry_is, X1, <- Y1. unfold bad_target in Eb. destruct y as [y|]; [right|left; reflexivity].
    destruct x as [a v|a l], y as [b w|b k]; cbn [is_dir negb andb kind option_map] in *; try discriminate.
    + left. exists a, v, b, w. auto.
    + right. exists a, b. split; [reflexivity|]. split; [reflexivity|]. destruct k as [|k0 k]; [|discriminate]. intros c. apply shows_none. symmetry in Y1. now rewrite (node_snoc _ _ c _ Y1).
  - unfold shows, account. cbn [a_root set_root a_views a_closed]. split; [|split; [|split; [|split; [reflexivity|split; [reflexivity|]]]]].
    + intros r. rewrite (add_in r1 n oc x d2 r U1 N3 D2). rewrite !entry_is, node_app, X1. reflexivity.
    + intros q Hq [r ->]. rewrite add_out by assumption. unfold r1. apply (remove_in _ _ _ _ _ Hu N1).
    + intros q Hq Hq2. rewrite add_out by assumption. now apply remove_out.
    + assert (Permutation (views_in (a_root s)) (views_in x ++ views_in r1)) as Q1.
      { destruct (views_update _ _ _ N1) as (rest & A1 & A2). unfold r1. rewrite (A2 _), A1, (views_remove oc x _ C1). now rewrite <- app_assoc. }
      destruct (views_update _ _ _ N3) as (rest & A1 & A2). specialize (A2 (add_child oc x)). destruct (child d2 oc) as [z|] eqn:Ez.
      * destruct (views_add_over oc x z d2 Ez) as (rest2 & B1 & B2). exists (views_in z). rewrite Q1, A1, A2, B1, B2.
        rewrite <- !app_assoc. apply Permutation_app_head. rewrite (Permutation_app_comm (views_in z)). rewrite <- !app_assoc. reflexivity.
      * exists []. rewrite app_nil_r, Q1, A1, A2, (views_add_new oc x d2 D2 Ez). now rewrite <- !app_assoc.
Qed.
Lemma rename_fail s o n s' e : rename s o n = (s', Some e) -> s' = s.
Proof.
  unfold rename. destruct (validate o); [congruence|]. destruct (validate n); [congruence|]. destruct (bytes_eqb o n); [congruence|].
  destruct (is_dot o || is_dot n); [congruence|]. destruct (inside o n); [congruence|]. destruct (find_dirent s o) as [?|[[? ?] [x|]]]; try congruence.
  destruct (find_dirent s n) as [?|[[? ?] y]]; [congruence|]. destruct (is_dir x && negb (has_perm x 2)); [congruence|]. destruct (bad_target x y); [congruence|]. discriminate.
Qed.

(* ---- AddFile ---- *)

Lemma last_comp p c : ordinary (p ++ [c]) -> last (split_sep (spell (p ++ [c]))) [] = c.
Proof.
  intros Ho. pose proof (comps_spell _ Ho) as H. unfold comps in H. rewrite spell_dot in H by assumption. destruct (p ++ [c]) eqn:E; [now apply snoc_not_nil in E|].
  rewrite H, <- E. apply last_snoc.
Qed.
Definition over (s : afs) (p : list name) : list nat := match node_at (a_root s) p with Some x => views_in x | None => [] end.
Theorem add_file_spec s p c v s' e : sound s -> ordinary (p ++ [c]) -> add_file s (spell (p ++ [c])) v = (s', e) ->
  (forall q, ~ below q p -> ~ below (p ++ [c]) q -> shows s' q = shows s q) /\
  (forall q, below q p -> shows s' q = shows s q \/ shows s q = None /\ exists m, shows s' q = Some (DirEnt m) /\ masked (a_umask s) 511 m) /\
  (acceptable (p ++ [c]) -> a_views s' = a_views s ++ [v]) /\
  (e = None ->
     (exists m, shows s' (p ++ [c]) = Some (FileEnt m (length (a_views s))) /\ (forall k, v_mode v = Some k -> m = k)) /\ (forall b r, shows s' (p ++ [c] ++ b :: r) = None) /\
     writable_parent s' p /\ a_closed s' = a_closed s ++ over s (p ++ [c]) /\
     Permutation (account s') (length (a_views s) :: account s)) /\
  (e <> None -> (forall q, below (p ++ [c]) q -> shows s' q = shows s q) /\ a_closed s' = a_closed s /\ Permutation (account s') (account s)).
Proof.
  intros Hs Ho. unfold add_file. destruct (ordinary_snoc _ _ Ho) as [Hp Hc].
  destruct (validate (spell (p ++ [c]))) as [e0|] eqn:Ev.
  { intros H. injection H as <- <-. split; [auto|]. split; [auto|]. split; [intros A; apply (proj2 (validate_ok _ Ho)) in A; congruence|]. split; [discriminate|]. intros _. repeat split; auto. }
  destruct (match v_mode v with Some m => negb (N.eqb (N.land m m_dir) 0) | None => false end).
  { intros H. injection H as <- <-. split; [auto|]. split; [auto|]. split; [reflexivity|]. split; [discriminate|]. intros _. repeat split; auto. }
  rewrite last_comp by assumption. destruct c as [|c0 c1]; [exfalso; destruct Hc as (Hc & _); now apply Hc|]. set (c := c0 :: c1) in *. clearbody c.
  rewrite dir_spell, base_spell by assumption. pose proof (sound_add_view s v Hs) as Hs0.
  destruct (mkdir_all (add_view s v) (spell p) m_perm) as [s1 e1] eqn:Em.
  pose proof (mkdir_all_sound (add_view s v) (spell p) m_perm Hs0) as Hs1. rewrite Em in Hs1. cbn [fst] in Hs1.
  destruct (mkdir_all_spec _ _ _ Hs0 Hp _ _ Em) as (M1 & M2 & M3 & M4 & M5 & M6 & M7 & M8).
  change (forall q, ~ below q p -> shows s1 q = shows s q) in M1.
  change (forall q, below q p -> shows s1 q = shows s q \/ shows s q = None /\ exists m, shows s1 q = Some (DirEnt m) /\ masked (a_umask s) 511 m) in M2.
  cbn [a_views add_view a_closed a_root] in M4, M5, M6.
  assert (forall q, below (p ++ [c]) q -> ~ below q p) as Hdis.
  { intros q [r ->] [t H]. apply (f_equal (@length name)) in H. rewrite !app_length in H. cbn in H. lia. }
  match goal with |- _ -> ?G => assert (forall e0, (s1, Some e0) = (s', e) -> G) as Hfail end.
  { intros e0 H. injection H as <- <-. split; [intros q A _; auto|]. split; [assumption|]. split; [auto|]. split; [discriminate|]. intros _. split; [intros q Hq; auto|]. split; [assumption|].
    unfold account. rewrite M5, M6. reflexivity. }
  destruct e1 as [e1|]; [apply Hfail|]. destruct (find s1 (spell p)) as [e2|d] eqn:Ef; [apply Hfail|].
  apply find_spec in Ef; [|assumption]. destruct Ef as (A & W & Hn).
  destruct (searchable (Some d)) as [e2|] eqn:Es; [apply Hfail|]. destruct (has_perm d 2) eqn:E2; cbn [negb]; [|apply Hfail]. clear Hfail.
  apply searchable_ok in Es. destruct Es as (m & es & Es & Hm). injection Es as ->. apply has_2 in E2. cbn [mode_of] in E2. assert (dirish (Dir m es)) as Hd by (unfold dirish; eauto).
  pose proof (node_snoc _ _ c _ Hn) as Hx. intros H. apply pair_inj in H. destruct H as [<- <-]. rewrite comps_spell by assumption.
  assert (forall (o : option node), a_root (match o with Some x => log_close s1 (closes x) | None => s1 end) = a_root s1 /\
                       a_views (match o with Some x => log_close s1 (closes x) | None => s1 end) = a_views s1 /\
                       a_closed (match o with Some x => log_close s1 (closes x) | None => s1 end) = a_closed s1 ++ match o with Some x => views_in x | None => [] end) as Hlog.
  { intros [x|]; cbn; rewrite ?app_nil_r; auto. }
  destruct (Hlog (child (Dir m es) c)) as (L1 & L2 & L3). clear Hlog.
  set (s2 := match child (Dir m es) c with Some x => log_close s1 (closes x) | None => s1 end) in *. clearbody s2.
  set (x := file_node v (length (a_views s))).
  assert (node_at (a_root s) (p ++ [c]) = child (Dir m es) c) as Hsame.
  { rewrite <- Hx. pose proof (mkdir_all_nodes (add_view s v) p m_perm Hs0 Hp (p ++ [c]) (Hdis _ (below_refl _))) as E. rewrite Em in E. cbn [fst a_root add_view] in E. now symmetry. }
  destruct Hs1 as [U1 D1].
  split; [|split; [|split; [|split; [|congruence]]]].
  - intros q A1 A2. unfold shows. cbn [a_root set_root]. rewrite L1, add_out by assumption. now apply M1.
  - intros q A1. assert (shows (set_root s2 (update (a_root s2) p (add_child c x))) q = shows s1 q) as ->; [|auto].
    unfold shows. cbn [a_root set_root]. rewrite L1. apply add_out. intros H. now apply (Hdis q H).
  - intros _. cbn [a_views set_root]. congruence.
  - intros _. unfold shows, account. cbn [a_root set_root a_closed]. rewrite !L1. split; [|split; [|split; [|split]]].
    + exists (match v_mode v with Some m => m | None => 0%N end). split; [|intros k ->; reflexivity]. pose proof (add_in (a_root s1) p c x _ [] U1 Hn Hd) as E. rewrite app_nil_r in E. exact E.
    + intros b r. rewrite app_assoc. rewrite (add_in (a_root s1) p c x _ (b :: r) U1 Hn Hd). reflexivity.
    + exists m. split; [|auto]. unfold shows. cbn [a_root set_root]. rewrite add_out; [apply shows_dir; eauto|]. intros H. apply (Hdis p H). apply below_refl.
    + rewrite L3, M5. unfold over. rewrite Hsame. reflexivity.
    + rewrite L3, M5. destruct (views_update _ _ _ Hn) as (rest & A1 & A2). rewrite (A2 (add_child c x)).
      rewrite <- M6, A1. destruct (child (Dir m es) c) as [z|] eqn:Ez.
      * destruct (views_add_over c x z _ Ez) as (rest2 & B1 & B2). rewrite B1, B2. change (views_in x) with [length (a_views s)]. cbn [app]. apply perm_skip.
        rewrite <- !app_assoc. rewrite (app_assoc rest2). rewrite (app_assoc rest2), (app_assoc (rest2 ++ rest)). rewrite (Permutation_app_comm _ (views_in z)). reflexivity.
      * rewrite (views_add_new c x _ Hd Ez). rewrite app_nil_r. reflexivity.
Qed.
