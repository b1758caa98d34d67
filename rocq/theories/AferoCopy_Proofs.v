(* Proofs about filling the tree from a source. *)
From Coq Require Import Permutation.
From Verif Require Import Common CommonLemmas PathLex_Model PathLex_Proofs Afero_Model Afero_Spec Afero_Proofs AferoOps_Proofs AferoMove_Proofs AferoViews_Proofs AferoFinal_Proofs AferoErr_Spec AferoErr_Proofs AferoCalls_Proofs AferoCopy_Model AferoCopy_Spec.
From Verif Require ContentRange_Model ContentRange_Proofs.
Open Scope nat_scope.

(* A call as the list of what it does. *)
Inductive job := Unread | Put (p : list name) (v : option view).
Fixpoint work (l : list job) (s : afs) : afs * option cerr :=
  match l with
  | [] => (s, None)
  | Unread :: _ => (s, Some CWalk)
  | Put _ None :: _ => (s, Some CRefer)
  | Put p (Some v) :: r =>
      match add_file s (spell p) v with
      | (s1, Some e) => (s1, Some (CAdd e))
      | (s1, None) => work r s1
      end
  end.
Definition targets (l : list job) : list (list name) := flat_map (fun j => match j with Unread => [] | Put p _ => [p] end) l.
Definition from_fs (v : view) : Prop := v_ro v = true /\ v_close_fails v = false /\ v_mode v <> None.
Definition good (l : list job) : Prop :=
  (forall p v, In (Put p v) l -> ordinary p /\ p <> [] /\ forall w, v = Some w -> from_fs w) /\ ForallOrdPairs apart (targets l).
Definition carries (l : list job) (p : list name) (m : N) (data : list byte) : Prop :=
  exists v, In (Put p (Some v)) l /\ v_mode v = Some m /\ v_data v = data.

Lemma in_targets l p : In p (targets l) <-> exists v, In (Put p v) l.
Proof.
  unfold targets. rewrite in_flat_map. split.
  - intros ([|q v] & H & K); [destruct K|]. destruct K as [<-|[]]. eauto.
  - intros (v & H). exists (Put p v). split; [assumption|now left].
Qed.
Lemma good_tail j l : good (j :: l) -> good l.
Proof.
  intros (A & B). split; [intros p v H; apply (A p v); now right|]. destruct j as [|p v]; [exact B|]. cbn in B. now inversion B.
Qed.
Lemma good_head p v l : good (Put p v :: l) -> forall q, In q (targets l) -> apart p q.
Proof. intros (_ & B) q Hq. cbn in B. inversion B as [|? ? F _]. subst. rewrite Forall_forall in F. now apply F. Qed.

Lemma reach_add s n v : reachable s -> reachable (fst (add_file s n v)).
Proof. intros (u & a & l & ->). exists u, a, (l ++ [AAddFile n v]). unfold arun. now rewrite fold_left_app. Qed.

Lemma below_cases (p q : list name) c : below q (p ++ [c]) -> below q p \/ q = p ++ [c].
Proof.
  intros [r E]. destruct (snoc_cases r) as [->|(r' & z & ->)]; [right; now rewrite app_nil_r in E|].
  rewrite app_assoc in E. apply app_inj_tail in E. left. exists r'. apply E.
Qed.
Lemma below_trans (p q r : list name) : below p q -> below q r -> below p r.
Proof. intros [a ->] [b ->]. exists (a ++ b). now rewrite app_assoc. Qed.
Lemma below_snoc (p : list name) c : below p (p ++ [c]).
Proof. now exists [c]. Qed.
Lemma not_below_snoc (p : list name) c : ~ below (p ++ [c]) p.
Proof. intros [r E]. apply (f_equal (@length _)) in E. rewrite !app_length in E. cbn in E. lia. Qed.
Lemma below_antisym (p q : list name) : below p q -> below q p -> p = q.
Proof.
  intros [a ->] [b E]. rewrite <- app_assoc in E. rewrite <- (app_nil_r p) in E at 1. apply app_inv_head in E.
  symmetry in E. apply app_eq_nil in E. destruct E as [-> _]. now rewrite app_nil_r.
Qed.
(* Two paths above one are comparable. *)
Lemma above_cases (p q r : list name) : below p r -> below q r -> below p q \/ below q p.
Proof.
  intros [a ->] [b E]. destruct (app_cases _ _ _ _ E) as [(t & ->)|(c & t & ->)]; [left; now exists t|right; now exists (c :: t)].
Qed.

Lemma add_umask s n v : a_umask (fst (add_file s n v)) = a_umask s.
Proof.
  unfold add_file. destruct (validate n); [reflexivity|]. 
  destruct (match v_mode v with Some m => _ | None => _ end); [reflexivity|]. destruct (last (split_sep n) []) as [|b0 bs]; [reflexivity|].
  assert (forall s0 p m, a_umask (fst (mkdir_all s0 p m)) = a_umask s0) as M.
  { intros s0 p m. unfold mkdir_all. destruct (validate p); [reflexivity|]. destruct (is_dot p); [reflexivity|]. destruct (searchable (Some (a_root s0))); [reflexivity|].
    destruct (mk_all _ _ _). reflexivity. }
  specialize (M (add_view s v) (dir n) m_perm). destruct (mkdir_all (add_view s v) (dir n) m_perm) as [s1 [e1|]]; [exact M|].
  destruct (find s1 (dir n)) as [e2|d]; [exact M|]. destruct (searchable (Some d)); [exact M|]. destruct (has_perm d 2); [|exact M].
  cbn [negb]. destruct (child d (b0 :: bs)); exact M.
Qed.

(* One addition, in the form the induction uses. *)
Lemma one_add s p c v s1 e : reachable s -> ordinary (p ++ [c]) -> from_fs v -> add_file s (spell (p ++ [c])) v = (s1, e) ->
  (forall q, apart (p ++ [c]) q -> shows s1 q = shows s q) /\
  (forall q, below q (p ++ [c]) -> q <> p ++ [c] -> shows s1 q = shows s q \/ shows s q = None /\ exists m, shows s1 q = Some (DirEnt m) /\ masked (a_umask s) 511 m) /\
  (exists more, a_views s1 = a_views s ++ more) /\
  (e = None -> (exists m, v_mode v = Some m /\ shows s1 (p ++ [c]) = Some (FileEnt m (length (a_views s)))) /\
     (forall b r, shows s1 ((p ++ [c]) ++ b :: r) = None) /\ a_views s1 = a_views s ++ [v] /\ Permutation (account s1) (length (a_views s) :: account s) /\
     writable_parent s1 p) /\
  (e <> None -> (forall q, below (p ++ [c]) q -> shows s1 q = shows s q) /\ Permutation (account s1) (account s)).
Proof.
  intros Hr Ho Hf E. apply reach_sound in Hr. destruct (add_file_spec _ _ _ _ _ _ Hr Ho E) as (F1 & F2 & F3 & F4 & F5).
  split; [|split; [|split; [|split]]].
  - intros q [A B]. apply F1; [|exact A]. intros H. apply B. eapply below_trans; [exact H|apply below_snoc].
  - intros q H N. destruct (below_cases _ _ _ H) as [K|K]; [now apply F2|contradiction].
  - destruct (validate (spell (p ++ [c]))) eqn:Ev.
    + unfold add_file in E. rewrite Ev in E. injection E as <- _. exists []. now rewrite app_nil_r.
    + exists [v]. apply F3. now apply validate_ok.
  - intros ->. destruct (F4 eq_refl) as ((m & A & M) & B & C & _ & P). destruct Hf as (_ & _ & Hm). destruct (v_mode v) as [k|]; [|contradiction].
    rewrite (M k eq_refl) in A. split; [eauto|]. split; [intros b r; rewrite <- app_assoc; apply B|]. split; [|split; assumption].
    apply F3. apply validate_ok; [assumption|]. unfold add_file in E. destruct (validate (spell (p ++ [c]))); [discriminate|reflexivity].
  - intros H. destruct (F5 H) as (A & _ & B). auto.
Qed.

Lemma new_file_later s s1 s' p m data : (exists more, a_views s1 = a_views s ++ more) -> new_file s1 s' p m data -> new_file s s' p m data.
Proof.
  intros (more & E) (i & v & A & B & C). exists i, v. split; [assumption|]. split; [|assumption]. rewrite E, app_length in B. lia.
Qed.

Lemma nth_error_app_some {A} (l r : list A) i x : nth_error l i = Some x -> nth_error (l ++ r) i = Some x.
Proof. intros H. rewrite nth_error_app1; [exact H|]. apply nth_error_Some. congruence. Qed.

Lemma work_grafts l : forall s s' e, reachable s -> good l -> work l s = (s', e) ->
  grafted s s' (fun p => In p (targets l)) (carries l) (e = None).
Proof.
  assert (forall s l (e : option cerr), e <> None -> grafted s s (fun p => In p (targets l)) (carries l) (e = None)) as Stay.
  { intros s l0 e He. split; [intros p _; right; auto|]. split; [auto|]. split; [auto|]. split; [exists []; now rewrite app_nil_r|].
    exists 0. split; [apply Permutation_refl|]. split; [lia|]. intros H. contradiction. }
  induction l as [|[|p [v|]] l IH]; intros s s' e Hr Hg E; cbn [work] in E.
  - injection E as <- <-. split; [intros p []|]. split; [intros p q []|]. split; [auto|]. split; [exists []; now rewrite app_nil_r|].
    exists 0. split; [apply Permutation_refl|]. split; [lia|]. intros _. lia.
  - injection E as <- <-. apply Stay. discriminate.
  - destruct (proj1 Hg p (Some v) (or_introl eq_refl)) as (Ho & Hne & Hf). specialize (Hf v eq_refl).
    pose proof (good_head _ _ _ Hg) as Ha. pose proof (reach_add s (spell p) v Hr) as Hr1.
    destruct (snoc_cases p) as [->|(p0 & c & ->)]; [contradiction|].
    destruct (add_file s (spell (p0 ++ [c])) v) as [s1 [e1|]] eqn:E1.
    + injection E as <- <-. destruct (one_add _ _ _ _ _ _ Hr Ho Hf E1) as (F1 & F2 & F3 & _ & F5). destruct (F5 ltac:(discriminate)) as [G1 G2].
      set (p := p0 ++ [c]) in *. change (targets (Put p (Some v) :: l)) with (p :: targets l).
      split; [|split; [|split; [|split]]].
      * intros q [<-|Hq]; right; (split; [discriminate|]); [exact G1|]. intros z Hz. apply F1. specialize (Ha _ Hq). split; intros K.
        -- destruct (above_cases _ _ _ K Hz) as [X|X]; [now apply (proj1 Ha)|now apply (proj2 Ha)].
        -- apply (proj2 Ha). eapply below_trans; eassumption.
      * intros q z [<-|Hq] Hz N; [now apply F2|]. destruct (below_dec z p) as [B|B].
        -- apply F2; [assumption|]. intros ->. specialize (Ha _ Hq). now apply (proj1 Ha).
        -- left. apply F1. split; [|exact B]. intros K. apply (proj1 (Ha _ Hq)). eapply below_trans; eassumption.
      * intros q H. apply F1. apply H. now left.
      * exact F3.
      * exists 0. split; [exact G2|]. destruct F3 as (more & ->). rewrite app_length. split; [lia|discriminate].
    + cbn [fst] in Hr1. destruct (one_add _ _ _ _ _ _ Hr Ho Hf E1) as (F1 & F2 & F3 & F4 & _). destruct (F4 eq_refl) as ((m & M1 & M2) & G2 & G3 & G4 & _). clear F4.
      specialize (IH _ _ _ Hr1 (good_tail _ _ Hg) E). destruct IH as (I1 & I2 & I3 & (more & I4) & k & K1 & K2 & K3).
      set (p := p0 ++ [c]) in *. change (targets (Put p (Some v) :: l)) with (p :: targets l).
      assert (forall q, below p q -> shows s' q = shows s1 q) as Kp.
      { intros q Hq. apply I3. intros z Hz. specialize (Ha _ Hz). split; intros X.
        - destruct (above_cases _ _ _ X Hq) as [Y|Y]; [now apply (proj2 Ha)|now apply (proj1 Ha)].
        - apply (proj1 Ha). eapply below_trans; eassumption. }
      split; [|split; [|split; [|split]]].
      * intros q [<-|Hq].
        -- left. exists m, (v_data v). split; [exists v; split; [now left|auto]|]. split; [|intros b r; rewrite Kp; [apply G2|now exists (b :: r)]].
           exists (length (a_views s)), v. split; [rewrite Kp by apply below_refl; exact M2|]. split; [lia|]. split; [|split; [reflexivity|apply Hf]].
           rewrite I4. apply nth_error_app_some. rewrite G3, nth_error_app2, Nat.sub_diag by lia. reflexivity.
        -- destruct (I1 q Hq) as [(m1 & d1 & (w & W1 & W2) & N1 & B1)|(N1 & B1)].
           ++ left. exists m1, d1. split; [exists w; split; [now right|exact W2]|]. split; [|exact B1]. eapply new_file_later; [|exact N1]. exact F3.
           ++ right. split; [exact N1|]. intros z Hz. rewrite B1 by assumption. apply F1. specialize (Ha _ Hq). split; intros X.
              ** destruct (above_cases _ _ _ X Hz) as [Y|Y]; [now apply (proj1 Ha)|now apply (proj2 Ha)].
              ** apply (proj2 Ha). eapply below_trans; eassumption.
      * assert (a_umask s1 = a_umask s) as Um by (pose proof (add_umask s (spell p) v) as U; rewrite E1 in U; exact U). rewrite Um in I2.
        assert (forall z, below z p -> z <> p -> shows s' z = shows s1 z \/ shows s1 z = None /\ exists m0, shows s' z = Some (DirEnt m0) /\ masked (a_umask s) 511 m0) as L1.
        { intros z Hz N. destruct (Exists_dec (fun q => below z q) (targets l)) as [X|X].
          - intros q. destruct (list_eq_dec (list_eq_dec N.eq_dec) (firstn (length z) q) z) as [Y|Y]; [left; exists (skipn (length z) q); rewrite <- Y at 1; symmetry; apply firstn_skipn|].
            right. intros [r ->]. apply Y. rewrite firstn_app, Nat.sub_diag, firstn_all, firstn_O. apply app_nil_r.
          - apply Exists_exists in X. destruct X as (q & Hq & B). apply (I2 q); [assumption|assumption|]. intros ->. apply (proj2 (Ha _ Hq)). exact Hz.
          - left. apply I3. intros q Hq. split; [|intros B; apply X, Exists_exists; eauto]. intros B. apply (proj2 (Ha _ Hq)). eapply below_trans; eassumption. }
        assert (forall z, (below z p /\ z <> p \/ apart p z) -> shows s1 z = shows s z \/ shows s z = None /\ exists m0, shows s1 z = Some (DirEnt m0) /\ masked (a_umask s) 511 m0) as L2.
        { intros z [[B N]|B]; [now apply F2|left; now apply F1]. }
        assert (forall z, (shows s1 z = shows s z \/ shows s z = None /\ exists m0, shows s1 z = Some (DirEnt m0) /\ masked (a_umask s) 511 m0) ->
          (shows s' z = shows s1 z \/ shows s1 z = None /\ exists m0, shows s' z = Some (DirEnt m0) /\ masked (a_umask s) 511 m0) ->
          shows s' z = shows s z \/ shows s z = None /\ exists m0, shows s' z = Some (DirEnt m0) /\ masked (a_umask s) 511 m0) as L3.
        { intros z [A|(A & m1 & B & C)] [D|(D & X)]; [left; congruence|right; split; [congruence|exact X]|right; split; [exact A|exists m1; split; [congruence|exact C]]|congruence]. }
        intros q z [<-|Hq] Hz N; apply L3.
        -- apply L2. auto.
        -- now apply L1.
        -- apply L2. destruct (below_dec z p) as [B|B]; [left; split; [assumption|]; intros ->; now apply (proj1 (Ha _ Hq))|right]. split; [|exact B]. intros X. apply (proj1 (Ha _ Hq)). eapply below_trans; eassumption.
        -- now apply (I2 q).
      * intros q H. rewrite I3; [apply F1, H; now left|]. intros z Hz. apply H. now right.
      * exists ([v] ++ more). rewrite I4, G3. now rewrite <- app_assoc.
      * exists (S k). rewrite G3, app_length in K1, K2, K3. cbn [length] in K1, K2, K3. split; [|split; [lia|intros H; specialize (K3 H); lia]].
        eapply Permutation_trans; [exact K1|]. cbn [seq]. replace (length (a_views s) + 1) with (S (length (a_views s))) by lia.
        eapply Permutation_trans; [apply Permutation_app_head; exact G4|]. apply Permutation_sym. cbn [app]. apply Permutation_middle.
  - injection E as <- <-. apply Stay. discriminate.
Qed.

(* What one addition leaves of the faults of another. *)
Lemma below_app_l (q r p : list name) : p = q ++ r -> below q p.
Proof. intros ->. now exists r. Qed.
Lemma way_same s s1 p : (forall q, below q p -> q <> p -> shows s1 q = shows s q) -> way_open s p -> way_open s1 p.
Proof.
  intros F W q c r E. destruct (W q c r E) as (m & A & B). exists m. split; [|exact B]. rewrite F; [exact A|subst; now exists (c :: r)|].
  intros ->. apply (f_equal (@length _)) in E. rewrite app_length in E. cbn in E. lia.
Qed.
Lemma below_prefix (q r p z : list name) : p = q ++ r -> below z q -> below z p.
Proof. intros -> [t ->]. exists (t ++ r). now rewrite app_assoc. Qed.

Lemma fault_same s s1 p v e : (forall q, below q p -> shows s1 q = shows s q) -> a_umask s1 = a_umask s ->
  add_file_fault s p v e -> add_file_fault s1 p v e.
Proof.
  intros F U.
  assert (forall q r, p = q ++ r -> way_open s q -> way_open s1 q) as W.
  { intros q r E. apply way_same. intros z Hz _. apply F. eapply below_prefix; eassumption. }
  assert (forall q r, p = q ++ r -> shows s1 q = shows s q) as Q by (intros q r E; apply F; eapply below_app_l; exact E).
  intros [H|(N & H)]; [now left|]. right. split; [exact N|]. rewrite U. destruct H as [[(q & r & E & P & Wq & O & X)|((q & r & E & Wq & X) & H)]|[((m & Wp & X & H) & ->)|((q & r & E & Wq & X) & H)]].
  - left. left. exists q, r. pose proof (Q _ _ E) as Y. unfold obstacle. rewrite Y. eauto 10.
  - left. right. rewrite U. split; [|exact H]. exists q, r. rewrite (Q _ _ E). eauto.
  - right. left. split; [|reflexivity]. exists m. rewrite (F p (below_refl p)). split; [|auto]. apply (W p []); [now rewrite app_nil_r|exact Wp].
  - right. right. split; [|exact H]. exists q, r. rewrite (Q _ _ E). eauto.
Qed.

Lemma fault_kept s p c v s1 p' c' v' e : reachable s -> ordinary (p ++ [c]) -> from_fs v -> add_file s (spell (p ++ [c])) v = (s1, None) ->
  apart (p ++ [c]) (p' ++ [c']) -> add_file_fault s1 p' v' e <-> add_file_fault s p' v' e.
Proof.
  intros Hr Ho Hf E Hap. destruct (one_add _ _ _ _ _ _ Hr Ho Hf E) as (F1 & F2 & _ & F4 & _). destruct (F4 eq_refl) as (_ & _ & _ & _ & (mp & Wp1 & Wp2 & Wp3)). clear F4.
  assert (a_umask s1 = a_umask s) as Um by (pose proof (add_umask s (spell (p ++ [c])) v) as U; rewrite E in U; exact U).
  assert (forall q, below q p' -> shows s1 q = shows s q \/ shows s q = None /\ (exists m, shows s1 q = Some (DirEnt m) /\ may_search m /\ may_write m) /\ N.testbit (a_umask s) 6 = false /\ N.testbit (a_umask s) 7 = false) as F.
  { intros q Hq. assert (below q (p' ++ [c'])) as Hq' by (eapply below_trans; [exact Hq|apply below_snoc]). assert (~ below (p ++ [c]) q) as Nq by (intros B; apply (proj1 Hap); eapply below_trans; eassumption).
    destruct (below_dec q (p ++ [c])) as [B|B]; [|left; apply F1; now split].
    destruct (F2 q B) as [K|(K1 & m & K2 & K3)]; [intros ->; apply Nq, below_refl|now left|]. right. split; [exact K1|].
    destruct (below_cases _ _ _ B) as [B'| -> ]; [|destruct (Nq (below_refl _))]. assert (shows s p = None) as Np.
    { destruct B' as [r ->]. destruct (shows s (q ++ r)) eqn:X; [|reflexivity]. exfalso. apply (present_prefix s q r); [congruence|exact K1]. }
    destruct (F2 p (below_snoc _ _)) as [K|(_ & m' & K4 & K5)]; [intros X; apply (not_below_snoc p c); rewrite <- X; apply below_refl|congruence|].
    rewrite Wp1 in K4. apply some_inj in K4. injection K4 as <-. unfold may_search in Wp2. unfold may_write in Wp3. rewrite K5 in Wp2, Wp3.
    change ((true && true && negb (N.testbit (a_umask s) 6)) || false = true) in Wp2. change ((true && true && negb (N.testbit (a_umask s) 7)) || false = true) in Wp3. cbn [andb] in Wp2, Wp3. rewrite Bool.orb_false_r in Wp2, Wp3. apply Bool.negb_true_iff in Wp2, Wp3.
    split; [|auto]. exists m. split; [assumption|]. unfold may_search, may_write. rewrite !K3, Wp2, Wp3. auto. }
  destruct (Bool.bool_dec (N.testbit (a_umask s) 6 || N.testbit (a_umask s) 7) true) as [U|U].
  { assert (forall q, below q p' -> shows s1 q = shows s q) as F'.
    { intros q Hq. destruct (F q Hq) as [K|(_ & _ & A & B)]; [exact K|]. rewrite A, B in U. discriminate. }
    split; apply fault_same; auto. intros q Hq. symmetry. now apply F'. }
  apply Bool.not_true_is_false, Bool.orb_false_iff in U. destruct U as [U6 U7].
  assert (forall q, below q p' -> shows s q <> None -> shows s1 q = shows s q) as Old.
  { intros q Hq H. destruct (F q Hq) as [K|(K & _)]; [exact K|contradiction]. }
  assert (forall q m, below q p' -> shows s1 q = Some (DirEnt m) -> ~ (may_write m /\ may_search m) -> shows s q = Some (DirEnt m)) as Bad.
  { intros q m Hq H N. destruct (F q Hq) as [K|(_ & (m' & K1 & K2 & K3) & _)]; [congruence|]. assert (m' = m) by congruence. subst. exfalso. auto. }
  assert (forall q r, p' = q ++ r -> shows s q <> None -> way_open s1 q <-> way_open s q) as W.
  { intros q r Hq H. split; apply way_same; intros z Hz _; [symmetry|]; apply Old; try (eapply below_prefix; eassumption); destruct Hz as [t ->]; eapply present_prefix; exact H. }
  assert (forall q r, p' = q ++ r -> below q p') as BL by (intros q r Hq; now exists r).
  unfold add_file_fault, mkdir_all_fault. rewrite Um. split; (intros [H|(N & H)]; [now left|]); right; (split; [exact N|]); destruct H as [[(q & r & Hq & P & Wq & O & X)|((q & r & Hq & Wq & X) & H & _)]|[((m & Wq & X & H) & ->)|((q & r & Hq & Wq & X) & H & _)]];
    try congruence; try (exfalso; destruct H as [H|H]; [discriminate H|congruence]).
  - left. left. assert (shows s1 q = shows s q) as S1.
    { destruct (F q (BL _ _ Hq)) as [K|(_ & (m & K1 & K2 & K3) & _)]; [exact K|]. destruct O as [[O _]|[[(a & b & O) _]|[(a & O & O') _]]]; [congruence|congruence|]. assert (m = a) by congruence. subst. contradiction. }
    rewrite S1 in X. exists q, r. split; [assumption|]. split; [assumption|]. split; [now apply (W q r)|]. split; [|assumption]. unfold obstacle in *. now rewrite S1 in O.
  - right. left. split; [|reflexivity]. pose proof (Bad p' m (below_refl _) X H) as S1. exists m. split; [apply (W p' []); [now rewrite app_nil_r|congruence|assumption]|auto].
  - left. left. assert (shows s1 q = shows s q) as S1 by (apply Old; eauto).
    exists q, r. split; [assumption|]. split; [assumption|]. split; [now apply (W q r)|]. unfold obstacle in *. rewrite S1. auto.
  - right. left. split; [|reflexivity]. assert (shows s1 p' = shows s p') as S1 by (apply Old; [apply below_refl|congruence]). exists m. split; [apply (W p' []); [now rewrite app_nil_r|congruence|assumption]|]. rewrite S1. auto.
Qed.

Definition faults (s : afs) (p : list name) (v : view) (e : aerr) : Prop := exists q c, p = q ++ [c] /\ add_file_fault s q v e.
Definition troubled (s : afs) (l : list job) (e : cerr) : Prop :=
  match e with
  | CWalk => In Unread l
  | CRefer => exists p, In (Put p None) l
  | CAdd e => exists p v, In (Put p (Some v)) l /\ faults s p v e
  | _ => False
  end.
Lemma work_err l : forall s, reachable s -> good l -> (forall p v, In (Put p v) l -> callable p) ->
  (snd (work l s) = None <-> forall e, ~ troubled s l e) /\ (forall e, snd (work l s) = Some e -> troubled s l e).
Proof.
  induction l as [|[|p [v|]] l IH]; intros s Hr Hg Hc; cbn [work].
  - cbn [snd]. split; [|discriminate]. split; [|reflexivity]. intros _ [e|e| | |e] H; try destruct H. + contradiction. + destruct H as (v & [] & _).
  - cbn [snd]. split; [|intros e H; apply some_inj in H; subst e; now left]. split; [discriminate|]. intros H. destruct (H CWalk). now left.
  - destruct (proj1 Hg p (Some v) (or_introl eq_refl)) as (Ho & Hne & Hf). specialize (Hf v eq_refl).
    destruct (Hc p (Some v) (or_introl eq_refl)) as (q & c & -> & Aq & Ap). pose proof (good_head _ _ _ Hg) as Ha. pose proof (reach_add s (spell (q ++ [c])) v Hr) as Hr1.
    pose proof (fun e => add_file_err s q c v e Hr Ho Aq Ap) as Err.
    destruct (add_file s (spell (q ++ [c])) v) as [s1 [e1|]] eqn:E1; cbn [snd fst] in *.
    + assert (troubled s (Put (q ++ [c]) (Some v) :: l) (CAdd e1)) as T.
      { exists (q ++ [c]), v. split; [now left|]. exists q, c. split; [reflexivity|]. now apply Err. }
      split; [|intros e H; apply some_inj in H; subst e; exact T]. split; [discriminate|]. intros H. destruct (H _ T).
    + destruct (IH s1 Hr1 (good_tail _ _ Hg)) as [I1 I2]; [intros p v0 H; apply (Hc p v0); now right|].
      assert (forall e, troubled s1 l e <-> troubled s (Put (q ++ [c]) (Some v) :: l) e) as T.
      { intros [e|e| | |e]; cbn [troubled]; [tauto|tauto|cbn; intuition discriminate|cbn; split; intros (p & H); exists p; intuition discriminate|].
        split.
        - intros (p & v0 & H & z & b & -> & F). exists (z ++ [b]), v0. split; [now right|]. exists z, b. split; [reflexivity|].
          refine (proj1 (fault_kept _ _ _ _ _ z b v0 e Hr Ho Hf E1 _) F). apply Ha. apply in_targets. eauto.
        - intros (p & v0 & [H|H] & z & b & X & F).
          + exfalso. injection H as <- <-. apply app_inj_tail in X. destruct X as [-> ->]. apply Err in F. discriminate.
          + subst p. exists (z ++ [b]), v0. split; [assumption|]. exists z, b. split; [reflexivity|].
            refine (proj2 (fault_kept _ _ _ _ _ z b v0 e Hr Ho Hf E1 _) F). apply Ha. apply in_targets. eauto. }
      split; [rewrite I1; split; intros H e K; apply (H e); now apply T|]. intros e H. apply T. now apply I2.
  - cbn [snd]. assert (troubled s (Put p None :: l) CRefer) as T by (exists p; now left). split; [|intros e H; apply some_inj in H; subst e; exact T]. split; [discriminate|]. intros H. destruct (H _ T).
Qed.

(* The walk as a list of jobs. *)
Definition snode_ind2 (P : snode -> Prop) (Hl : forall ty st data, P (SLeaf ty st data))
  (Hd : forall b es, (forall c x, In (c, x) es -> P x) -> P (SDir b es)) : forall n, P n :=
  fix ind (n : snode) : P n :=
    match n with
    | SLeaf ty st data => Hl ty st data
    | SDir b es =>
        Hd b es ((fix go (es : list (name * snode)) : forall c x, In (c, x) es -> P x :=
          match es with
          | [] => fun _ _ H => match H with end
          | e :: r => fun c x H => match H with
                                   | or_introl E => match E in _ = y return P (snd y) with eq_refl => ind (snd e) end
                                   | or_intror K => go r c x K
                                   end
          end) es)
    end.

Fixpoint jobs (p : list name) (top : bool) (n : snode) : list job :=
  match n with
  | SLeaf ty _ _ => if top then [] else if is_regular ty then [Put p (new_view (Some n))] else []
  | SDir listed es => if listed then flat_map (fun e => jobs (p ++ [fst e]) false (snd e)) es else [Unread]
  end.
Lemma work_app l r s : work (l ++ r) s = match work l s with (s1, None) => work r s1 | x => x end.
Proof.
  revert s; induction l as [|[|p [v|]] l IH]; intros s; cbn [app work]; try reflexivity. destruct (add_file s (spell p) v) as [s1 [e|]]; [reflexivity|apply IH].
Qed.

Lemma ordinary_app p q : ordinary (p ++ q) <-> ordinary p /\ ordinary q.
Proof. apply Forall_app. Qed.
Lemma join_child p c : ordinary p -> proper c -> join2 (spell p) c = spell (p ++ [c]).
Proof. intros Hp Hc. rewrite !spell_is. apply join2_child; [now apply ordinary_normal|assumption]. Qed.
Lemma join_rel p r : ordinary p -> ordinary r -> r <> [] -> join2 (spell p) (spell r) = spell (p ++ r).
Proof.
  intros Hp Hr Hne. rewrite (spell_is p), (spell_is r), (spell_is (p ++ r)). pose proof (ordinary_normal _ Hp) as Hn.
  assert (render false p <> []) as N by (intros E; pose proof (clean_render false p Hn) as Hx; rewrite E in Hx; exact (clean_nonempty _ Hx)).
  assert (join2 (render false p) (render false r) = clean (render false p ++ sep :: render false r)) as -> by (unfold join2; destruct (render false p); [contradiction|reflexivity]).
  assert (rooted (render false p ++ sep :: render false r) = false) as Hrt by (pose proof (rooted_render false p Hn) as H; destruct (render false p); [contradiction|exact H]).
  unfold clean. rewrite Hrt. f_equal. unfold clean_comps. rewrite split_app_gen, fold_left_app.
  pose proof (comps_render false p Hn) as Hcr. unfold clean_comps in Hcr. apply (f_equal (@rev _)) in Hcr. rewrite rev_involutive in Hcr. rewrite Hcr.
  assert (split_sep (render false r) = r) as -> by (destruct r; [contradiction|]; apply split_join; [discriminate|now apply proper_sepfree]).
  rewrite fold_proper by exact Hr. rewrite rev_app_distr, !rev_involutive. reflexivity.
Qed.
Lemma starts_app p s : starts p (p ++ s) = true.
Proof. induction p as [|x p IH]; [reflexivity|]. cbn. now rewrite N.eqb_refl. Qed.
Lemma cut_app p s : cut_prefix (p ++ s) p = s.
Proof. unfold cut_prefix. rewrite starts_app, skipn_app, skipn_all, Nat.sub_diag. reflexivity. Qed.
Lemma spell_app p r : p <> [] -> r <> [] -> spell (p ++ r) = (spell p ++ [sep]) ++ spell r.
Proof.
  intros Hp Hr. rewrite <- app_assoc. cbn [app]. rewrite (spell_is p), (spell_is r), (spell_is (p ++ r)). unfold render. destruct p as [|a p]; [contradiction|]. destruct r as [|b r]; [contradiction|]. cbn [app].
  change (a :: p ++ b :: r) with ((a :: p) ++ b :: r). now apply join_app.
Qed.
Lemma relative sp r : ordinary sp -> ordinary r -> r <> [] ->
  (if negb (ContentRange_Model.bytes_eqb (spell sp) [dot]) then cut_prefix (spell (sp ++ r)) (spell sp ++ [sep]) else spell (sp ++ r)) = spell r.
Proof.
  intros Hs Hr Hne. pose proof (spell_dot sp Hs) as D. unfold is_dot in D. rewrite D. destruct sp as [|a sp]; [reflexivity|]. cbn [negb].
  rewrite spell_app by (assumption || discriminate). apply cut_app.
Qed.
Lemma at_root sp r : ordinary sp -> ordinary r -> ContentRange_Model.bytes_eqb (spell (sp ++ r)) (spell sp) = match r with [] => true | _ => false end.
Proof.
  intros Hs Hr. destruct r as [|b r]; [rewrite app_nil_r; apply eqb_refl'|]. apply eqb_false. intros E. apply spell_inj in E; [|now apply ordinary_app|assumption].
  rewrite <- (app_nil_r sp) in E at 2. apply app_inv_head in E. discriminate.
Qed.

Definition is_nil {A} (l : list A) : bool := match l with [] => true | _ => false end.
Lemma walk_is sp d n : ordinary sp -> ordinary d -> neat n -> forall r s, ordinary r ->
  walk (spell sp) (spell d) n (spell (sp ++ r)) s = work (jobs (d ++ r) (is_nil r) n) s.
Proof.
  intros Hs Hd. induction n as [ty st data|b es IH] using snode_ind2; intros Hn r s Hr.
  - cbn [walk jobs]. unfold visit. rewrite at_root by assumption. destruct r as [|c r]; [reflexivity|]. cbn [orb is_sdir is_nil].
    destruct (is_regular ty); [|reflexivity]. cbn [negb]. destruct (new_view (Some (SLeaf ty st data))) as [v|] eqn:Ev; [|reflexivity]. cbn [work].
    rewrite relative by (assumption || discriminate). rewrite join_rel by (assumption || discriminate).
    destruct (add_file s (spell (d ++ c :: r)) v) as [s1 [e|]]; reflexivity.
  - cbn [walk jobs]. unfold visit. rewrite at_root by assumption. cbn [is_sdir]. rewrite Bool.orb_true_r. destruct b; cbn [negb]; [|reflexivity].
    inversion Hn as [|? ? Hnd Hin]. subst. clear Hn Hnd. revert s. induction es as [|[c x] es IHe]; intros s; [reflexivity|]. cbn [flat_map fst snd]. rewrite work_app.
    destruct (Hin c x (or_introl eq_refl)) as [Pc Nx]. rewrite join_child by (try apply ordinary_app; auto). rewrite <- (app_assoc sp), <- (app_assoc d).
    rewrite (IH c x (or_introl eq_refl) Nx (r ++ [c])) by (apply ordinary_app; split; [assumption|constructor; [assumption|constructor]]).
    replace (is_nil (r ++ [c])) with false by (destruct r; reflexivity).
    destruct (work (jobs (d ++ r ++ [c]) false x) s) as [s1 [e|]]; [reflexivity|]. apply IHe; [intros c0 x0 H; apply (IH c0 x0); now right|intros c0 x0 H; apply Hin; now right].
Qed.

(* The jobs and the source. *)
Lemma is_regular_iff m : is_regular m = true <-> regular m.
Proof.
  unfold is_regular, regular. rewrite N.eqb_eq. split.
  - intros H i Hi. apply (f_equal (fun n => N.testbit n i)) in H. rewrite N.land_spec, N.bits_0 in H. unfold m_type in H. rewrite Hi, Bool.andb_true_r in H. exact H.
  - intros H. apply N.bits_inj. intros i. rewrite N.land_spec, N.bits_0. unfold m_type. destruct (N.testbit 2401763328 i) eqn:E; [rewrite (H i E); reflexivity|apply Bool.andb_false_r].
Qed.
Definition made (m : N) (data : list byte) : view := {| v_mode := Some m; v_ro := true; v_data := data; v_close_fails := false |}.
Lemma new_view_iff n v : new_view n = Some v <-> exists ty m data, n = Some (SLeaf ty (Some m) data) /\ regular m /\ v = made m data.
Proof.
  split.
  - destruct n as [[ty [m|] data|b es]|]; try discriminate. cbn [new_view]. destruct (N.eqb (N.land m m_dir) 0); [|discriminate]. cbn [negb].
    destruct (is_regular m) eqn:E; [|discriminate]. cbn [negb]. intros H. apply some_inj in H. apply is_regular_iff in E. exists ty, m, data. auto.
  - intros (ty & m & data & -> & H & ->). cbn [new_view]. assert (N.land m m_dir = 0%N) as ->.
    { apply N.bits_inj. intros i. rewrite N.land_spec, N.bits_0, m_dir_bit. destruct (N.eqb_spec i 31) as [->|]; [rewrite (H 31%N eq_refl); reflexivity|apply Bool.andb_false_r]. }
    cbn [N.eqb negb]. apply is_regular_iff in H. rewrite H. reflexivity.
Qed.
Lemma same_true c e : same c e = true <-> fst e = c.
Proof. unfold same. destruct (list_eq_dec N.eq_dec (fst e) c); split; congruence. Qed.
Lemma find_entry es c x : NoDup (map fst es) -> List.find (same c) es = Some (c, x) <-> In (c, x) es.
Proof.
  induction es as [|[k y] es IH]; intros Hn; cbn [List.find map fst]; [split; [discriminate|intros []]|]. inversion Hn as [|? ? N1 N2]. subst.
  destruct (same c (k, y)) eqn:E.
  - apply same_true in E. cbn in E. subst k. split; [intros H; apply some_inj in H; rewrite H; now left|]. intros [H|H]; [now rewrite H|]. destruct N1. apply (in_map fst) in H. exact H.
  - rewrite IH by assumption. split; [now right|]. intros [H|H]; [|exact H]. injection H as -> ->. assert (same c (c, x) = true) as X by now apply same_true. congruence.
Qed.
Lemma src_dir b es c r n : NoDup (map fst es) -> src_at (SDir b es) (c :: r) = Some n <-> exists x, In (c, x) es /\ src_at x r = Some n.
Proof.
  intros Hn. cbn [src_at]. split.
  - destruct (List.find (same c) es) as [[k x]|] eqn:E; [|discriminate]. intros H. assert (k = c) as -> by (apply List.find_some in E; destruct E as [_ E]; now apply same_true in E).
    apply find_entry in E; [|assumption]. eauto.
  - intros (x & Hi & H). apply find_entry in Hi; [|assumption]. rewrite Hi. exact H.
Qed.

Definition leaf_at (n : snode) (r : list name) (v : option view) : Prop :=
  exists ty st data, src_at n r = Some (SLeaf ty st data) /\ regular ty /\ v = new_view (Some (SLeaf ty st data)).
Lemma jobs_put n : neat n -> forall p0 top p v, In (Put p v) (jobs p0 top n) -> exists r, p = p0 ++ r /\ ordinary r /\ (top = true -> r <> []) /\ leaf_at n r v.
Proof.
  induction n as [ty st data|b es IH] using snode_ind2; intros Hn p0 top p v H; cbn [jobs] in H.
  - destruct top; [destruct H|]. destruct (is_regular ty) eqn:E; [|destruct H]. destruct H as [H|[]]. injection H as <- <-. exists []. rewrite app_nil_r. split; [reflexivity|]. split; [constructor|]. split; [discriminate|].
    exists ty, st, data. split; [reflexivity|]. split; [now apply is_regular_iff|reflexivity].
  - destruct b; [|destruct H as [H|[]]; discriminate]. inversion Hn as [|? ? Hnd Hin]. subst. apply in_flat_map in H. destruct H as ([c x] & Hi & H). cbn [fst snd] in H. destruct (Hin c x Hi) as [Pc Nx].
    destruct (IH c x Hi Nx _ _ _ _ H) as (r & -> & Or & _ & ty & st & data & L & R). exists (c :: r). rewrite <- app_assoc. split; [reflexivity|]. split; [constructor; assumption|]. split; [discriminate|]. exists ty, st, data. split; [|exact R].
    apply src_dir; eauto.
Qed.
Lemma jobs_leaf n : neat n -> forall p0 (top : bool) r v, (top = true -> r <> []) -> leaf_at n r v -> In (Put (p0 ++ r) v) (jobs p0 top n) \/ In Unread (jobs p0 top n).
Proof.
  induction n as [ty st data|b es IH] using snode_ind2; intros Hn p0 top r v Ht (ty' & st' & data' & L & R & ->); cbn [jobs].
  - left. destruct r as [|c r]; [|discriminate L]. apply some_inj in L. injection L as <- <- <-. destruct top; [destruct (Ht eq_refl eq_refl)|]. apply is_regular_iff in R. rewrite R, app_nil_r. now left.
  - destruct r as [|c r]; [discriminate L|]. destruct b; [|right; now left]. inversion Hn as [|? ? Hnd Hin]. subst. apply src_dir in L; [|assumption]. destruct L as (x & Hi & L). destruct (Hin c x Hi) as [Pc Nx].
    destruct (IH c x Hi Nx (p0 ++ [c]) false r (new_view (Some (SLeaf ty' st' data')))) as [K|K]; [discriminate|exists ty', st', data'; auto|left|right]; apply in_flat_map; exists (c, x); (split; [assumption|]); cbn [fst snd].
    + rewrite <- app_assoc in K. exact K.
    + exact K.
Qed.
Lemma jobs_unread n : neat n -> forall p0 top, In Unread (jobs p0 top n) <-> unlisted n.
Proof.
  induction n as [ty st data|b es IH] using snode_ind2; intros Hn p0 top; cbn [jobs].
  - split.
    + destruct top; [intros []|]. destruct (is_regular ty); [intros [H|[]]; discriminate H|intros []].
    + intros ([|c r] & es & H); discriminate H.
  - inversion Hn as [|? ? Hnd Hin]. subst. destruct b; [|split; [intros _; exists [], es; reflexivity|intros _; now left]]. split.
    + intros H. apply in_flat_map in H. destruct H as ([c x] & Hi & H). cbn [fst snd] in H. apply (IH c x Hi (proj2 (Hin c x Hi))) in H. destruct H as (r & es' & H). exists (c :: r), es'. apply src_dir; eauto.
    + intros ([|c r] & es' & H); [discriminate H|]. apply src_dir in H; [|assumption]. destruct H as (x & Hi & H). apply in_flat_map. exists (c, x). split; [assumption|]. cbn [fst snd]. apply (IH c x Hi (proj2 (Hin c x Hi))). now exists r, es'.
Qed.
Lemma src_leaf n r x ty st data m : src_at n r = Some (SLeaf ty st data) -> src_at n (r ++ x) = Some m -> x = [].
Proof.
  revert n; induction r as [|c r IH]; intros n H K.
  - apply some_inj in H. subst n. destruct x; [reflexivity|discriminate K].
  - destruct n as [|b es]; [discriminate H|]. cbn [src_at app] in *. destruct (List.find (same c) es) as [e|]; [|discriminate H]. exact (IH _ H K).
Qed.

Lemma pairs_app {A} (R : A -> A -> Prop) l r : ForallOrdPairs R l -> ForallOrdPairs R r -> (forall x y, In x l -> In y r -> R x y) -> ForallOrdPairs R (l ++ r).
Proof.
  intros Hl Hr Hc. induction Hl as [|a l Ha Hl IH]; [exact Hr|]. cbn [app]. constructor.
  - apply Forall_app. split; [exact Ha|]. apply Forall_forall. intros y Hy. apply Hc; [now left|assumption].
  - apply IH. intros x y Hx Hy. apply Hc; [now right|assumption].
Qed.
Lemma targets_app l r : targets (l ++ r) = targets l ++ targets r.
Proof. apply flat_map_app. Qed.
Lemma under_apart (p : list name) c c' q q' : c <> c' -> below (p ++ [c]) q -> below (p ++ [c']) q' -> apart q q'.
Proof.
  intros N [r ->] [r' ->]. split; intros [t E]; rewrite <- !app_assoc in E; apply app_inv_head in E; cbn in E; injection E; congruence.
Qed.
Lemma jobs_apart n : neat n -> forall p0 top, ForallOrdPairs apart (targets (jobs p0 top n)).
Proof.
  induction n as [ty st data|b es IH] using snode_ind2; intros Hn p0 top; cbn [jobs].
  - destruct top; [constructor|]. destruct (is_regular ty); repeat constructor.
  - destruct b; [|constructor]. inversion Hn as [|? ? Hnd Hin]. subst. clear Hn. induction es as [|[c x] es IHe]; [constructor|]. cbn [flat_map fst snd]. rewrite targets_app.
    inversion Hnd as [|? ? N1 N2]. subst. apply pairs_app.
    + apply (IH c x (or_introl eq_refl)). apply (Hin c x). now left.
    + apply IHe; [intros c0 x0 H; apply (IH c0 x0); now right|assumption|intros c0 x0 H; apply Hin; now right].
    + intros q q' Hq Hq'. apply in_targets in Hq. destruct Hq as (v & Hq). apply jobs_put in Hq; [|apply (Hin c x); now left]. destruct Hq as (r & -> & _).
      apply in_targets in Hq'. destruct Hq' as (v' & Hq'). apply in_flat_map in Hq'. destruct Hq' as ([c' x'] & Hi & Hq'). cbn [fst snd] in Hq'. apply jobs_put in Hq'; [|apply (Hin c' x'); now right]. destruct Hq' as (r' & -> & _).
      apply (under_apart p0 c c'); [|now exists r|now exists r']. intros ->. apply N1. apply (in_map fst) in Hi. exact Hi.
Qed.
Lemma from_new n w : new_view n = Some w -> from_fs w.
Proof. intros H. apply new_view_iff in H. destruct H as (_ & m & data & _ & _ & ->). repeat split; discriminate. Qed.
Lemma jobs_good t d : neat t -> ordinary d -> good (jobs d true t).
Proof.
  intros Hn Hd. split; [|now apply jobs_apart]. intros p v H. apply jobs_put in H; [|assumption]. destruct H as (r & -> & Or & Nr & ty & st & data & _ & _ & ->).
  split; [now apply ordinary_app|]. split; [|intros w; apply from_new]. intros E. apply app_eq_nil in E. now apply Nr.
Qed.

(* Wanting more than what is done, where a failure explains it. *)
Lemma grafted_more s s' (W1 W2 : list name -> Prop) (O1 O2 : list name -> N -> list byte -> Prop) (ok : Prop) : grafted s s' W1 O1 ok ->
  (forall p, W1 p -> W2 p) -> (forall p m data, O1 p m data -> O2 p m data) ->
  (forall p, W2 p -> W1 p \/ ~ ok /\ forall q, W1 q -> apart q p) -> (forall q, (exists p, W1 p /\ below q p) \/ ~ (exists p, W1 p /\ below q p)) ->
  grafted s s' W2 O2 ok.
Proof.
  intros (G1 & G2 & G3 & G4 & G5) HW HO HX Ex. split; [|split; [|split; [|split; assumption]]].
  - intros p Hp. destruct (HX p Hp) as [K|[K1 K2]].
    + destruct (G1 p K) as [(m & data & A & B)|B]; [left; exists m, data; auto|right; exact B].
    + right. split; [exact K1|]. intros q Hq. apply G3. intros z Hz. specialize (K2 z Hz). split; intros B.
      * destruct (above_cases _ _ _ B Hq) as [X|X]; [now apply (proj1 K2)|now apply (proj2 K2)].
      * apply (proj2 K2). eapply below_trans; eassumption.
  - intros p q Hp Hq Nq. destruct (HX p Hp) as [K|[K1 K2]]; [now apply (G2 p)|]. destruct (Ex q) as [(z & Hz & B)|N].
    + apply (G2 z); [assumption|assumption|]. intros ->. now apply (proj1 (K2 z Hz)).
    + left. apply G3. intros z Hz. split; intros B; [|apply N; eauto]. apply (proj1 (K2 z Hz)). eapply below_trans; eassumption.
  - intros q H. apply G3. intros p Hp. apply H, HW, Hp.
Qed.

Lemma below_sumdec (q p : list name) : {below q p} + {~ below q p}.
Proof.
  destruct (list_eq_dec (list_eq_dec N.eq_dec) (firstn (length q) p) q) as [Y|Y]; [left; exists (skipn (length q) p); rewrite <- Y at 1; symmetry; apply firstn_skipn|].
  right. intros [r ->]. apply Y. rewrite firstn_app, Nat.sub_diag, firstn_all, firstn_O. apply app_nil_r.
Qed.
Lemma above_target l q : (exists p, In p (targets l) /\ below q p) \/ ~ (exists p, In p (targets l) /\ below q p).
Proof.
  destruct (Exists_dec (fun p => below q p) (targets l) (below_sumdec q)) as [X|X]; rewrite Exists_exists in X; auto.
Qed.
Lemma untouched s W O (ok : Prop) : ~ ok -> grafted s s W O ok.
Proof.
  intros He. split; [intros p _; right; auto|]. split; [auto|]. split; [auto|]. split; [exists []; now rewrite app_nil_r|].
  exists 0. split; [apply Permutation_refl|]. split; [lia|]. intros H. contradiction.
Qed.
Lemma leaf_listed t r v : leaf_at t r v -> r <> [] -> listed_file t r.
Proof. intros (ty & st & data & A & B & _) N. split; [assumption|]. eauto. Qed.
Lemma leaf_offers t r v : leaf_at t r (Some v) -> r <> [] -> exists m data, v = made m data /\ offers t r m data.
Proof.
  intros (ty & st & data & A & B & C) N. symmetry in C. apply new_view_iff in C. destruct C as (ty' & m & data' & E & R & ->). apply some_inj in E. injection E as -> -> ->.
  exists m, data'. split; [reflexivity|]. split; [assumption|]. split; [eauto|assumption].
Qed.
Lemma listed_leaf t r : listed_file t r -> exists v, leaf_at t r v.
Proof. intros (_ & ty & st & data & A & B). exists (new_view (Some (SLeaf ty st data))), ty, st, data. auto. Qed.
Lemma offers_leaf t r m data : offers t r m data -> leaf_at t r (Some (made m data)).
Proof.
  intros (_ & (ty & A & B) & C). exists ty, (Some m), data. split; [assumption|]. split; [assumption|]. symmetry. apply new_view_iff. exists ty, m, data. auto.
Qed.
Lemma listed_apart t d r r' : listed_file t r -> listed_file t r' -> r <> r' -> apart (d ++ r) (d ++ r').
Proof.
  intros (_ & ty & st & data & A & _) (_ & ty' & st' & data' & A' & _) N. split; intros [x E]; rewrite <- app_assoc in E; apply app_inv_head in E.
  - subst r'. rewrite (src_leaf _ _ _ _ _ _ _ A A'), app_nil_r in N. now apply N.
  - subst r. rewrite (src_leaf _ _ _ _ _ _ _ A' A), app_nil_r in N. now apply N.
Qed.

Theorem copy_grafts s t sp d s' e : reachable s -> neat t -> ordinary sp -> ordinary d -> copy (Some t) (spell sp) (spell d) s = (s', e) ->
  grafted s s' (wants t d) (offered_below t d) (e = None).
Proof.
  intros Hr Hn Hs Hd E. unfold copy in E. destruct (validate (spell sp)); [injection E as <- <-; apply untouched; discriminate|].
  destruct (validate (spell d)); [injection E as <- <-; apply untouched; discriminate|].
  pose proof (walk_is sp d t Hs Hd Hn [] s ltac:(constructor)) as W. rewrite !app_nil_r in W. rewrite W in E. clear W. cbn [is_nil] in E.
  pose proof (work_grafts _ _ _ _ Hr (jobs_good t d Hn Hd) E) as G. eapply grafted_more; [exact G| | | |apply above_target].
  - intros p Hp. apply in_targets in Hp. destruct Hp as (v & Hp). apply jobs_put in Hp; [|assumption]. destruct Hp as (r & -> & _ & Nr & L). exists r. split; [reflexivity|]. eapply leaf_listed; eauto.
  - intros p m data (v & Hp & M & D). apply jobs_put in Hp; [|assumption]. destruct Hp as (r & -> & _ & Nr & L). destruct (leaf_offers _ _ _ L (Nr eq_refl)) as (m' & data' & -> & O).
    cbn in M, D. apply some_inj in M. subst. exists r. auto.
  - intros p (r & -> & L). destruct (listed_leaf _ _ L) as (v & Lv). destruct (jobs_leaf t Hn d true r v (fun _ => proj1 L) Lv) as [K|K]; [left; apply in_targets; eauto|].
    destruct (in_dec (list_eq_dec (list_eq_dec N.eq_dec)) (d ++ r) (targets (jobs d true t))) as [X|X]; [now left|]. right. split.
    + intros ->. revert K E. generalize (jobs d true t) as l. intros l. revert s Hr G. clear. intros s _ _ K. revert s. induction l as [|[|p [v|]] l IH]; intros s E; cbn [work] in E; [destruct K|discriminate| |discriminate].
      destruct K as [K|K]; [discriminate|]. destruct (add_file s (spell p) v) as [s1 [e1|]]; [discriminate|]. exact (IH K s1 E).
    + intros q Hq. pose proof Hq as Hq0. apply in_targets in Hq. destruct Hq as (v' & Hq). apply jobs_put in Hq; [|assumption]. destruct Hq as (r' & -> & _ & Nr & L'). apply (listed_apart t); [eapply leaf_listed; eauto|assumption|].
      intros ->. contradiction.
Qed.

Lemma meets_iff s p m data e : meets s p m data e <-> faults s p (made m data) e.
Proof. reflexivity. Qed.

Theorem copy_succeeds s t sp d : reachable s -> neat t -> ordinary sp -> ordinary d -> acceptable sp -> acceptable d ->
  (forall r, listed_file t r -> callable (d ++ r)) ->
  (snd (copy (Some t) (spell sp) (spell d) s) = None <->
     ~ unlisted t /\ ~ misstated t /\ forall r m data e, offers t r m data -> ~ meets s (d ++ r) m data e).
Proof.
  intros Hr Hn Hs Hd As Ad Hc. unfold copy. rewrite (proj2 (validate_ok _ Hs) As), (proj2 (validate_ok _ Hd) Ad).
  pose proof (walk_is sp d t Hs Hd Hn [] s ltac:(constructor)) as W. rewrite !app_nil_r in W. rewrite W. clear W. cbn [is_nil].
  assert (forall p v, In (Put p v) (jobs d true t) -> callable p) as Hc'.
  { intros p v H. apply jobs_put in H; [|assumption]. destruct H as (r & -> & _ & Nr & L). apply Hc. eapply leaf_listed; eauto. }
  rewrite (proj1 (work_err _ s Hr (jobs_good t d Hn Hd) Hc')). split.
  - intros H. assert (~ unlisted t) as NU by (intros U; apply (H CWalk); now apply jobs_unread). split; [exact NU|]. split.
    + intros (r & L & N). destruct (listed_leaf _ _ L) as (v & Lv). destruct (jobs_leaf t Hn d true r v (fun _ => proj1 L) Lv) as [K|K]; [|apply jobs_unread in K; auto].
      destruct v as [v|]; [|apply (H CRefer); exists (d ++ r); exact K]. destruct (leaf_offers _ _ _ Lv (proj1 L)) as (m & data & _ & O). apply (N m data O).
    + intros r m data e O M. destruct (jobs_leaf t Hn d true r (Some (made m data)) (fun _ => proj1 O) (offers_leaf _ _ _ _ O)) as [K|K]; [|apply jobs_unread in K; auto].
      apply (H (CAdd e)). exists (d ++ r), (made m data). auto.
  - intros (A & B & C) [e|e| | |e] T; cbn [troubled] in T; try contradiction.
    + apply jobs_unread in T; auto.
    + destruct T as (p & T). apply jobs_put in T; [|assumption]. destruct T as (r & -> & _ & Nr & L). apply B. exists r. split; [eapply leaf_listed; eauto|]. intros m data O. apply offers_leaf in O.
      destruct L as (ty & st & data1 & L1 & _ & L3). destruct O as (ty' & st' & data2 & O1 & _ & O3). rewrite L1 in O1. apply some_inj in O1. rewrite O1 in L3. congruence.
    + destruct T as (p & v & T & F). apply jobs_put in T; [|assumption]. destruct T as (r & -> & _ & Nr & L). destruct (leaf_offers _ _ _ L (Nr eq_refl)) as (m & data & -> & O). exact (C r m data e O F).
Qed.

Theorem copy_errors s t sp d e : reachable s -> neat t -> ordinary sp -> ordinary d -> acceptable sp -> acceptable d ->
  (forall r, listed_file t r -> callable (d ++ r)) ->
  snd (copy (Some t) (spell sp) (spell d) s) = Some e ->
  e = CWalk /\ unlisted t \/ e = CRefer /\ misstated t \/ exists k r m data, e = CAdd k /\ offers t r m data /\ meets s (d ++ r) m data k.
Proof.
  intros Hr Hn Hs Hd As Ad Hc. unfold copy. rewrite (proj2 (validate_ok _ Hs) As), (proj2 (validate_ok _ Hd) Ad).
  pose proof (walk_is sp d t Hs Hd Hn [] s ltac:(constructor)) as W. rewrite !app_nil_r in W. rewrite W. clear W. cbn [is_nil].
  assert (forall p v, In (Put p v) (jobs d true t) -> callable p) as Hc'.
  { intros p v H. apply jobs_put in H; [|assumption]. destruct H as (r & -> & _ & Nr & L). apply Hc. eapply leaf_listed; eauto. }
  intros H. apply (proj2 (work_err _ s Hr (jobs_good t d Hn Hd) Hc')) in H. destruct e as [e|e| | |e]; cbn [troubled] in H; try contradiction.
  - left. split; [reflexivity|]. now apply jobs_unread in H.
  - right. left. split; [reflexivity|]. destruct H as (p & T). apply jobs_put in T; [|assumption]. destruct T as (r & -> & _ & Nr & L). exists r. split; [eapply leaf_listed; eauto|]. intros m data O. apply offers_leaf in O.
    destruct L as (ty & st & data1 & L1 & _ & L3). destruct O as (ty' & st' & data2 & O1 & _ & O3). rewrite L1 in O1. apply some_inj in O1. rewrite O1 in L3. congruence.
  - right. right. destruct H as (p & v & T & F). apply jobs_put in T; [|assumption]. destruct T as (r & -> & _ & Nr & L). destruct (leaf_offers _ _ _ L (Nr eq_refl)) as (m & data & -> & O). exists e, r, m, data. auto.
Qed.

(* MapFsIter. *)
Definition map_jobs (src : name -> option snode) (l : list (name * list name)) : list job := map (fun e => Put (snd e) (new_view (src (fst e)))) l.
Lemma map_is src l s : map_iter src (map (fun e => (fst e, spell (snd e))) l) s = work (map_jobs src l) s.
Proof.
  revert s; induction l as [|[k p] l IH]; intros s; [reflexivity|]. cbn [map map_iter map_jobs work fst snd]. destruct (new_view (src k)) as [v|]; [|reflexivity].
  destruct (add_file s (spell p) v) as [s1 [e|]]; [reflexivity|apply IH].
Qed.
Lemma map_targets src l : targets (map_jobs src l) = map snd l.
Proof. induction l as [|[k p] l IH]; [reflexivity|]. cbn [map_jobs map targets flat_map fst snd app]. f_equal. exact IH. Qed.
Lemma map_good src l : Forall (fun e => ordinary (snd e) /\ snd e <> []) l -> ForallOrdPairs apart (map snd l) -> good (map_jobs src l).
Proof.
  intros Ho Ha. split; [|now rewrite map_targets]. intros p v H. apply in_map_iff in H. destruct H as ([k q] & E & H). cbn [fst snd] in E. injection E as <- <-.
  rewrite Forall_forall in Ho. destruct (Ho _ H) as [A B]. split; [exact A|]. split; [exact B|]. intros w. apply from_new.
Qed.
Lemma stated_iff src k v : new_view (src k) = Some v <-> exists m data, v = made m data /\ stated src k m data.
Proof.
  rewrite new_view_iff. split.
  - intros (ty & m & data & A & B & C). exists m, data. split; [exact C|]. exists ty. auto.
  - intros (m & data & A & ty & B & C). exists ty, m, data. auto.
Qed.
Theorem map_grafts s src l s' e : reachable s -> Forall (fun e => ordinary (snd e) /\ snd e <> []) l -> ForallOrdPairs apart (map snd l) ->
  map_iter src (map (fun e => (fst e, spell (snd e))) l) s = (s', e) -> grafted s s' (named l) (offered_by src l) (e = None).
Proof.
  intros Hr Ho Ha E. rewrite map_is in E. pose proof (work_grafts _ _ _ _ Hr (map_good src l Ho Ha) E) as G. eapply grafted_more; [exact G| | | |apply above_target].
  - intros p Hp. rewrite map_targets in Hp. apply in_map_iff in Hp. destruct Hp as ([k q] & <- & H). exists k. exact H.
  - intros p m data (v & Hp & M & D). apply in_map_iff in Hp. destruct Hp as ([k q] & X & H). cbn [fst snd] in X. injection X as -> X. apply stated_iff in X. destruct X as (m' & data' & -> & S).
    cbn in M, D. apply some_inj in M. subst. exists k. auto.
  - intros p (k & H). left. rewrite map_targets. apply (in_map snd) in H. exact H.
Qed.
Theorem map_succeeds s src l : reachable s -> Forall (fun e => ordinary (snd e) /\ snd e <> []) l -> ForallOrdPairs apart (map snd l) ->
  Forall (fun e => callable (snd e)) l ->
  (snd (map_iter src (map (fun e => (fst e, spell (snd e))) l) s) = None <->
     forall k p, In (k, p) l -> exists m data, stated src k m data /\ forall e, ~ meets s p m data e).
Proof.
  intros Hr Ho Ha Hc. rewrite map_is. rewrite Forall_forall in Hc.
  assert (forall p v, In (Put p v) (map_jobs src l) -> callable p) as Hc'.
  { intros p v H. apply in_map_iff in H. destruct H as ([k q] & X & H). cbn [fst snd] in X. injection X as <- _. exact (Hc _ H). }
  rewrite (proj1 (work_err _ s Hr (map_good src l Ho Ha) Hc')). split.
  - intros H k p Hi. destruct (new_view (src k)) as [v|] eqn:E.
    + pose proof E as E'. apply stated_iff in E'. destruct E' as (m & data & -> & S). exists m, data. split; [exact S|]. intros e M. apply (H (CAdd e)). exists p, (made m data). split; [|exact M].
      apply in_map_iff. exists (k, p). cbn [fst snd]. rewrite E. auto.
    + exfalso. apply (H CRefer). exists p. apply in_map_iff. exists (k, p). cbn [fst snd]. rewrite E. auto.
  - intros H [e|e| | |e] T; cbn [troubled] in T; try contradiction.
    + apply in_map_iff in T. destruct T as ([k p] & X & _). discriminate X.
    + destruct T as (p & T). apply in_map_iff in T. destruct T as ([k q] & X & T). cbn [fst snd] in X. injection X as -> X. destruct (H k p T) as (m & data & S & _).
      assert (new_view (src k) = Some (made m data)) as Y by (apply stated_iff; eauto). congruence.
    + destruct T as (p & v & T & F). apply in_map_iff in T. destruct T as ([k q] & X & T). cbn [fst snd] in X. injection X as -> X. destruct (H k p T) as (m & data & S & N).
      assert (new_view (src k) = Some (made m data)) as Y by (apply stated_iff; eauto). assert (v = made m data) as -> by congruence. exact (N e F).
Qed.

Theorem copy_roots s src sroot droot :
  (forall e, bad_name sroot e -> copy src sroot droot s = (s, Some (CSrcRoot e))) /\
  ((forall e, ~ bad_name sroot e) -> forall e, bad_name droot e -> copy src sroot droot s = (s, Some (CDstRoot e))) /\
  ((forall e, ~ bad_name sroot e) -> (forall e, ~ bad_name droot e) -> copy None sroot droot s = (s, Some CWalk)).
Proof.
  assert (forall n, (forall e, ~ bad_name n e) -> validate n = None) as V.
  { intros n H. destruct (validate n) as [e|] eqn:E; [|reflexivity]. destruct (H e). now apply validate_err. }
  unfold copy. split; [|split].
  - intros e H. apply validate_err in H. now rewrite H.
  - intros H e K. rewrite (V _ H). apply validate_err in K. now rewrite K.
  - intros H K. now rewrite (V _ H), (V _ K).
Qed.
