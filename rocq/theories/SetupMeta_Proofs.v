(* Proofs about the modes and times testhelper.Setup leaves. *)
From Coq Require Import Permutation.
From Verif Require Import Common CommonLemmas ContentRange_Model ContentRange_Proofs PathLex_Model PathLex_Proofs TempName_Model CopyFs_Model
  SetupLines_Model SetupLines_Spec SetupLines_Proofs SetupMeta_Model SetupMeta_Spec.
Open Scope nat_scope.

Lemma otw_refl a : on_the_way a a. Proof. destruct a; cbn; auto. Qed.
Lemma otw_trans a b c : on_the_way a b -> on_the_way b c -> on_the_way a c.
Proof. destruct a, b, c; cbn; try tauto; try (intros [-> ->]; auto); try congruence. intros E [E1 _]. congruence. Qed.

Lemma mset_same st c n : m_at (mset st c n) c = n.
Proof. unfold mset. cbn [m_at]. destruct (elem_dec c c); [reflexivity|contradiction]. Qed.
Lemma mset_other st c n q : q <> c -> m_at (mset st c n) q = m_at st q.
Proof. intros H. unfold mset. cbn [m_at]. destruct (elem_dec q c); [contradiction|reflexivity]. Qed.
Lemma touch_other st d q : q <> d -> m_at (touch st d) q = m_at st q.
Proof. intros H. unfold touch. destruct (m_at st d); [apply mset_other; exact H|reflexivity]. Qed.
Lemma touch_otw st d q : on_the_way (m_at st q) (m_at (touch st d) q).
Proof.
  destruct (elem_dec q d) as [->|H]; [|rewrite touch_other by exact H; apply otw_refl].
  unfold touch. destruct (m_at st d) as [n|] eqn:E; [|rewrite E; exact I]. rewrite mset_same. cbn. auto.
Qed.
Lemma touch_umask st d : m_umask (touch st d) = m_umask st.
Proof. unfold touch. destruct (m_at st d); reflexivity. Qed.

Lemma snoc_neq (cur : list (list byte)) c : cur <> cur ++ [c].
Proof. intros E. apply (f_equal (@length _)) in E. rewrite app_length in E. cbn in E. lia. Qed.

(* ---- MkdirAll ---- *)
Lemma mkdirs_frame rest : forall st cur st', m_mkdirs st cur rest = Some st' ->
  (forall q, ~ (exists a b, rest = a ++ b /\ q = cur ++ a) -> m_at st' q = m_at st q) /\
  (forall q, on_the_way (m_at st q) (m_at st' q)) /\
  (forall a b, rest = a ++ b -> a <> [] -> exists n, m_at st' (cur ++ a) = Some n /\ mn_bytes n = None) /\
  m_umask st' = m_umask st.
Proof.
  induction rest as [|c rest IH]; intros st cur st' H; cbn [m_mkdirs] in H.
  - injection H as <-. split; [reflexivity|]. split; [intros q; apply otw_refl|]. split; [|reflexivity].
    intros a b E Ha. destruct a; [contradiction|discriminate].
  - assert (forall st1, (forall q, q <> cur -> q <> cur ++ [c] -> m_at st1 q = m_at st q) -> (forall q, on_the_way (m_at st q) (m_at st1 q)) ->
      (exists n, m_at st1 (cur ++ [c]) = Some n /\ mn_bytes n = None) -> m_umask st1 = m_umask st ->
      m_mkdirs st1 (cur ++ [c]) rest = Some st' ->
      (forall q, ~ (exists a b, c :: rest = a ++ b /\ q = cur ++ a) -> m_at st' q = m_at st q) /\
      (forall q, on_the_way (m_at st q) (m_at st' q)) /\
      (forall a b, c :: rest = a ++ b -> a <> [] -> exists n, m_at st' (cur ++ a) = Some n /\ mn_bytes n = None) /\
      m_umask st' = m_umask st) as Hgo.
    { intros st1 H1 H2 (n1 & H3 & H3') H4 Hm. destruct (IH _ _ _ Hm) as (I1 & I2 & I3 & I4). split; [|split; [|split]].
      - intros q Hq. rewrite I1.
        + apply H1; intros ->; apply Hq; [exists [], (c :: rest); rewrite app_nil_r; auto|exists [c], rest; auto].
        + intros (a & b & E & Eq). apply Hq. exists (c :: a), b. rewrite E, Eq, <- app_assoc. auto.
      - intros q. exact (otw_trans _ _ _ (H2 q) (I2 q)).
      - intros a b E Ha. destruct a as [|x a]; [contradiction|]. cbn [app] in E. injection E as <- E.
        destruct a as [|y a].
        + pose proof (I2 (cur ++ [c])) as Ho. rewrite H3 in Ho. destruct (m_at st' (cur ++ [c])) as [n|]; [|contradiction].
          exists n. split; [reflexivity|]. destruct Ho. congruence.
        + destruct (I3 (y :: a) b E ltac:(discriminate)) as (n & Hn & Hb). rewrite <- app_assoc in Hn. exists n. auto.
      - congruence. }
    destruct (m_at st (cur ++ [c])) as [[[bb|] mode tm]|] eqn:E; [discriminate| |].
    + apply (Hgo st); auto; [intros q; apply otw_refl|]. exists (MNode None mode tm). auto.
    + apply (Hgo (touch (mset st (cur ++ [c]) (Some (MNode None (N.ldiff 511 (m_umask st)) (m_now st)))) cur)); [| | |rewrite touch_umask; reflexivity|exact H].
      * intros q H1 H2. rewrite touch_other by exact H1. apply mset_other. exact H2.
      * intros q. eapply otw_trans; [|apply touch_otw]. destruct (elem_dec q (cur ++ [c])) as [->|Hq].
        -- rewrite mset_same, E. reflexivity.
        -- rewrite mset_other by exact Hq. apply otw_refl.
      * rewrite touch_other by (intros Ex; exact (snoc_neq _ _ (eq_sym Ex))). rewrite mset_same. eexists. split; reflexivity.
Qed.

Lemma over_removelast (c q : list (list byte)) : c <> [] -> (exists b, removelast c = q ++ b) -> over q c.
Proof.
  intros Hc (b & E). pose proof (app_removelast_last [] Hc) as Ec. rewrite E in Ec. destruct b as [|y b].
  - exists (last c []), []. rewrite app_nil_r in Ec. exact Ec.
  - exists y, (b ++ [last c []]). rewrite <- app_assoc in Ec. exact Ec.
Qed.
Lemma over_inv (q c : list (list byte)) : over q c -> exists b, removelast c = q ++ b.
Proof.
  intros (x & r & ->). destruct (@exists_last _ (x :: r) ltac:(discriminate)) as (r' & y & E). rewrite E, app_assoc, removelast_last. exists r'. reflexivity.
Qed.

(* ---- the parents of something to be made ---- *)
Lemma mkdir_parent_frame st n st' : plain_name n -> m_mkdir_parent st n = Some st' ->
  only_at (split_sep n) st st' /\ m_at st' (split_sep n) = m_at st (split_sep n) /\ m_umask st' = m_umask st /\
  (forall q, q <> [] -> over q (split_sep n) -> exists x, m_at st' q = Some x /\ mn_bytes x = None).
Proof.
  intros Hp H. destruct (plain_dir n Hp) as [Ed Hr]. destruct (plain_render n Hp) as [_ Hne]. unfold m_mkdir_parent in H. rewrite Ed in H.
  destruct (removelast (split_sep n)) as [|y l] eqn:El.
  - assert (is_dot (render false []) = true) as Hd by reflexivity. rewrite Hd in H. injection H as <-.
    split; [split; [reflexivity|intros; apply otw_refl]|]. split; [reflexivity|]. split; [reflexivity|].
    intros q Hq Ho. apply over_inv in Ho. destruct Ho as (b & E). rewrite El in E. destruct q; [contradiction|discriminate].
  - assert (is_dot (render false (y :: l)) = false) as Hd.
    { destruct (is_dot (render false (y :: l))) eqn:E; [|reflexivity]. apply bytes_eqb_eq in E.
      assert (split_sep (render false (y :: l)) = y :: l) as Hs by (rewrite split_render by (apply proper_norm; exact Hr); reflexivity). rewrite E in Hs. change (split_sep [dot]) with [[dot]] in Hs.
      injection Hs as <- <-. inversion Hr as [|? ? Hy _]; subst. destruct Hy as (_ & Hy & _). contradiction. }
    rewrite Hd in H. unfold m_mkdir_all in H.
    assert (kpath (render false (y :: l)) = y :: l) as Ek.
    { unfold kpath. rewrite rooted_render by (apply proper_norm; exact Hr). apply comps_render, proper_norm. exact Hr. }
    rewrite Ek in H. destruct (mkdirs_frame _ _ _ _ H) as (F1 & F2 & F3 & F4). cbn [app] in F1, F3. split; [split|split; [|split]].
    + intros q Hq Ho. apply F1. intros (a & b & E & ->). apply Ho. apply over_removelast; [exact Hne|]. rewrite El. exists b. exact E.
    + intros q _. apply F2.
    + apply F1. intros (a & b & E & Ea). rewrite <- Ea in E. rewrite <- El in E. apply (f_equal (@length _)) in E.
      pose proof (app_removelast_last [] Hne) as Es. apply (f_equal (@length _)) in Es. rewrite app_length in *. cbn [length] in Es. lia.
    + exact F4.
    + intros q Hq Ho. apply over_inv in Ho. destruct Ho as (b & E). rewrite El in E. exact (F3 q b E Hq).
Qed.

Lemma only_at_trans c a b d : only_at c a b -> only_at c b d -> only_at c a d.
Proof.
  intros [A1 A2] [B1 B2]. split; [intros q H1 H2; rewrite B1, A1 by assumption; reflexivity|].
  intros q H. eapply otw_trans; [apply A2|apply B2]; exact H.
Qed.
Lemma only_at_mset c st n : only_at c st (mset st c n).
Proof. split; [intros q H _; apply mset_other; exact H|]. intros q H. rewrite mset_other by exact H. apply otw_refl. Qed.
Lemma only_at_refl c st : only_at c st st.
Proof. split; [reflexivity|intros; apply otw_refl]. Qed.
Lemma removelast_over (c : list (list byte)) : c <> [] -> over (removelast c) c.
Proof. intros H. apply over_removelast; [exact H|]. exists []. rewrite app_nil_r. reflexivity. Qed.
Lemma removelast_neq (c : list (list byte)) : c <> [] -> c <> removelast c.
Proof. intros H E. pose proof (app_removelast_last [] H) as Ec. rewrite <- E in Ec. exact (snoc_neq _ _ Ec). Qed.
Lemma only_at_touch c st : c <> [] -> only_at c st (touch st (removelast c)).
Proof.
  intros Hc. split; [|intros q _; apply touch_otw]. intros q H Ho. apply touch_other. intros ->. apply Ho. apply removelast_over. exact Hc.
Qed.

Lemma create_frame st c st' : m_create st c = Some st' ->
  only_at c st st' /\ m_umask st' = m_umask st /\
  exists mode t, m_at st' c = Some (MNode (Some []) mode t) /\
    mode = match m_at st c with Some x => mn_mode x | None => N.ldiff 438 (m_umask st) end.
Proof.
  unfold m_create. destruct c as [|y l]; [discriminate|]. set (c := y :: l). assert (c <> []) as Hc by discriminate.
  destruct (m_at st (removelast c)) as [[[bb|] m0 t0]|]; try discriminate.
  destruct (m_at st c) as [[[bb|] m1 t1]|] eqn:E; try discriminate; intros H; injection H as <-.
  - split; [apply only_at_mset|]. split; [reflexivity|]. rewrite mset_same. eexists _, _. split; reflexivity.
  - split; [eapply only_at_trans; [apply only_at_mset|apply only_at_touch; exact Hc]|]. split; [rewrite touch_umask; reflexivity|].
    rewrite touch_other by (apply removelast_neq; exact Hc). rewrite mset_same. eexists _, _. split; reflexivity.
Qed.

Lemma write_frame st c b mode b0 t : m_at st c = Some (MNode (Some b0) mode t) ->
  only_at c st (m_write st c b) /\ exists t', m_at (m_write st c b) c = Some (MNode (Some b) mode t').
Proof. intros E. unfold m_write. rewrite E. split; [apply only_at_mset|]. rewrite mset_same. eauto. Qed.
Lemma chmod_frame st c mode n : m_at st c = Some n ->
  only_at c st (m_chmod st c mode) /\ m_at (m_chmod st c mode) c = Some (MNode (mn_bytes n) mode (mn_time n)).
Proof. intros E. unfold m_chmod. rewrite E. split; [apply only_at_mset|apply mset_same]. Qed.
Lemma chtimes_frame st c t n : m_at st c = Some n ->
  only_at c st (m_chtimes st c t) /\ m_at (m_chtimes st c t) c = Some (MNode (mn_bytes n) (mn_mode n) t).
Proof. intros E. unfold m_chtimes. rewrite E. split; [apply only_at_mset|apply mset_same]. Qed.
Lemma remove_frame flt st c b mode t : c <> [] -> m_at st c = Some (MNode (Some b) mode t) ->
  only_at c st (m_remove flt st c) /\ (flt = false -> m_at (m_remove flt st c) c = None).
Proof.
  intros Hc E. unfold m_remove. destruct flt; [split; [apply only_at_refl|discriminate]|]. rewrite E.
  split; [eapply only_at_trans; [apply only_at_mset|apply only_at_touch; exact Hc]|]. intros _.
  rewrite touch_other by (apply removelast_neq; exact Hc). apply mset_same.
Qed.

(* ---- one file ---- *)
Lemma setup_file_frame flt part st n b mode mtime st' ok : plain_name n -> setup_file flt part st n b mode mtime = (st', ok) ->
  only_at (split_sep n) st st' /\
  (ok = true ->
     (forall q, q <> [] -> over q (split_sep n) -> exists x, m_at st' q = Some x /\ mn_bytes x = None) /\
     exists x, m_at st' (split_sep n) = Some x /\ mn_bytes x = Some b /\ as_asked mode mtime x /\
       (mode = 0%N -> mn_mode x = match m_at st (split_sep n) with Some o => mn_mode o | None => N.ldiff 438 (m_umask st) end)) /\
  (ok = false -> flt n CRemove = false -> m_at st' (split_sep n) = None \/ m_at st' (split_sep n) = m_at st (split_sep n)).
Proof.
  intros Hp H. unfold setup_file in H. rewrite (plain_kpath n Hp) in H. destruct (plain_render n Hp) as [_ Hne]. set (c := split_sep n) in *.
  destruct (m_mkdir_parent st n) as [st1|] eqn:E1.
  2:{ injection H as <- <-. split; [apply only_at_refl|]. split; [discriminate|auto]. }
  destruct (mkdir_parent_frame st n st1 Hp E1) as (A1 & A2 & A3 & A4). fold c in A1, A2, A4.
  destruct (m_create st1 c) as [st2|] eqn:E2.
  2:{ injection H as <- <-. split; [exact A1|]. split; [discriminate|auto]. }
  destruct (create_frame _ _ _ E2) as (B1 & B2 & mode0 & t0 & B3 & B4). cbv zeta in H.
  assert (forall st3 x y z, only_at c st st3 -> m_at st3 c = Some (MNode (Some x) y z) -> (m_remove (flt n CRemove) st3 c, false) = (st', ok) ->
    only_at c st st' /\ (ok = true -> False) /\ (ok = false -> flt n CRemove = false -> m_at st' c = None \/ m_at st' c = m_at st c)) as Hundo.
  { intros st3 x y z Ho E Eq. injection Eq as <- <-. destruct (remove_frame (flt n CRemove) st3 c x y z Hne E) as [R1 R2].
    split; [eapply only_at_trans; eauto|]. split; [discriminate|]. intros _ Hf. left. apply R2. exact Hf. }
  assert (forall st3, only_at c st2 st3 -> only_at c st st3) as Hon by (intros st3 Ho; exact (only_at_trans _ _ _ _ A1 (only_at_trans _ _ _ _ B1 Ho))).
  assert (forall P Q R : Prop, P /\ (ok = true -> False) /\ R -> P /\ (ok = true -> Q) /\ R) as Hweak by (intros P Q R (? & Hx & ?); repeat split; auto; intros Ht; destruct (Hx Ht)).
  destruct (flt n CWrite).
  { destruct (write_frame st2 c part _ _ _ B3) as (W1 & t1 & W2). apply Hweak. exact (Hundo _ _ _ _ (Hon _ W1) W2 H). }
  destruct (write_frame st2 c b _ _ _ B3) as (W1 & t1 & W2). set (st3 := m_write st2 c b) in *.
  destruct (negb (mode =? 0)%N && flt n CChmod).
  { apply Hweak. exact (Hundo _ _ _ _ (Hon _ W1) W2 H). }
  assert (exists mode1, only_at c st2 (if (mode =? 0)%N then st3 else m_chmod st3 c (perm mode)) /\
    m_at (if (mode =? 0)%N then st3 else m_chmod st3 c (perm mode)) c = Some (MNode (Some b) mode1 t1) /\
    (mode <> 0%N -> mode1 = N.land mode 511) /\ (mode = 0%N -> mode1 = mode0)) as (mode1 & C1 & C2 & C3 & C4).
  { destruct (mode =? 0)%N eqn:Em.
    - apply N.eqb_eq in Em. exists mode0. split; [exact W1|]. split; [exact W2|]. split; [intros; contradiction|reflexivity].
    - apply N.eqb_neq in Em. destruct (chmod_frame st3 c (perm mode) _ W2) as [D1 D2]. exists (perm mode).
      split; [eapply only_at_trans; eauto|]. split; [exact D2|]. split; [reflexivity|intros; contradiction]. }
  set (st4 := if (mode =? 0)%N then st3 else m_chmod st3 c (perm mode)) in *.
  destruct (flt n CClose).
  { apply Hweak. exact (Hundo _ _ _ _ (Hon _ C1) C2 H). }
  assert (forall st5, only_at c st st5 -> forall q, q <> [] -> over q c -> only_at c st1 st5 -> exists x, m_at st5 q = Some x /\ mn_bytes x = None) as Habove.
  { intros st5 _ q Hq Ho [_ F]. destruct (A4 q Hq Ho) as (x & Hx & Hb). assert (q <> c) as Hqc by (intros ->; destruct Ho as (y & r & E); apply (f_equal (@length _)) in E; rewrite app_length in E; cbn in E; lia).
    specialize (F q Hqc). rewrite Hx in F. destruct (m_at st5 q) as [y|]; [|contradiction]. exists y. split; [reflexivity|]. destruct F. congruence. }
  assert (mode = 0%N -> mode1 = match m_at st c with Some o => mn_mode o | None => N.ldiff 438 (m_umask st) end) as Hm0.
  { intros Hz. rewrite (C4 Hz), B4, A2, A3. reflexivity. }
  destruct mtime as [t|].
  - destruct (flt n CChtimes).
    { apply Hweak. exact (Hundo _ _ _ _ (Hon _ C1) C2 H). }
    injection H as <- <-. destruct (chtimes_frame st4 c t _ C2) as [D1 D2]. pose proof (only_at_trans _ _ _ _ C1 D1) as C1'.
    split; [exact (Hon _ C1')|]. split; [|discriminate]. intros _. split; [intros q Hq Ho; apply (Habove _ (Hon _ C1') q Hq Ho); eapply only_at_trans; eauto|].
    eexists. split; [exact D2|]. cbn [mn_bytes mn_mode]. split; [reflexivity|]. split; [|exact Hm0]. split; [exact C3|]. intros t' Et. injection Et as <-. reflexivity.
  - injection H as <- <-. split; [exact (Hon _ C1)|]. split; [|discriminate]. intros _. split; [intros q Hq Ho; apply (Habove _ (Hon _ C1) q Hq Ho); eapply only_at_trans; eauto|].
    eexists. split; [exact C2|]. cbn [mn_bytes mn_mode]. split; [reflexivity|]. split; [|exact Hm0]. split; [exact C3|discriminate].
Qed.

(* ---- one directory ---- *)
Lemma setup_dir_frame flt st n mode mtime st' ok : plain_name n -> setup_dir flt st n mode mtime = (st', ok) ->
  only_at (split_sep n) st st' /\
  (ok = true ->
     (forall q, q <> [] -> over q (split_sep n) -> exists x, m_at st' q = Some x /\ mn_bytes x = None) /\
     exists x, m_at st' (split_sep n) = Some x /\ mn_bytes x = None /\ as_asked mode mtime x) /\
  kind_kept (m_at st (split_sep n)) (m_at st' (split_sep n)).
Proof.
  intros Hp H. unfold setup_dir, m_mkdir_all in H. rewrite (plain_kpath n Hp) in H. destruct (plain_render n Hp) as [_ Hne]. set (c := split_sep n) in *.
  destruct (m_mkdirs st [] c) as [st1|] eqn:E1.
  2:{ injection H as <- <-. split; [apply only_at_refl|]. split; [discriminate|]. destruct (m_at st c); cbn; auto. }
  destruct (mkdirs_frame _ _ _ _ E1) as (F1 & F2 & F3 & _). cbn [app] in F1, F3.
  assert (only_at c st st1) as A1.
  { split; [|intros q _; apply F2]. intros q Hq Ho. apply F1. intros (a & b & E & ->). destruct b as [|y b]; [rewrite app_nil_r in E; congruence|].
    apply Ho. exists y, b. exact E. }
  destruct (F3 c [] ltac:(rewrite app_nil_r; reflexivity) Hne) as ([bb m0 t0] & A2 & A3). cbn [mn_bytes] in A3. subst bb.
  assert (forall q, q <> [] -> over q c -> forall st5, only_at c st1 st5 -> exists x, m_at st5 q = Some x /\ mn_bytes x = None) as Habove.
  { intros q Hq Ho st5 [_ F]. assert (q <> c) as Hqc by (intros ->; destruct Ho as (y & r & E); apply (f_equal (@length _)) in E; rewrite app_length in E; cbn in E; lia).
    destruct Ho as (y & r & Eo). destruct (F3 q (y :: r) Eo Hq) as (x & Hx & Hb).
    specialize (F q Hqc). rewrite Hx in F. destruct (m_at st5 q) as [z|]; [|contradiction]. exists z. split; [reflexivity|]. destruct F. congruence. }
  assert (forall st5 m5 t5, m_at st5 c = Some (MNode None m5 t5) ->
    kind_kept (m_at st c) (m_at st5 c)) as Hkind.
  { intros st5 m5 t5 E. rewrite E. pose proof (F2 c) as Ho. rewrite A2 in Ho. destruct (m_at st c); cbn in *; [destruct Ho; auto|reflexivity]. }
  destruct (negb (mode =? 0)%N && flt n CChmod).
  { injection H as <- <-. split; [exact A1|]. split; [discriminate|]. eapply Hkind. exact A2. }
  cbv zeta in H.
  assert (exists m1, only_at c st1 (if (mode =? 0)%N then st1 else m_chmod st1 c (perm mode)) /\
    m_at (if (mode =? 0)%N then st1 else m_chmod st1 c (perm mode)) c = Some (MNode None m1 t0) /\ (mode <> 0%N -> m1 = N.land mode 511)) as (m1 & C1 & C2 & C3).
  { destruct (mode =? 0)%N eqn:Em.
    - apply N.eqb_eq in Em. exists m0. split; [apply only_at_refl|]. split; [exact A2|intros; contradiction].
    - destruct (chmod_frame st1 c (perm mode) _ A2) as [D1 D2]. exists (perm mode). split; [exact D1|]. split; [exact D2|reflexivity]. }
  set (st4 := if (mode =? 0)%N then st1 else m_chmod st1 c (perm mode)) in *.
  destruct mtime as [t|].
  - destruct (flt n CChtimes).
    { injection H as <- <-. split; [eapply only_at_trans; eauto|]. split; [discriminate|]. eapply Hkind. exact C2. }
    injection H as <- <-. destruct (chtimes_frame st4 c t _ C2) as [D1 D2]. pose proof (only_at_trans _ _ _ _ C1 D1) as C1'.
    split; [eapply only_at_trans; eauto|]. split; [|eapply Hkind; exact D2]. intros _. split; [intros q Hq Ho; apply (Habove q Hq Ho); exact C1'|].
    eexists. split; [exact D2|]. split; [reflexivity|]. split; [exact C3|]. intros t' Et. injection Et as <-. reflexivity.
  - injection H as <- <-. split; [eapply only_at_trans; eauto|]. split; [|eapply Hkind; exact C2]. intros _. split; [intros q Hq Ho; apply (Habove q Hq Ho); exact C1|].
    eexists. split; [exact C2|]. split; [reflexivity|]. split; [exact C3|discriminate].
Qed.

(* ---- one entry, and all of them ---- *)
Definition made (p : mproc) (x : mnode) : Prop :=
  match p with
  | MDir _ mode t => mn_bytes x = None /\ as_asked mode t x
  | MFile _ b mode t => mn_bytes x = Some b /\ as_asked mode t x
  end.

Lemma step_frame flt part st p st' ok : plainly_named p -> msetup1 flt part st p = (st', ok) ->
  only_at (place p) st st' /\
  (ok = true -> (forall q, q <> [] -> over q (place p) -> exists x, m_at st' q = Some x /\ mn_bytes x = None) /\
     exists x, m_at st' (place p) = Some x /\ made p x).
Proof.
  intros Hp H. destruct p as [n mode t|n b mode t]; cbn [msetup1 place plainly_named made] in *.
  - destruct (setup_dir_frame _ _ _ _ _ _ _ Hp H) as (F1 & F2 & _). auto.
  - destruct (setup_file_frame _ _ _ _ _ _ _ _ _ Hp H) as (F1 & F2 & _). split; [exact F1|]. intros Ho. destruct (F2 Ho) as (G1 & x & G2 & G3 & G4 & _).
    split; [exact G1|]. exists x. auto.
Qed.

Lemma order_keeps flt part l : forall st st' q, Forall plainly_named l -> ~ In q (map place l) -> q <> [] ->
  msetup_in_order flt part st l = (st', true) ->
  forall x, m_at st q = Some x ->
  (mn_bytes x <> None -> m_at st' q = Some x) /\
  ((forall p, In p l -> ~ over q (place p)) -> m_at st' q = Some x) /\
  on_the_way (Some x) (m_at st' q).
Proof.
  induction l as [|p l IH]; intros st st' q Hp Hq Hne H x Hx; cbn [msetup_in_order] in H.
  - injection H as <-. rewrite Hx. split; [reflexivity|]. split; [reflexivity|]. apply otw_refl.
  - inversion Hp as [|? ? Hpp Hpl]; subst. destruct (msetup1 flt part st p) as [st1 ok] eqn:E. destruct ok; [|discriminate].
    destruct (step_frame _ _ _ _ _ _ Hpp E) as ([F1 F2] & F3). destruct (F3 eq_refl) as (F4 & _). cbn [map] in Hq.
    assert (q <> place p) as Hqp by (intros ->; apply Hq; left; reflexivity).
    assert (~ In q (map place l)) as Hql by (intros Hi; apply Hq; right; exact Hi).
    pose proof (F2 q Hqp) as Ho. rewrite Hx in Ho. destruct (m_at st1 q) as [y|] eqn:Ey; [|contradiction].
    destruct (IH st1 st' q Hpl Hql Hne H y Ey) as (I1 & I2 & I3). split; [|split].
    + intros Hb. assert (y = x) as ->.
      { rewrite (F1 q Hqp) in Ey; [congruence|]. intros Hov. destruct (F4 q Hne Hov) as (z & Hz & Hbz). destruct Ho. congruence. }
      apply I1. exact Hb.
    + intros Hall. assert (y = x) as ->. { rewrite (F1 q Hqp) in Ey; [congruence|]. apply Hall. left. reflexivity. }
      apply I2. intros p' Hp'. apply Hall. right. exact Hp'.
    + eapply otw_trans; [exact Ho|exact I3].
Qed.

Lemma order_made flt part l : forall st st', Forall plainly_named l -> NoDup (map place l) ->
  msetup_in_order flt part st l = (st', true) -> forall p, In p l ->
  exists x, m_at st' (place p) = Some x /\
    match p with
    | MFile _ b mode t => mn_bytes x = Some b /\ as_asked mode t x
    | MDir _ mode t => mn_bytes x = None /\ as_asked mode None x /\ ((forall p', In p' l -> ~ over (place p) (place p')) -> as_asked mode t x)
    end.
Proof.
  induction l as [|p0 l IH]; intros st st' Hp Hd H p Hin; cbn [msetup_in_order] in H; [contradiction|].
  inversion Hp as [|? ? Hpp Hpl]; subst. cbn [map] in Hd. inversion Hd as [|? ? Hn Hd']; subst.
  destruct (msetup1 flt part st p0) as [st1 ok] eqn:E. destruct ok; [|discriminate]. destruct Hin as [->|Hin].
  - destruct (step_frame _ _ _ _ _ _ Hpp E) as (_ & F3). destruct (F3 eq_refl) as (_ & x & Hx & Hm).
    assert (place p <> []) as Hne by (destruct p; cbn [place plainly_named] in *; apply plain_render; exact Hpp).
    destruct (order_keeps flt part l st1 st' (place p) Hpl Hn Hne H x Hx) as (K1 & K2 & K3).
    destruct p as [n mode t|n b mode t]; cbn [made] in Hm; destruct Hm as [Hb Ha].
    + destruct (m_at st' (place (MDir n mode t))) as [y|] eqn:Ey; [|contradiction]. exists y. split; [reflexivity|]. destruct K3 as [K3 K4].
      split; [congruence|]. split; [split; [rewrite <- K4; apply Ha|discriminate]|]. intros Hall.
      assert (Some y = Some x) as Exy by (apply K2; intros p' Hp'; apply Hall; right; exact Hp'). injection Exy as ->. exact Ha.
    + exists x. split; [apply K1; congruence|]. auto.
  - destruct (IH st1 st' Hpl Hd' H p Hin) as (x & Hx & Hm). exists x. split; [exact Hx|]. destruct p; [|exact Hm].
    destruct Hm as (M1 & M2 & M3). split; [exact M1|]. split; [exact M2|]. intros Hall. apply M3. intros p' Hp'. apply Hall. right. exact Hp'.
Qed.

Lemma insert_mperm x l : Permutation (insert_mproc x l) (x :: l).
Proof.
  induction l as [|y l IH]; cbn [insert_mproc]; [apply Permutation_refl|]. destruct (proc_ltb (as_proc y) (as_proc x)); [|apply Permutation_refl].
  eapply perm_trans; [apply perm_skip; exact IH|apply perm_swap].
Qed.
Lemma sort_mperm l : Permutation (sort_mprocs l) l.
Proof. induction l as [|x l IH]; [apply Permutation_refl|]. cbn [sort_mprocs fold_right]. eapply perm_trans; [apply insert_mperm|apply perm_skip; exact IH]. Qed.

Lemma setup_made flt part ps st st' : apart ps -> msetup flt part st ps = (st', true) -> forall p, In p ps ->
  exists x, m_at st' (place p) = Some x /\
    match p with
    | MFile _ b mode t => mn_bytes x = Some b /\ as_asked mode t x
    | MDir _ mode t => mn_bytes x = None /\ as_asked mode None x /\ ((forall p', In p' ps -> ~ over (place p) (place p')) -> as_asked mode t x)
    end.
Proof.
  intros [Hp Hd] H p Hin. pose proof (sort_mperm ps) as Hs. pose proof (Permutation_sym Hs) as Hs'. unfold msetup in H.
  assert (Forall plainly_named (sort_mprocs ps)) as Hp' by (eapply Permutation_Forall; eauto).
  assert (NoDup (map place (sort_mprocs ps))) as Hd' by (eapply Permutation_NoDup; [apply Permutation_map; exact Hs'|exact Hd]).
  destruct (order_made _ _ _ _ _ Hp' Hd' H p (Permutation_in _ Hs' Hin)) as (x & Hx & Hm). exists x. split; [exact Hx|].
  destruct p; [|exact Hm]. destruct Hm as (M1 & M2 & M3). split; [exact M1|]. split; [exact M2|]. intros Hall. apply M3.
  intros p' Hp2. apply Hall. exact (Permutation_in _ Hs Hp2).
Qed.

Lemma order_rest flt part l : forall st st' ok q, Forall plainly_named l -> (forall p, In p l -> q <> place p /\ ~ over q (place p)) ->
  msetup_in_order flt part st l = (st', ok) -> m_at st' q = m_at st q.
Proof.
  induction l as [|p l IH]; intros st st' ok q Hp Hq H; cbn [msetup_in_order] in H; [injection H as <- _; reflexivity|].
  inversion Hp as [|? ? Hpp Hpl]; subst. destruct (msetup1 flt part st p) as [st1 ok1] eqn:E.
  destruct (step_frame _ _ _ _ _ _ Hpp E) as ([F1 _] & _). destruct (Hq p (or_introl eq_refl)) as [Q1 Q2]. specialize (F1 q Q1 Q2).
  destruct ok1; [|injection H as <- _; exact F1]. rewrite (IH st1 st' ok q Hpl (fun p' Hi => Hq p' (or_intror Hi)) H). exact F1.
Qed.

Lemma setup_rest flt part ps st st' ok q : Forall plainly_named ps -> (forall p, In p ps -> q <> place p /\ ~ over q (place p)) ->
  msetup flt part st ps = (st', ok) -> m_at st' q = m_at st q.
Proof.
  intros Hp Hq H. pose proof (sort_mperm ps) as Hs. unfold msetup in H. eapply order_rest; [| |exact H].
  - eapply Permutation_Forall; [apply Permutation_sym; exact Hs|exact Hp].
  - intros p Hi. apply Hq. exact (Permutation_in _ Hs Hi).
Qed.

Lemma setup_files flt part ps st st' n b mode t : apart ps -> msetup flt part st ps = (st', true) -> In (MFile n b mode t) ps ->
  exists x, m_at st' (split_sep n) = Some x /\ mn_bytes x = Some b /\ as_asked mode t x.
Proof. intros Ha H Hi. destruct (setup_made _ _ _ _ _ Ha H _ Hi) as (x & Hx & Hm). exists x. auto. Qed.
Lemma setup_dirs flt part ps st st' n mode t : apart ps -> msetup flt part st ps = (st', true) -> In (MDir n mode t) ps ->
  exists x, m_at st' (split_sep n) = Some x /\ mn_bytes x = None /\ as_asked mode None x.
Proof. intros Ha H Hi. destruct (setup_made _ _ _ _ _ Ha H _ Hi) as (x & Hx & M1 & M2 & _). exists x. auto. Qed.
Lemma setup_dir_times flt part ps st st' n mode t : apart ps -> msetup flt part st ps = (st', true) -> In (MDir n mode t) ps ->
  (forall p, In p ps -> ~ over (split_sep n) (place p)) ->
  exists x, m_at st' (split_sep n) = Some x /\ mn_bytes x = None /\ as_asked mode t x.
Proof. intros Ha H Hi Hno. destruct (setup_made _ _ _ _ _ Ha H _ Hi) as (x & Hx & M1 & _ & M3). exists x. split; [exact Hx|]. split; [exact M1|]. apply M3. exact Hno. Qed.
