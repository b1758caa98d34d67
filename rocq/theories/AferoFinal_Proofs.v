(* The statements of C70 in the words of Afero_Spec. *)
From Coq Require Import Permutation.
From Verif Require Import Common CommonLemmas ContentRange_Model PathLex_Model PathLex_Proofs Afero_Model Afero_Spec Afero_Proofs AferoOps_Proofs AferoCalls_Proofs AferoMore_Proofs AferoMove_Proofs AferoViews_Proofs.
Open Scope nat_scope.

Lemma names_unique s : reachable s -> unique (a_root s) /\ exists m, shows s [] = Some (DirEnt m).
Proof. intros H. destruct (reach_sound s H) as [U (m & es & E)]. split; [assumption|]. exists m. unfold shows. now rewrite E. Qed.

Lemma stat_all s p : reachable s -> ordinary p -> forall m, stat s (spell p) = inr m <->
  acceptable p /\ way_open s p /\ ((exists v, shows s p = Some (FileEnt m v)) \/ exists k, shows s p = Some (DirEnt k) /\ forall i, N.testbit m i = (i <? 9)%N && N.testbit k i || (i =? 31)%N).
Proof.
  intros _ Ho m. unfold stat. destruct (find s (spell p)) as [e|x] eqn:Ef.
  - split; [discriminate|]. intros (A & W & H). exfalso. assert (exists x, node_at (a_root s) p = Some x) as (x & Hx).
    { destruct H as [(v & H)|(k & H & _)]; [apply shows_file in H|apply shows_dir in H; destruct H as (es & H)]; eauto. }
    pose proof (proj2 (find_spec s p x Ho) (conj A (conj W Hx))). congruence.
  - apply find_spec in Ef; [|assumption]. destruct Ef as (A & W & Hx). unfold shows. rewrite entry_is, Hx.
    assert (forall k i, N.testbit (N.lor m_dir (perm_of k)) i = (i <? 9)%N && N.testbit k i || (i =? 31)%N) as Hb.
    { intros k i. unfold perm_of. rewrite N.lor_spec, N.land_spec, m_dir_bit, m_perm_bit, orb_comm. now rewrite (andb_comm (N.testbit k i)). }
    destruct x as [a v|a es]; cbn [stat_mode kind option_map]; split.
    + intros H. apply inr_inj in H. subst a. split; [assumption|]. split; [assumption|]. left. eauto.
    + intros (_ & _ & [(v' & H)|(k & H & _)]); [congruence|discriminate].
    + intros H. apply inr_inj in H. subst m. split; [assumption|]. split; [assumption|]. right. exists a. split; [reflexivity|]. apply Hb.
    + intros (_ & _ & [(v' & H)|(k & H & Hm)]); [discriminate|]. assert (a = k) as -> by congruence. f_equal. apply N.bits_inj. intros i. now rewrite Hb, Hm.
Qed.

Lemma firstn_app_l {A} n (a b : list A) : n <= length a -> firstn n (a ++ b) = firstn n a.
Proof. intros H. rewrite firstn_app. replace (n - length a) with 0 by lia. apply app_nil_r. Qed.
Lemma rename_same s o n c s' : reachable s -> ordinary (o ++ [c]) -> ordinary (n ++ [c]) -> o <> n ->
  rename s (spell (o ++ [c])) (spell (n ++ [c])) = (s', None) ->
  shows s (o ++ [c]) <> None /\ ~ below (o ++ [c]) (n ++ [c]) /\ replaceable s (o ++ [c]) (n ++ [c]) /\ writable_parent s o /\ writable_parent s n /\
  (forall r, shows s' ((n ++ [c]) ++ r) = shows s ((o ++ [c]) ++ r)) /\
  (forall r, shows s' ((o ++ [c]) ++ r) = None) /\
  (forall q, ~ below (n ++ [c]) q -> ~ below (o ++ [c]) q -> shows s' q = shows s q) /\
  a_views s' = a_views s /\ a_closed s' = a_closed s.
Proof.
  intros Hr Ho Hn Hne E. apply reach_sound in Hr. assert (o ++ [c] <> n ++ [c]) as Hne' by (intros H; apply app_inj_tail in H; tauto).
  destruct (rename_spec _ _ _ _ _ _ Hr Ho Hn Hne' E) as (W1 & W2 & P1 & P2 & X & B & R & I & G & O & V & C & _).
  split; [assumption|]. split; [assumption|]. split; [assumption|]. split; [assumption|]. split; [assumption|]. split; [assumption|]. split; [|split; [assumption|auto]].
  intros r. apply G; [|now exists r]. intros [t Ht].
  (* the new name would be an ancestor of the old one, so a directory with something in it *)
  assert (below (n ++ [c]) (o ++ [c])) as [k Hk].
  { destruct (Nat.le_gt_cases (length (n ++ [c])) (length (o ++ [c]))) as [L|L].
    - exists (skipn (length (n ++ [c])) (o ++ [c])). apply (f_equal (firstn (length (n ++ [c])))) in Ht.
      rewrite (firstn_app_l _ (o ++ [c]) r) in Ht by lia. rewrite (firstn_app_l _ (n ++ [c]) t), firstn_all in Ht by lia.
      rewrite <- Ht at 1. now rewrite firstn_skipn.
    - exfalso. apply B. exists (skipn (length (o ++ [c])) (n ++ [c])). apply (f_equal (firstn (length (o ++ [c])))) in Ht.
      rewrite (firstn_app_l _ (o ++ [c]) r), firstn_all in Ht by lia. rewrite (firstn_app_l _ (n ++ [c]) t) in Ht by lia.
      rewrite Ht at 1. now rewrite firstn_skipn. }
  destruct k as [|b k]; [rewrite app_nil_r in Hk; congruence|].
  assert (shows s ((n ++ [c]) ++ [b]) <> None) as Hd.
  { intros H. apply X. rewrite Hk. apply shows_none in H. apply shows_none. change (b :: k) with ([b] ++ k). rewrite app_assoc. now apply none_below. }
  destruct R as [R|[(m & v & m' & v' & _ & R)|(m & m' & _ & _ & R)]].
  - apply Hd. apply shows_none in R. apply shows_none. now apply none_below.
  - apply Hd. apply shows_file in R. apply shows_none. rewrite node_app, R. reflexivity.
  - apply Hd, R.
Qed.
Lemma rename_stays s o oc n nc s' : reachable s -> ordinary (o ++ [oc]) -> ordinary (n ++ [nc]) -> oc <> nc ->
  rename s (spell (o ++ [oc])) (spell (n ++ [nc])) = (s', None) ->
  (forall r, shows s' ((n ++ [oc]) ++ r) = shows s ((o ++ [oc]) ++ r)) /\ shows s' (n ++ [nc]) = shows s (n ++ [nc]).
Proof.
  intros Hr Ho Hn Hne E. apply reach_sound in Hr. assert (o ++ [oc] <> n ++ [nc]) as Hne' by (intros H; apply app_inj_tail in H; tauto).
  destruct (rename_spec _ _ _ _ _ _ Hr Ho Hn Hne' E) as (W1 & W2 & P1 & P2 & X & B & R & I & G & O & V & C & _).
  split; [assumption|]. apply O; [|assumption]. intros [t Ht]. rewrite <- app_assoc in Ht. apply app_inv_head in Ht. cbn in Ht. injection Ht as Ht _. congruence.
Qed.

Lemma add_file_all s p c v s' e : reachable s -> ordinary (p ++ [c]) -> add_file s (spell (p ++ [c])) v = (s', e) ->
  (forall q, ~ below q p -> ~ below (p ++ [c]) q -> shows s' q = shows s q) /\
  (forall q, below q p -> shows s' q = shows s q \/ shows s q = None /\ exists m, shows s' q = Some (DirEnt m) /\ masked (a_umask s) 511 m) /\
  (e = None ->
     (exists m, shows s' (p ++ [c]) = Some (FileEnt m (length (a_views s))) /\ (forall k, v_mode v = Some k -> m = k)) /\
     (forall b r, shows s' (p ++ [c] ++ b :: r) = None) /\ a_views s' = a_views s ++ [v] /\ writable_parent s' p /\
     (shows s (p ++ [c]) = None -> a_closed s' = a_closed s) /\
     (forall m w, shows s (p ++ [c]) = Some (FileEnt m w) -> a_closed s' = a_closed s ++ [w]) /\
     Permutation (account s') (length (a_views s) :: account s)) /\
  (e <> None -> (forall q, below (p ++ [c]) q -> shows s' q = shows s q) /\ a_closed s' = a_closed s).
Proof.
  intros Hr Ho E. apply reach_sound in Hr. destruct (add_file_spec _ _ _ _ _ _ Hr Ho E) as (F1 & F2 & F3 & F4 & F5).
  split; [assumption|]. split; [assumption|]. split; [|intros H; destruct (F5 H) as (A & B & _); auto].
  intros ->. destruct (F4 eq_refl) as (A & B & C & D & P). split; [assumption|]. split; [assumption|]. split; [|split; [assumption|split; [|split; [|assumption]]]].
  - apply F3. apply validate_ok; [assumption|]. unfold add_file in E. destruct (validate (spell (p ++ [c]))); [discriminate|reflexivity].
  - intros H. apply shows_none in H. unfold over in D. rewrite H, app_nil_r in D. exact D.
  - intros m w H. apply shows_file in H. unfold over in D. rewrite H in D. exact D.
Qed.

Lemma closed_once u a l : Forall calm l -> let s := arun (new_fs u a) l in NoDup (views_in (a_root s) ++ a_closed s).
Proof. intros H. apply (calm_run l H). apply new_settled. Qed.
Lemma not_lost s o : reachable s -> keeps o -> forall i, In i (views_in (a_root s)) -> In i (views_in (a_root (astep s o))) \/ In i (a_closed (astep s o)).
Proof.
  intros Hr Hk i Hi. apply reach_sound in Hr. assert (In i (account (astep s o))) as H by (apply (keeps_step s o Hk Hr); apply in_or_app; now left).
  apply in_app_or in H. exact H.
Qed.
