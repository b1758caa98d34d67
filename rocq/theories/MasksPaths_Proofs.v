(* C51: what reads the maps sees the same after a restart, and the strings stand for the
   component names of Overlay_Model. *)
From Verif Require Import Common CommonLemmas ContentRange_Model ContentRange_Proofs PathLex_Model PathLex_Proofs TempName_Model TempName_Proofs Overlay_Model Overlay_Proofs Masks_Model Masks_Spec Masks_Proofs.
From Coq Require Import Permutation.
Open Scope nat_scope.

(* Sorting forgets the order a map is walked in. *)
Lemma leb_antisym a : forall b, bytes_leb a b = true -> bytes_leb b a = true -> a = b.
Proof.
  induction a as [|x a IH]; intros [|y b] H1 H2; try discriminate; [reflexivity|]. cbn in *.
  destruct (N.ltb_spec x y), (N.eqb_spec x y), (N.ltb_spec y x), (N.eqb_spec y x); cbn in *; try discriminate; try lia.
  subst. f_equal. apply IH; assumption.
Qed.
Lemma leb_trans a : forall b c, bytes_leb a b = true -> bytes_leb b c = true -> bytes_leb a c = true.
Proof.
  induction a as [|x a IH]; intros [|y b] [|z c] H1 H2; try discriminate; try reflexivity. cbn in *.
  destruct (N.ltb_spec x y), (N.eqb_spec x y), (N.ltb_spec y z), (N.eqb_spec y z), (N.ltb_spec x z), (N.eqb_spec x z);
    cbn in *; try discriminate; try lia; try reflexivity.
  eapply IH; eassumption.
Qed.
Lemma insert_swap x y l : insert bytes_leb x (insert bytes_leb y l) = insert bytes_leb y (insert bytes_leb x l).
Proof.
  assert (A : forall r, bytes_leb x y = true -> bytes_leb y x = true -> x :: y :: r = y :: x :: r).
  { intros r H1 H2. rewrite (leb_antisym x y H1 H2). reflexivity. }
  induction l as [|z l IH]; cbn.
  - destruct (bytes_leb x y) eqn:E1, (bytes_leb y x) eqn:E2; auto.
    apply bytes_leb_total in E1. congruence.
  - destruct (bytes_leb x z) eqn:Xz, (bytes_leb y z) eqn:Yz; cbn; rewrite ?Xz, ?Yz.
    + destruct (bytes_leb x y) eqn:E1, (bytes_leb y x) eqn:E2; auto.
      apply bytes_leb_total in E1. congruence.
    + destruct (bytes_leb y x) eqn:E2; [|reflexivity]. rewrite (leb_trans y x z E2 Xz) in Yz. discriminate.
    + destruct (bytes_leb x y) eqn:E2; [|reflexivity]. rewrite (leb_trans x y z E2 Yz) in Xz. discriminate.
    + rewrite IH. reflexivity.
Qed.
Lemma isort_same a b : Permutation a b -> isort bytes_leb a = isort bytes_leb b.
Proof.
  intros H. induction H; cbn; [reflexivity| |apply insert_swap|]; congruence.
Qed.
Lemma perm_filter {A} (f : A -> bool) a b : Permutation a b -> Permutation (filter f a) (filter f b).
Proof.
  intros H. induction H; cbn; [constructor| | |].
  - destruct (f x); [constructor|]; assumption.
  - destruct (f x), (f y); try constructor; apply Permutation_refl.
  - etransitivity; eassumption.
Qed.
Lemma names_under_same d a b : NoDup a -> NoDup b -> same_names a b -> names_under d a = names_under d b.
Proof. intros Na Nb S. unfold names_under. apply isort_same, perm_filter. apply NoDup_Permutation; assumption. Qed.
Lemma memn_same n a b : same_names a b -> memn n a = memn n b.
Proof. intros S. apply eq_true_iff_eq. rewrite !memn_in. apply S. Qed.

(* Reads of two stacks of maps with the same marks agree. *)
Lemma nth_forall2 {A B} (R : A -> B -> Prop) l l' : Forall2 R l l' -> forall i,
  match nth_error l i, nth_error l' i with Some a, Some b => R a b | None, None => True | _, _ => False end.
Proof.
  intros H. induction H as [|x y l l' Hxy H IH]; intros [|i]; cbn; auto. apply IH.
Qed.
Lemma find_same {A} (f g : A -> bool) l : (forall x, f x = g x) -> find f l = find g l.
Proof. intros H. induction l as [|a l IH]; cbn; [reflexivity|]. rewrite H. destruct (g a); [reflexivity|exact IH]. Qed.
Lemma forall2_len {A B} (R : A -> B -> Prop) l l' : Forall2 R l l' -> length l = length l'.
Proof. intros H. induction H; cbn; congruence. Qed.

Lemma nmarked_same ms ms' n self i : Forall2 same_masks ms ms' -> nmarked ms n self i = nmarked ms' n self i.
Proof.
  intros H. pose proof (nth_forall2 _ _ _ H i) as G. unfold nmarked.
  destruct (nth_error ms i), (nth_error ms' i); try contradiction; [|reflexivity].
  destruct G as [G1 G2]. rewrite (memn_same n _ _ G1), (memn_same n _ _ G2). reflexivity.
Qed.
Lemma ncut_walk_same ms ms' : Forall2 same_masks ms ms' -> forall fuel from cut n self,
  ncut_walk fuel ms from cut n self = ncut_walk fuel ms' from cut n self.
Proof.
  intros H. induction fuel as [|f IH]; intros from cut n self; [reflexivity|]. cbn [ncut_walk].
  assert (E : ncut_step ms from cut n self = ncut_step ms' from cut n self).
  { unfold ncut_step. rewrite (find_same _ (nmarked ms' n self)); [reflexivity|]. intros i. apply nmarked_same. exact H. }
  rewrite E. destruct n; [reflexivity|apply IH].
Qed.
Lemma ncut_same ms ms' n from : Forall2 same_masks ms ms' -> ncut_from ms n from = ncut_from ms' n from.
Proof. intros H. unfold ncut_from. rewrite (forall2_len _ _ _ H). apply ncut_walk_same. exact H. Qed.
Lemma nchild_same ms ms' n : Forall2 same_masks ms ms' -> nchild_cut ms n = nchild_cut ms' n.
Proof.
  intros H. unfold nchild_cut. rewrite (ncut_same ms ms' n 0 H). destruct (ncut_from ms' n 0) as [c|]; [|reflexivity].
  rewrite (find_same _ (nopaquei ms' n)); [reflexivity|]. intros i. unfold nopaquei.
  pose proof (nth_forall2 _ _ _ H i) as G. destruct (nth_error ms i), (nth_error ms' i); try contradiction; [|reflexivity].
  apply memn_same. apply G.
Qed.
Lemma nabove_same ms ms' n : Forall2 same_masks ms ms' -> forall i, nwhiteout_above ms i n = nwhiteout_above ms' i n.
Proof.
  intros H. unfold nwhiteout_above. induction H as [|x y l l' Hxy H IH]; intros [|i]; cbn; try reflexivity.
  rewrite IH. destruct Hxy as [G _]. rewrite (memn_same n _ _ G). reflexivity.
Qed.

(* The walk up always reaches the root. *)
Lemma parent_shorter n : n <> [] -> length (parent_name n) < length n.
Proof.
  intros H. unfold parent_name. rewrite <- (join_split n) at 2. pose proof (split_nonempty n) as E.
  rewrite (app_removelast_last [] E) at 2. set (rl := removelast (split_sep n)). set (la := last (split_sep n) []).
  destruct rl as [|c rl'] eqn:R.
  - cbn. destruct la eqn:L; [|cbn; lia]. exfalso. apply H. rewrite <- (join_split n), (app_removelast_last [] E).
    fold rl. fold la. rewrite R, L. reflexivity.
  - rewrite join_app by discriminate. rewrite app_length. cbn. lia.
Qed.
Lemma ncut_total ms : forall fuel from cut n self, length n < fuel -> ncut_walk fuel ms from cut n self <> None.
Proof.
  induction fuel as [|f IH]; intros from cut n self L; [lia|]. cbn [ncut_walk].
  destruct n as [|b n]; [discriminate|]. apply IH. pose proof (parent_shorter (b :: n)) as P.
  assert (length (parent_name (b :: n)) < length (b :: n)) by (apply P; discriminate). lia.
Qed.

(* Component names and their strings. *)
Lemma key_join p : key p = join_sep (rev p).
Proof. unfold key. induction (rev p) as [|c l IH]; [reflexivity|]. cbn. destruct l; [reflexivity|]. rewrite IH. reflexivity. Qed.
Lemma nameable_rev p : nameable p -> Forall proper (rev p).
Proof. intros H. apply Forall_rev. exact H. Qed.
Lemma join_nonempty l : Forall proper l -> l <> [] -> join_sep l <> [].
Proof.
  intros H E. destruct l as [|c l]; [contradiction|]. inversion H as [|? ? Hc _]; subst. destruct Hc as [Hc _].
  destruct c as [|x c]; [contradiction|]. destruct l; discriminate.
Qed.
Lemma join_inj a b : Forall proper a -> Forall proper b -> join_sep a = join_sep b -> a = b.
Proof.
  intros Ha Hb E. destruct a as [|x a], b as [|y b]; [reflexivity| | |].
  - exfalso. symmetry in E. revert E. apply join_nonempty; [exact Hb|discriminate].
  - exfalso. revert E. apply join_nonempty; [exact Ha|discriminate].
  - rewrite <- (split_join (x :: a)), <- (split_join (y :: b)); try discriminate; try (apply proper_sepfree; assumption).
    rewrite E. reflexivity.
Qed.
Lemma key_inj p q : nameable p -> nameable q -> key p = key q -> p = q.
Proof.
  intros Hp Hq. rewrite !key_join. intros E. apply join_inj in E; [|apply nameable_rev; assumption..].
  rewrite <- (rev_involutive p), <- (rev_involutive q), E. reflexivity.
Qed.
Lemma key_nil p : nameable p -> key p = [] -> p = [].
Proof. intros Hp E. apply key_inj; [exact Hp|constructor|exact E]. Qed.
Lemma clean_key p : nameable p -> clean_name (key p) = key p.
Proof. intros H. rewrite key_join. apply clean_name_join, nameable_rev, H. Qed.
Lemma key_app r p : r <> [] -> p <> [] -> key (r ++ p) = key p ++ sep :: key r.
Proof.
  intros Hr Hp. rewrite !key_join, rev_app_distr. apply join_app.
  - intros E. apply Hp. rewrite <- (rev_involutive p), E. reflexivity.
  - intros E. apply Hr. rewrite <- (rev_involutive r), E. reflexivity.
Qed.
Lemma key_child r p : r <> [] -> nameable r -> nameable p -> child_name (key p) (key r) = key (r ++ p).
Proof.
  intros Hr Nr Np. destruct p as [|c p]; [rewrite app_nil_r; reflexivity|].
  rewrite key_app by (try exact Hr; discriminate). unfold child_name.
  destruct (key r) eqn:Er; [exfalso; apply Hr, key_nil; assumption|].
  destruct (key (c :: p)) eqn:Ep; [|reflexivity]. apply key_nil in Ep; [discriminate|exact Np].
Qed.
Lemma key_parent c p : nameable (c :: p) -> parent_name (key (c :: p)) = key p.
Proof.
  intros H. unfold parent_name. rewrite !key_join. cbn [rev].
  rewrite split_join; [rewrite removelast_last; reflexivity|destruct (rev p); discriminate|].
  apply proper_sepfree. exact (nameable_rev _ H).
Qed.
Lemma key_longer p : nameable p -> length p <= length (key p).
Proof.
  induction p as [|c p IH]; intros H; [cbn; lia|]. inversion H as [|? ? Hc Hp]; subst. specialize (IH Hp).
  destruct p as [|d p].
  - destruct Hc as [Hc _]. cbn. destruct c; [contradiction|cbn; lia].
  - change (c :: d :: p) with ([c] ++ (d :: p)). rewrite key_app by discriminate. rewrite !app_length. cbn [length] in *. lia.
Qed.

(* Below, on strings and on components. *)
Lemma nameable_app r p : nameable (r ++ p) -> nameable r /\ nameable p.
Proof. intros H. apply Forall_app in H. exact H. Qed.
Lemma head_not_sep p : nameable p -> has_prefix [sep] (key p) = false.
Proof.
  intros H. apply not_true_iff_false. intros E. apply has_prefix_iff in E. destruct E as [r E].
  rewrite key_join in E. apply nameable_rev in H. destruct (rev p) as [|c l]; [discriminate|].
  inversion H as [|? ? Hc _]; subst. destruct Hc as (Hc & _ & _ & Hs). destruct c as [|x c]; [contradiction|].
  apply Hs. left. destruct l; cbn in E; congruence.
Qed.
Lemma below_iff p q : below p q = true <-> exists r, r <> [] /\ q = r ++ p.
Proof.
  rewrite (below_strict p q). split.
  - intros (c & r & ->). exists (c :: r). split; [discriminate|reflexivity].
  - intros (r & Hr & ->). destruct r as [|c r]; [contradiction|]. exists c, r. reflexivity.
Qed.
Lemma key_below p q : nameable p -> nameable q -> under (key p) (key q) = below p q.
Proof.
  intros Hp Hq. apply eq_true_iff_eq. rewrite (below_iff p q). unfold under.
  rewrite andb_true_iff, negb_true_iff, beq_neq, has_prefix_iff. split.
  - intros [Hn [r E]]. destruct p as [|c p].
    + exists q. rewrite app_nil_r. split; [|reflexivity]. intros ->. apply Hn. reflexivity.
    + assert (Hk : key (c :: p) <> []) by (intros E'; apply key_nil in E'; [discriminate|exact Hp]).
      destruct (key (c :: p)) as [|x k] eqn:Ek; [contradiction|]. rewrite <- Ek in *. clear Hk x k Ek.
      rewrite <- app_assoc in E. cbn [app] in E. rewrite !key_join in E.
      assert (Hrq : rev q <> []) by (intros E'; rewrite E' in E; destruct (join_sep (rev (c :: p))); discriminate).
      assert (Hrp : rev (c :: p) <> []) by (cbn; destruct (rev p); discriminate).
      apply (f_equal split_sep) in E. rewrite split_app_gen in E.
      rewrite !split_join in E by (try assumption; apply proper_sepfree, nameable_rev; assumption).
      exists (rev (split_sep r)). apply (f_equal (@rev _)) in E. rewrite rev_app_distr, !rev_involutive in E. split; [|exact E].
      intros E'. rewrite E' in E. apply Hn. rewrite E. reflexivity.
  - intros (r & Hr & E). subst q. split.
    + intros E. apply key_inj in E; [|assumption..]. apply (f_equal (@length _)) in E. rewrite app_length in E.
      destruct r; [contradiction|cbn in E; lia].
    + destruct p as [|c p]; [exists (key (r ++ [])); reflexivity|].
      destruct (key (c :: p)) as [|x k] eqn:Ek; [apply key_nil in Ek; [discriminate|exact Hp]|]. rewrite <- Ek.
      exists (key r). rewrite key_app by (try exact Hr; discriminate). rewrite <- app_assoc. reflexivity.
Qed.
Lemma key_rebase o n q : nameable o -> nameable n -> nameable q -> below o q = true ->
  rebase_name (key o) (key n) (key q) = key (rebase o n q).
Proof.
  intros Ho Hn Hq B. apply below_iff in B. destruct B as (r & Hr & ->).
  destruct (nameable_app _ _ Hq) as [Nr _]. unfold rebase, rebase_name.
  rewrite app_length. replace (length r + length o - length o) with (length r) by lia. rewrite firstn_app, Nat.sub_diag, firstn_all. cbn [firstn].
  rewrite app_nil_r. rewrite <- (key_child r n) by assumption. f_equal.
  destruct o as [|c o].
  - rewrite ?app_nil_r. unfold trim_prefix at 2. cbn. unfold trim_prefix. rewrite head_not_sep by exact Nr. reflexivity.
  - rewrite key_app by (try exact Hr; discriminate). unfold trim_prefix at 2.
    replace (has_prefix _ _) with true by (symmetry; apply has_prefix_iff; eexists; reflexivity).
    rewrite skipn_app, skipn_all, Nat.sub_diag. cbn [skipn app]. unfold trim_prefix, has_prefix. cbn [length firstn].
    rewrite beq_refl. reflexivity.
Qed.
Lemma nameable_rebase o n q : nameable n -> nameable q -> nameable (rebase o n q).
Proof.
  intros Hn Hq. unfold rebase, nameable in *. apply Forall_app. split; [|exact Hn].
  rewrite <- (firstn_skipn (length q - length o) q) in Hq. apply Forall_app in Hq. tauto.
Qed.

(* What reads the maps of a stack reads the marks of Overlay_Model. *)
Lemma stands_mem ps ns p : stands ps ns -> nameable p -> memn (key p) ns = memp p ps.
Proof.
  intros (_ & Np & _ & S) Hp. apply eq_true_iff_eq. rewrite memn_in, (S (key p)), in_map_iff.
  unfold memp. rewrite existsb_exists. split.
  - intros (q & E & Hq). exists q. split; [exact Hq|]. apply path_eqb_eq. rewrite Forall_forall in Np.
    apply key_inj; [exact Hp|apply Np; exact Hq|auto].
  - intros (q & Hq & E). apply path_eqb_eq in E. subst q. exists p. auto.
Qed.
Lemma nmarked_key ls ms p self i : Forall2 stands_layer ls ms -> nameable p -> nmarked ms (key p) self i = markedi ls p self i.
Proof.
  intros H Hp. pose proof (nth_forall2 _ _ _ H i) as G. unfold nmarked, markedi.
  destruct (nth_error ls i), (nth_error ms i); try contradiction; [|reflexivity].
  destruct G as [G1 G2]. unfold marked, whb, opb. rewrite (stands_mem _ _ _ G1 Hp), (stands_mem _ _ _ G2 Hp). reflexivity.
Qed.
Lemma ncut_step_key ls ms from cut p self : Forall2 stands_layer ls ms -> nameable p -> ncut_step ms from cut (key p) self = cut_step ls from cut p self.
Proof.
  intros H Hp. unfold ncut_step, cut_step. rewrite (find_same _ (markedi ls p self)); [reflexivity|].
  intros i. apply nmarked_key; assumption.
Qed.
Lemma ncut_walk_key ls ms : Forall2 stands_layer ls ms -> forall p fuel from cut self, nameable p -> length p < fuel ->
  ncut_walk fuel ms from cut (key p) self = Some (cut_walk ls from cut p self).
Proof.
  intros H. induction p as [|c p IH]; intros fuel from cut self Hp L; (destruct fuel as [|f]; [cbn in L; lia|]); cbn [ncut_walk cut_walk]; rewrite (ncut_step_key ls ms) by assumption.
  - reflexivity.
  - destruct (key (c :: p)) as [|x k] eqn:Ek; [apply key_nil in Ek; [discriminate|exact Hp]|]. rewrite <- Ek.
    rewrite key_parent by exact Hp. apply IH; [inversion Hp; assumption|cbn in L; lia].
Qed.
Lemma ncut_key ls ms p from : Forall2 stands_layer ls ms -> nameable p -> ncut_from ms (key p) from = Some (cut_from ls p from).
Proof.
  intros H Hp. unfold ncut_from, cut_from. rewrite <- (forall2_len _ _ _ H). apply ncut_walk_key; [exact H|exact Hp|].
  pose proof (key_longer p Hp). lia.
Qed.
Lemma nchild_key ls ms p : Forall2 stands_layer ls ms -> nameable p -> nchild_cut ms (key p) = Some (child_cut ls p).
Proof.
  intros H Hp. unfold nchild_cut, child_cut. rewrite (ncut_key ls ms p 0 H Hp).
  rewrite (find_same _ (opaquei ls p)); [reflexivity|]. intros i. unfold nopaquei, opaquei.
  pose proof (nth_forall2 _ _ _ H i) as G. destruct (nth_error ls i), (nth_error ms i); try contradiction; [|reflexivity].
  apply stands_mem; [apply G|exact Hp].
Qed.
Lemma nabove_key ls ms p : Forall2 stands_layer ls ms -> nameable p -> forall i, nwhiteout_above ms i (key p) = whiteout_above ls i p.
Proof.
  intros H Hp. unfold nwhiteout_above, whiteout_above. induction H as [|x y l l' Hxy H IH]; intros [|i]; cbn; try reflexivity.
  rewrite IH. destruct Hxy as [G _]. rewrite (stands_mem _ _ _ G Hp). reflexivity.
Qed.

(* The lists of marks below a name. *)
Lemma filter_map_key p l : nameable p -> Forall nameable l -> filter (under (key p)) (map key l) = map key (filter (below p) l).
Proof.
  intros Hp H. induction H as [|q l Hq H IH]; [reflexivity|]. cbn. rewrite key_below by assumption.
  destruct (below p q); cbn; rewrite IH; reflexivity.
Qed.
Lemma insert_key p l : insert bytes_leb (key p) (map key l) = map key (insert leb_path p l).
Proof. induction l as [|q l IH]; [reflexivity|]. cbn. unfold leb_path at 1. destruct (bytes_leb (key p) (key q)); cbn; [reflexivity|]. rewrite IH. reflexivity. Qed.
Lemma isort_key l : isort bytes_leb (map key l) = map key (isort leb_path l).
Proof. induction l as [|q l IH]; [reflexivity|]. cbn. rewrite IH. apply insert_key. Qed.
Lemma map_key_nodup l : Forall nameable l -> NoDup l -> NoDup (map key l).
Proof.
  intros H N. induction N as [|q l Hq N IH]; cbn; [constructor|]. inversion H as [|? ? Nq Nl]; subst.
  constructor; [|auto]. intros Hi. apply in_map_iff in Hi. destruct Hi as (r & E & Hr). apply Hq.
  rewrite Forall_forall in Nl. rewrite (key_inj q r Nq (Nl r Hr)); auto.
Qed.
Lemma names_under_key ps ns p : stands ps ns -> nameable p -> names_under (key p) ns = map key (marks_below p ps).
Proof.
  intros (N & Np & Nn & S) Hp. rewrite (names_under_same _ ns (map key ps)); [|exact Nn|apply map_key_nodup; assumption|exact S].
  unfold names_under, marks_below. rewrite filter_map_key by assumption. apply isort_key.
Qed.
Lemma marks_below_nameable ps ns p : stands ps ns -> Forall (fun q => nameable q /\ below p q = true) (marks_below p ps).
Proof.
  intros (_ & Np & _). rewrite Forall_forall in *. intros q Hq. unfold marks_below in Hq. apply isort_in, filter_In in Hq.
  split; [apply Np|]; tauto.
Qed.

(* The setters. *)
Lemma within_or p q : within p q = path_eqb p q || below p q.
Proof. unfold below. destruct (path_eqb p q) eqn:E; cbn; [|rewrite andb_true_r; reflexivity]. apply path_eqb_eq in E. subst. apply within_refl. Qed.
Lemma stands_del ps ns p : stands ps ns -> nameable p -> stands (filter (fun q => negb (path_eqb p q)) ps) (del_name (key p) ns).
Proof.
  intros (N & Np & Nn & S) Hp. split; [apply NoDup_filter, N|]. split; [|split; [apply NoDup_filter, Nn|]].
  - rewrite Forall_forall in *. intros q Hq. apply Np. apply filter_In in Hq. tauto.
  - rewrite Forall_forall in Np. intros n. rewrite del_in, (S n), !in_map_iff. split.
    + intros [(q & <- & Hq) Hn]. exists q. split; [reflexivity|]. apply filter_In. split; [exact Hq|].
      apply negb_true_iff, path_eqb_neq. intros ->. apply Hn. reflexivity.
    + intros (q & <- & Hq). apply filter_In in Hq. destruct Hq as [Hq E]. split; [exists q; auto|].
      apply negb_true_iff, path_eqb_neq in E. intros E'. apply E. symmetry. apply key_inj; auto.
Qed.
Lemma stands_add ps ns p : stands ps ns -> nameable p -> stands (p :: filter (fun q => negb (path_eqb p q)) ps) (add_name (key p) ns).
Proof.
  intros H Hp. destruct (stands_del ps ns p H Hp) as (N & Np & _ & S). destruct H as (_ & _ & Nn & S0).
  split; [|split; [constructor; assumption|split; [apply add_nodup, Nn|]]].
  - constructor; [|exact N]. intros Hi. apply filter_In in Hi. destruct Hi as [_ E]. rewrite path_eqb_refl in E. discriminate.
  - intros n. rewrite add_in. cbn [map In]. rewrite <- (S n), del_in. split.
    + intros [-> | Hn]; [auto|]. destruct (beq_cases n (key p)) as [[E _]|[E _]]; auto.
    + intros [<- | [Hn _]]; auto.
Qed.
Lemma stands_drop ps ns p : stands ps ns -> nameable p -> stands (filter (fun q => negb (below p q)) ps) (filter (fun x => negb (under (key p) x)) ns).
Proof.
  intros (N & Np & Nn & S) Hp. split; [apply NoDup_filter, N|]. split; [|split; [apply NoDup_filter, Nn|]].
  - rewrite Forall_forall in *. intros q Hq. apply Np. apply filter_In in Hq. tauto.
  - rewrite Forall_forall in Np. intros n. rewrite drop_in, (S n), !in_map_iff. split.
    + intros [(q & <- & Hq) Hn]. exists q. split; [reflexivity|]. apply filter_In. split; [exact Hq|].
      rewrite key_below in Hn by auto. rewrite Hn. reflexivity.
    + intros (q & <- & Hq). apply filter_In in Hq. destruct Hq as [Hq E]. split; [exists q; auto|].
      rewrite key_below by auto. apply negb_true_iff. exact E.
Qed.
Lemma filter_twice {A} (f g h : A -> bool) l : (forall x, h x = f x && g x) -> filter h l = filter g (filter f l).
Proof. intros H. induction l as [|a l IH]; [reflexivity|]. cbn. rewrite H. destruct (f a); cbn; [destruct (g a); rewrite IH; reflexivity|exact IH]. Qed.
Lemma within_split p l : filter (fun q => negb (within p q)) l = filter (fun q => negb (below p q)) (filter (fun q => negb (path_eqb p q)) l).
Proof. apply filter_twice. intros q. rewrite within_or, negb_orb. reflexivity. Qed.
Lemma below_irrefl p : below p p = false.
Proof. unfold below. rewrite path_eqb_refl, andb_false_r. reflexivity. Qed.

Lemma layer_set_wh l m p : stands_layer l m -> nameable p -> stands_layer (m_set_wh p l) (mk_set_wh (key p) m).
Proof.
  intros [S1 S2] Hp. split; cbn [m_set_wh mk_set_wh drop_subtree l_wh l_op m_wh m_op]; rewrite within_split.
  - pose proof (stands_drop _ _ p (stands_add _ _ p S1 Hp) Hp) as H. cbn [filter] in H. rewrite below_irrefl in H. exact H.
  - apply stands_drop; [apply stands_del|]; assumption.
Qed.
Lemma layer_clear_wh l m p : stands_layer l m -> nameable p -> stands_layer (m_clear_wh p l) (mk_clear_wh (key p) m).
Proof. intros [S1 S2] Hp. split; [apply stands_del; assumption|exact S2]. Qed.
Lemma layer_set_op l m p : stands_layer l m -> nameable p -> stands_layer (m_set_op p l) (mk_set_op (key p) m).
Proof. intros [S1 S2] Hp. split; [exact S1|apply stands_add; assumption]. Qed.
Lemma layer_clear_op l m p : stands_layer l m -> nameable p -> stands_layer (m_clear_op p l) (mk_clear_op (key p) m).
Proof. intros [S1 S2] Hp. split; [exact S1|apply stands_del; assumption]. Qed.

(* The calls, step by step: [a] on strings goes through the stacks [e] goes through. *)
Definition tracks_at (a : act) (e : eff) (s : stack) : Prop :=
  let '(tr, s', err) := e in
  err = None /\ s' = last tr s /\ forall w k, stands_top s (mem w) ->
  if k <? length tr
  then snd (a w k) = None /\ stands_top (nth k (s :: tr) s') (mem (fst (a w k)))
  else snd (a w k) = Some (k - length tr) /\ stands_top s' (mem (fst (a w k))).

Lemma last_d {A} (x : A) a d : last (x :: a) d = last a x.
Proof.
  revert x. induction a as [|y a IH]; intros x; [reflexivity|].
  transitivity (last (y :: a) d); [reflexivity|]. rewrite (IH y).
  transitivity (last (y :: a) x); [|reflexivity]. clear IH. destruct a as [|z a]; [reflexivity|].
  revert z. induction a as [|u a IH]; intros z; [reflexivity|]. exact (IH u).
Qed.
Lemma last_app_d {A} (a b : list A) d : last (a ++ b) d = last b (last a d).
Proof. revert d. induction a as [|x a IH]; intros d; [reflexivity|]. cbn [app]. rewrite !last_d. apply IH. Qed.
Lemma nth_past {A} (s d : A) t1 t2 j : nth (length t1 + j) (s :: t1 ++ t2) d = nth j (last t1 s :: t2) d.
Proof.
  revert s. induction t1 as [|x t1 IH]; intros s; [reflexivity|]. cbn [length plus app nth].
  rewrite last_d. apply (IH x).
Qed.
Lemma nth_before {A} (s d d' : A) t1 t2 k : k < length t1 -> nth k (s :: t1 ++ t2) d = nth k (s :: t1) d'.
Proof.
  intros H. change (s :: t1 ++ t2) with ((s :: t1) ++ t2). rewrite app_nth1 by (cbn; lia). apply nth_indep. cbn. lia.
Qed.
Lemma tracks_bind a1 a2 e1 e2 s : tracks_at a1 e1 s -> tracks_at a2 (e2 (snd (fst e1))) (snd (fst e1)) -> tracks_at (thn a1 a2) (bind e1 e2) s.
Proof.
  intros H1 H2. unfold bind, thn, tracks_at in *. destruct e1 as [[t1 s1] r1].
  destruct H1 as (-> & L1 & G1). cbn [fst snd] in H2. destruct (e2 s1) as [[t2 s2] r2].
  destruct H2 as (-> & L2 & G2). split; [reflexivity|]. split; [rewrite last_app_d, <- L1; exact L2|].
  intros w k S. specialize (G1 w k S). rewrite app_length. destruct (k <? length t1) eqn:K.
  - apply Nat.ltb_lt in K. destruct G1 as [G1 G1']. destruct (a1 w k) as [w1 [k1|]]; cbn [fst snd] in *; [discriminate|].
    replace (k <? length t1 + length t2) with true by (symmetry; apply Nat.ltb_lt; lia).
    split; [reflexivity|]. rewrite (nth_before s s2 s1) by exact K. exact G1'.
  - apply Nat.ltb_ge in K. destruct G1 as [G1 G1']. destruct (a1 w k) as [w1 [k1|]]; cbn [fst snd] in *; [|discriminate].
    apply some_inj in G1. specialize (G2 w1 k1 G1'). subst k1.
    destruct (k - length t1 <? length t2) eqn:K2; [apply Nat.ltb_lt in K2|apply Nat.ltb_ge in K2].
    + replace (k <? length t1 + length t2) with true by (symmetry; apply Nat.ltb_lt; lia).
      destruct G2 as [G2 G2']. split; [exact G2|]. replace k with (length t1 + (k - length t1)) at 1 by lia.
      rewrite nth_past, <- L1. exact G2'.
    + replace (k <? length t1 + length t2) with false by (symmetry; apply Nat.ltb_ge; lia).
      destruct G2 as [G2 G2']. split; [rewrite G2; f_equal; lia|exact G2'].
Qed.
Lemma tracks_ret s : tracks_at done (ret s) s.
Proof. cbn. split; [reflexivity|]. split; [reflexivity|]. intros w k S. split; [f_equal; lia|exact S]. Qed.
Lemma tracks_commit b f g h s : (forall l m, stands_layer l m -> stands_layer (h l) (g m)) -> tracks_at (commit b f g) (step (on_top h s)) s.
Proof.
  intros H. cbn. split; [reflexivity|]. split; [reflexivity|]. intros w k S. destruct k as [|k]; cbn.
  - split; [reflexivity|exact S].
  - split; [f_equal; lia|]. destruct s as [|l r]; [contradiction|]. cbn. apply H. exact S.
Qed.
Lemma tracks_each f g l : (forall q, In q l -> forall s, tracks_at (f (key q)) (g q s) s) -> forall s, tracks_at (each f (map key l)) (for_each g l s) s.
Proof.
  induction l as [|q l IH]; intros H s; cbn [map each for_each]; [apply tracks_ret|].
  apply tracks_bind; [apply H; left; reflexivity|]. apply IH. intros q' Hq. apply H. right. exact Hq.
Qed.
Lemma tracks_set_wh b p s : nameable p -> tracks_at (a_set_wh b (key p)) (set_whiteout p s) s.
Proof. intros Hp. unfold a_set_wh. rewrite clean_key by exact Hp. apply tracks_commit. intros l m S. apply layer_set_wh; assumption. Qed.
Lemma tracks_clear_wh b p s : nameable p -> tracks_at (a_clear_wh b (key p)) (clear_whiteout p s) s.
Proof. intros Hp. unfold a_clear_wh. rewrite clean_key by exact Hp. apply tracks_commit. intros l m S. apply layer_clear_wh; assumption. Qed.
Lemma tracks_set_op b p s : nameable p -> tracks_at (a_set_op b (key p)) (set_opaque p s) s.
Proof. intros Hp. unfold a_set_op. rewrite clean_key by exact Hp. apply tracks_commit. intros l m S. apply layer_set_op; assumption. Qed.
Lemma tracks_clear_op b p s : nameable p -> tracks_at (a_clear_op b (key p)) (clear_opaque p s) s.
Proof. intros Hp. unfold a_clear_op. rewrite clean_key by exact Hp. apply tracks_commit. intros l m S. apply layer_clear_op; assumption. Qed.

(* An action that looks at the maps first. *)
Lemma tracks_look a a' e s : tracks_at a e s -> (forall w k, stands_top s (mem w) -> a' w k = a w k) -> tracks_at a' e s.
Proof.
  intros H E. unfold tracks_at in *. destruct e as [[tr s'] err]. destruct H as (H1 & H2 & H3).
  split; [exact H1|]. split; [exact H2|]. intros w k S. rewrite (E w k S). exact (H3 w k S).
Qed.
Lemma tracks_guard (c : mask -> bool) (d : stack -> bool) a e s : (forall m, stands_top s m -> c m = d s) -> tracks_at a e s ->
  tracks_at (fun w => if c (mem w) then a w else done w) (if d s then e else ret s) s.
Proof.
  intros H G. destruct (d s) eqn:D.
  - apply (tracks_look a); [exact G|]. intros w k S. rewrite (H _ S). reflexivity.
  - apply (tracks_look done); [apply tracks_ret|]. intros w k S. rewrite (H _ S). reflexivity.
Qed.
Lemma tracks_guard_wh b p s : nameable p ->
  tracks_at (fun w => if memn (key p) (m_wh (mem w)) then a_clear_wh b (key p) w else done w) (if topi whb s p then clear_whiteout p s else ret s) s.
Proof.
  intros Hp. apply (tracks_guard (fun m => memn (key p) (m_wh m)) (fun s => topi whb s p)); [|apply tracks_clear_wh; exact Hp].
  intros m S. destruct s as [|l r]; [contradiction|]. apply stands_mem; [apply S|exact Hp].
Qed.
Lemma tracks_guard_op b p s : nameable p ->
  tracks_at (fun w => if memn (key p) (m_op (mem w)) then a_clear_op b (key p) w else done w) (if topi opb s p then clear_opaque p s else ret s) s.
Proof.
  intros Hp. apply (tracks_guard (fun m => memn (key p) (m_op m)) (fun s => topi opb s p)); [|apply tracks_clear_op; exact Hp].
  intros m S. destruct s as [|l r]; [contradiction|]. apply stands_mem; [apply S|exact Hp].
Qed.

Lemma tracks_empty a e : tracks_at a e [] <-> (let '(tr, s', err) := e in err = None /\ s' = last tr []).
Proof.
  unfold tracks_at. destruct e as [[tr s'] err]. split; [tauto|]. intros [H1 H2]. split; [exact H1|]. split; [exact H2|].
  intros w k [].
Qed.
Definition nameables (l : list path) : Prop := Forall nameable l.
Lemma masked_key s m p : stands_top s m -> nameable p -> masked_under m (key p) = (map key (marks_below p (top_wh s)), map key (marks_below p (top_op s))).
Proof.
  destruct s as [|l r]; [intros []|]. intros [S1 S2] Hp. unfold masked_under. rewrite (names_under_key _ _ p S1 Hp), (names_under_key _ _ p S2 Hp). reflexivity.
Qed.
Lemma below_marks s m p : stands_top s m ->
  (forall q, In q (marks_below p (top_wh s)) -> nameable q /\ below p q = true) /\
  (forall q, In q (marks_below p (top_op s)) -> nameable q /\ below p q = true).
Proof.
  destruct s as [|l r]; [intros []|]. intros [S1 S2]. split; intros q Hq.
  - pose proof (marks_below_nameable _ _ p S1) as F. rewrite Forall_forall in F. auto.
  - pose proof (marks_below_nameable _ _ p S2) as F. rewrite Forall_forall in F. auto.
Qed.
Lemma clear_wh_op l : forall s, top_op (snd (fst (for_each (fun q s => if topi whb s q then clear_whiteout q s else ret s) l s))) = top_op s.
Proof.
  induction l as [|q l IH]; intros s; cbn [for_each]; [reflexivity|].
  set (e := if topi whb s q then clear_whiteout q s else ret s).
  assert (H : snd e = None /\ top_op (snd (fst e)) = top_op s) by (unfold e; destruct (topi whb s q); split; try reflexivity; destruct s; reflexivity).
  destruct H as [H1 H2]. destruct e as [[t s1] r1]. cbn [fst snd] in *. subst r1. unfold bind. specialize (IH s1).
  destruct (for_each _ l s1) as [[t2 s2] r2]. cbn [fst snd] in *. congruence.
Qed.
Lemma tracks_clear_subtree b p s m : nameable p -> stands_top s m -> tracks_at (a_clear_subtree b (key p)) (clear_subtree p s) s.
Proof.
  intros Hp Sm. destruct (below_marks s m p Sm) as [Bw Bo].
  eapply tracks_look; [|intros w k S; unfold a_clear_subtree; rewrite clean_key by exact Hp; rewrite (masked_key s _ p S Hp); reflexivity].
  unfold clear_subtree. change [key p] with (map key [p]). rewrite <- !map_app.
  apply tracks_bind.
  - apply (tracks_each (fun x w => if memn x (m_wh (mem w)) then a_clear_wh b x w else done w)).
    intros q Hq s'. apply tracks_guard_wh. apply in_app_iff in Hq. destruct Hq as [Hq|[<- | []]]; [apply Bw; exact Hq|exact Hp].
  - rewrite clear_wh_op.
    apply (tracks_each (fun x w => if memn x (m_op (mem w)) then a_clear_op b x w else done w)).
    intros q Hq s''. apply tracks_guard_op. apply in_app_iff in Hq. destruct Hq as [Hq|[<- | []]]; [apply Bo; exact Hq|exact Hp].
Qed.
Lemma tracks_rename_subtree b o n s m : nameable o -> nameable n -> stands_top s m -> tracks_at (a_rename_subtree b (key o) (key n)) (rename_subtree o n s) s.
Proof.
  intros Ho Hn Sm. destruct (below_marks s m o Sm) as [Bw Bo].
  eapply tracks_look; [|intros w k S; unfold a_rename_subtree; rewrite !clean_key by assumption; rewrite (masked_key s _ o S Ho); reflexivity].
  unfold rename_subtree. apply tracks_bind; [|apply tracks_bind; [|apply tracks_bind]].
  - apply (tracks_each (fun x => a_set_wh b (rebase_name (key o) (key n) x))). intros q Hq s'. destruct (Bw q Hq) as [Nq Bq].
    rewrite key_rebase by assumption. apply tracks_set_wh. apply nameable_rebase; assumption.
  - apply (tracks_each (fun x => a_set_op b (rebase_name (key o) (key n) x))). intros q Hq s'. destruct (Bo q Hq) as [Nq Bq].
    rewrite key_rebase by assumption. apply tracks_set_op. apply nameable_rebase; assumption.
  - apply tracks_each. intros q Hq s'. apply tracks_clear_wh. apply Bw. exact Hq.
  - apply tracks_each. intros q Hq s'. apply tracks_clear_op. apply Bo. exact Hq.
Qed.

Lemma calls_track b c s m : Forall nameable (pcall_names c) -> stands_top s m -> tracks_at (run_mcall b (spelled c)) (run_pcall c s) s.
Proof.
  intros H S. destruct c as [p|p|p|p|p|o n]; cbn [pcall_names run_pcall spelled run_mcall] in *; rewrite Forall_forall in H; cbn in H.
  - apply tracks_set_wh; auto.
  - apply tracks_clear_wh; auto.
  - apply tracks_set_op; auto.
  - apply tracks_clear_op; auto.
  - apply (tracks_clear_subtree b p s m); auto.
  - apply (tracks_rename_subtree b o n s m); auto.
Qed.
Lemma calls_stand b c s w k : Forall nameable (pcall_names c) -> stands_top s (mem w) ->
  snd (run_pcall c s) = None /\
  stands_top (after_steps s (run_pcall c s) k) (mem (fst (run_mcall b (spelled c) w k))) /\
  (snd (run_mcall b (spelled c) w k) = None <-> k < length (steps_of (run_pcall c s))).
Proof.
  intros H S. pose proof (calls_track b c s (mem w) H S) as T. unfold tracks_at, after_steps, steps_of in *.
  destruct (run_pcall c s) as [[tr s'] err]. cbn [fst snd]. destruct T as (-> & L & T). split; [reflexivity|].
  specialize (T w k S). destruct (k <? length tr) eqn:K.
  - apply Nat.ltb_lt in K. destruct T as [T1 T2]. split; [exact T2|]. tauto.
  - apply Nat.ltb_ge in K. destruct T as [T1 T2]. split; [|rewrite T1; split; [discriminate|lia]].
    replace (nth k (s :: tr) s') with s'; [exact T2|]. symmetry.
    destruct (Nat.eq_dec k (length tr)) as [-> | K'].
    + pose proof (nth_past s s' tr [] 0) as P. rewrite Nat.add_0_r, app_nil_r in P. rewrite P. cbn. auto.
    + apply nth_overflow. cbn. lia.
Qed.

Lemma views_agree w ms n : kept (disk w) -> NoDup (m_wh (mem w)) -> NoDup (m_op (mem w)) -> in_step w ->
  marks_of (mem w) n = marks_of (new_mask (disk w)) n /\
  masked_under (mem w) n = masked_under (new_mask (disk w)) n /\
  (forall from, ncut_from (mem w :: ms) n from = ncut_from (new_mask (disk w) :: ms) n from /\ ncut_from (mem w :: ms) n from <> None) /\
  nchild_cut (mem w :: ms) n = nchild_cut (new_mask (disk w) :: ms) n /\
  (forall i, nwhiteout_above (mem w :: ms) i n = nwhiteout_above (new_mask (disk w) :: ms) i n).
Proof.
  intros K N1 N2 [S1 S2]. destruct (new_mask_is _ K) as (M1 & M2 & _).
  assert (F : Forall2 same_masks (mem w :: ms) (new_mask (disk w) :: ms)).
  { constructor; [split; assumption|]. clear. induction ms; constructor; [split; intros n; tauto|assumption]. }
  split; [|split; [|split; [|split]]].
  - unfold marks_of. rewrite (memn_same _ _ _ S1), (memn_same _ _ _ S2). reflexivity.
  - unfold masked_under. rewrite (names_under_same _ _ _ N1 M1 S1), (names_under_same _ _ _ N2 M2 S2). reflexivity.
  - intros from. split; [apply ncut_same; exact F|]. apply ncut_total. lia.
  - apply nchild_same, F.
  - apply nabove_same, F.
Qed.
Lemma history_views t es ms n : kept t -> reported_since true es = true ->
  let w := mrun (opened t) es in
  marks_of (mem w) n = marks_of (new_mask (disk w)) n /\
  masked_under (mem w) n = masked_under (new_mask (disk w)) n /\
  (forall from, ncut_from (mem w :: ms) n from = ncut_from (new_mask (disk w) :: ms) n from /\ ncut_from (mem w :: ms) n from <> None) /\
  nchild_cut (mem w :: ms) n = nchild_cut (new_mask (disk w) :: ms) n /\
  (forall i, nwhiteout_above (mem w :: ms) i n = nwhiteout_above (new_mask (disk w) :: ms) i n).
Proof.
  intros K R w. destruct (mrun_sound es (opened t) true K) as [K' M']; [intros _; apply new_mask_is; exact K|].
  destruct (M' R) as (N1 & N2 & _). apply views_agree; [exact K'|exact N1|exact N2|]. apply in_step_of; [exact K'|]. exact (M' R).
Qed.
Lemma names_read ls ms p : Forall2 stands_layer ls ms -> nameable p ->
  (forall from, ncut_from ms (key p) from = Some (cut_from ls p from)) /\
  nchild_cut ms (key p) = Some (child_cut ls p) /\
  (forall i, nwhiteout_above ms i (key p) = whiteout_above ls i p).
Proof.
  intros H Hp. split; [intros from; apply ncut_key; assumption|]. split; [apply nchild_key; assumption|apply nabove_key; assumption].
Qed.
Lemma unreported_commit : exists es, ~ in_step (mrun (opened []) es).
Proof.
  exists [MCall (MSetWh [97%N]) 0 true]. intros [H _]. specialize (H [97%N]).
  cut (In [97%N] []); [intros []|]. apply H. left. reflexivity.
Qed.
