(* Lookup and listing agree with the merged tree. *)
From Coq Require Import Sorting.Sorted Sorting.Permutation.
From Verif Require Import Common ContentRange_Model ContentRange_Proofs Overlay_Model Overlay_Spec.
Open Scope nat_scope.

(* --- paths --- *)
Lemma path_eqb_eq p q : path_eqb p q = true <-> p = q.
Proof.
  revert q. induction p as [|a p IH]; intros [|b q]; cbn; split; intros H; try discriminate; try reflexivity.
  - apply andb_true_iff in H as [H1 H2]. apply bytes_eqb_eq in H1. apply IH in H2. congruence.
  - inversion H; subst. apply andb_true_iff. split; [apply bytes_eqb_eq; reflexivity|apply IH; reflexivity].
Qed.
Lemma path_eqb_refl p : path_eqb p p = true.
Proof. apply path_eqb_eq. reflexivity. Qed.
Lemma path_eqb_neq p q : path_eqb p q = false <-> p <> q.
Proof.
  split.
  - intros H E. apply path_eqb_eq in E. congruence.
  - intros H. destruct (path_eqb p q) eqn:E; [|reflexivity]. apply path_eqb_eq in E. contradiction.
Qed.
Lemma path_dec (p q : path) : p = q \/ p <> q.
Proof. destruct (path_eqb p q) eqn:E; [left; apply path_eqb_eq, E|right; apply path_eqb_neq, E]. Qed.

Lemma under_refl p : under p p.
Proof. exists []. reflexivity. Qed.
Lemma under_cons p c q : under p q -> under p (c :: q).
Proof. intros [s ->]. exists (c :: s). reflexivity. Qed.
Lemma under_trans p q r : under p q -> under q r -> under p r.
Proof. intros [s ->] [u ->]. exists (u ++ s). rewrite app_assoc. reflexivity. Qed.
Lemma under_inv p c q : under p (c :: q) -> p = c :: q \/ under p q.
Proof. intros [[|x s] E]; cbn in E; [left; congruence|right]. inversion E; subst. exists s. reflexivity. Qed.
Lemma under_nil_r p : under p [] -> p = [].
Proof. intros [s E]. symmetry in E. apply app_eq_nil in E. tauto. Qed.
Lemma under_len p q : under p q -> length p <= length q.
Proof. intros [s ->]. rewrite app_length. lia. Qed.
Lemma under_antisym p q : under p q -> under q p -> p = q.
Proof.
  intros [s E] H. apply under_len in H. destruct s as [|x s]; [symmetry; exact E|].
  apply (f_equal (@length _)) in E. cbn in E. rewrite app_length in E. lia.
Qed.
Lemma within_under p q : within p q = true <-> under p q.
Proof.
  induction q as [|c q IH]; cbn.
  - rewrite orb_false_r, path_eqb_eq. split; [intros ->; apply under_refl|apply under_nil_r].
  - rewrite orb_true_iff, path_eqb_eq, IH. split.
    + intros [-> | H]; [apply under_refl|apply under_cons, H].
    + apply under_inv.
Qed.
Lemma within_false p q : within p q = false <-> ~ under p q.
Proof.
  rewrite <- within_under. destruct (within p q); split; intros H; [discriminate|exfalso; apply H; reflexivity|discriminate|reflexivity].
Qed.
Lemma within_refl p : within p p = true.
Proof. apply within_under, under_refl. Qed.
Lemma strictly_under_iff a p : strictly_under a p <-> under a p /\ a <> p.
Proof.
  split.
  - intros [c [s ->]]. split; [exists (c :: s); reflexivity|]. intros E.
    apply (f_equal (@length _)) in E. cbn in E. rewrite app_length in E. lia.
  - intros [[[|c s] E] Hn]; [cbn in E; congruence|]. exists c, s. exact E.
Qed.
Lemma below_strict p q : below p q = true <-> strictly_under p q.
Proof.
  unfold below. rewrite andb_true_iff, within_under, negb_true_iff, path_eqb_neq, strictly_under_iff. tauto.
Qed.
Lemma strictly_cons a c q : strictly_under a (c :: q) <-> under a q.
Proof.
  split.
  - intros [x [s E]]. inversion E; subst. exists s. reflexivity.
  - intros [s ->]. exists c, s. reflexivity.
Qed.
Lemma strictly_nil a : ~ strictly_under a [].
Proof. intros [c [s E]]. discriminate. Qed.

(* --- trees --- *)
Lemma tget_tset t p n q : tget (tset t p n) q = if path_eqb q p then Some n else tget t q.
Proof.
  unfold tset. cbn. destruct (path_eqb q p) eqn:E; [reflexivity|].
  induction t as [|[r x] t IH]; [reflexivity|]. cbn. destruct (path_eqb p r) eqn:Er; cbn.
  - apply path_eqb_eq in Er. subst r. rewrite E. exact IH.
  - destruct (path_eqb q r); [reflexivity|exact IH].
Qed.
Lemma tget_tdrop t p q : tget (tdrop t p) q = if within p q then None else tget t q.
Proof.
  unfold tdrop. induction t as [|[r x] t IH]; cbn; [destruct (within p q); reflexivity|].
  destruct (within p r) eqn:Er; cbn.
  - rewrite IH. destruct (path_eqb q r) eqn:E; [|reflexivity]. apply path_eqb_eq in E. subst r. rewrite Er. reflexivity.
  - destruct (path_eqb q r) eqn:E; [|exact IH]. apply path_eqb_eq in E. subst r. rewrite Er. reflexivity.
Qed.
Lemma in_children t p c : In c (children t p) <-> tget t (c :: p) <> None.
Proof.
  unfold children. induction t as [|[r x] t IH]; cbn; [split; [intros []|congruence]|].
  rewrite in_app_iff, IH. destruct r as [|d r]; cbn.
  - tauto.
  - destruct (path_eqb p r) eqn:E; cbn.
    + apply path_eqb_eq in E. subst r. destruct (bytes_eqb c d) eqn:Ec; cbn.
      * apply bytes_eqb_eq in Ec. subst d. split; [discriminate|tauto].
      * split; [|tauto]. intros [[-> | []] | H]; [|exact H]. assert (bytes_eqb c c = true) by (apply bytes_eqb_eq; reflexivity). congruence.
    + rewrite andb_false_r. tauto.
Qed.
Lemma node_at_cons t c p : node_at t (c :: p) = tget t (c :: p).
Proof. reflexivity. Qed.
Lemma node_at_nil t : exists m, node_at t [] = Some (ODir m).
Proof. cbn. destruct (tget t []) as [[]|]; eauto. Qed.

Lemma wf_parent t c p n : wf_tree t -> node_at t (c :: p) = Some n -> exists m, node_at t p = Some (ODir m).
Proof. intros H. cbn. apply H. Qed.
Lemma wf_ancestor t a p n : wf_tree t -> strictly_under a p -> node_at t p = Some n -> exists m, node_at t a = Some (ODir m).
Proof.
  intros W [c [s ->]]. revert c n. induction s as [|d s IH]; intros c n H.
  - exact (wf_parent t c a n W H).
  - destruct (wf_parent t c _ n W H) as [m Hm]. exact (IH d _ Hm).
Qed.

(* A walk in a well-formed tree. *)
Definition nondir (t : tree) (a : path) : Prop := exists n, node_at t a = Some n /\ is_dir n = false.
Lemma walk_spec t p : wf_tree t ->
  match walk t p with
  | WFound n => node_at t p = Some n
  | WMissing => node_at t p = None /\ forall a, under a p -> ~ nondir t a
  | WNotDir => node_at t p = None /\ exists a n, strictly_under a p /\ node_at t a = Some n /\ is_dir n = false
  | WLink => node_at t p = None /\ exists a g, strictly_under a p /\ node_at t a = Some (OLink g)
  end.
Proof.
  intros W. induction p as [|c q IH].
  - cbn. reflexivity.
  - assert (Hnone : forall x, (forall m, node_at t q <> Some (ODir m)) -> node_at t (c :: q) = x -> x = None).
    { intros [x|] Hd E; [|reflexivity]. destruct (wf_parent _ _ _ _ W E) as [m Hm]. exfalso. exact (Hd m Hm). }
    change (walk t (c :: q)) with (match walk t q with
      | WFound (ODir _) => match node_at t (c :: q) with Some n => WFound n | None => WMissing end
      | WFound (OLink _) => WLink | WFound _ => WNotDir | w => w end).
    destruct (walk t q) as [[m|m d|g|m]| | |].
    + destruct (node_at t (c :: q)) as [n|] eqn:E; [reflexivity|]. split; [reflexivity|].
      intros a Ha [n [Hn Hd]]. apply under_inv in Ha as [-> | Ha]; [congruence|].
      destruct (path_dec a q) as [-> | Hne].
      * rewrite IH in Hn. inversion Hn; subst. discriminate.
      * assert (strictly_under a q) as Hs by (apply strictly_under_iff; auto).
        destruct (wf_ancestor _ _ _ _ W Hs IH) as [m' Hm']. rewrite Hm' in Hn. inversion Hn; subst. discriminate.
    + split; [apply (Hnone _ ltac:(intros m' Hm'; congruence) eq_refl)|]. exists q, (OFile m d). split; [apply strictly_cons, under_refl|auto].
    + split; [apply (Hnone _ ltac:(intros m' Hm'; congruence) eq_refl)|]. exists q, g. split; [apply strictly_cons, under_refl|auto].
    + split; [apply (Hnone _ ltac:(intros m' Hm'; congruence) eq_refl)|]. exists q, (OSpecial m). split; [apply strictly_cons, under_refl|auto].
    + destruct IH as [E Hno]. split; [apply (Hnone _ ltac:(intros m' Hm'; congruence) eq_refl)|].
      intros a Ha. apply under_inv in Ha as [-> | Ha]; [|exact (Hno a Ha)].
      intros [n [Hn _]]. destruct (wf_parent _ _ _ _ W Hn) as [m Hm]. congruence.
    + destruct IH as [E [a [n [Ha Hn]]]]. split; [apply (Hnone _ ltac:(intros m' Hm'; congruence) eq_refl)|].
      exists a, n. split; [|exact Hn]. apply strictly_cons. apply strictly_under_iff in Ha. tauto.
    + destruct IH as [E [a [g [Ha Hn]]]]. split; [apply (Hnone _ ltac:(intros m' Hm'; congruence) eq_refl)|].
      exists a, g. split; [|exact Hn]. apply strictly_cons. apply strictly_under_iff in Ha. tauto.
Qed.
Lemma walk_found t p n : wf_tree t -> node_at t p = Some n -> walk t p = WFound n.
Proof.
  intros W H. pose proof (walk_spec t p W) as S. destruct (walk t p); [congruence| | |]; destruct S as [S _]; congruence.
Qed.

(* Above a non-directory ancestor the probe of blockedIn says so. *)
Lemma blocked_spec be i t q : wf_tree t -> (exists a n, under a q /\ node_at t a = Some n /\ is_dir n = false) ->
  match blocked_at be i t q with
  | BYes => True
  | BNo => exists a g, strictly_under a q /\ node_at t a = Some (OLink g)
  | BErr => (exists a, under a q /\ broken be i a = true) \/ exists a g, strictly_under a q /\ node_at t a = Some (OLink g)
  end.
Proof.
  intros W. induction q as [|c q IH]; intros [a [n [Ha [Hn Hd]]]].
  - apply under_nil_r in Ha. subst a. destruct (node_at_nil t) as [m Hm]. rewrite Hm in Hn. inversion Hn; subst. discriminate.
  - change (blocked_at be i t (c :: q)) with (match lstat be i t (c :: q) with
      | AFound n => if is_dir n then BNo else BYes | ANotDir => blocked_at be i t q | AMissing => BNo | AErr => BErr end).
    unfold lstat. destruct (broken be i (c :: q)) eqn:B; [left; exists (c :: q); split; [apply under_refl|exact B]|].
    pose proof (walk_spec t (c :: q) W) as S. destruct (walk t (c :: q)) as [x| | |].
    + destruct (is_dir x) eqn:Dx; [|exact I]. exfalso. apply under_inv in Ha as [-> | Ha].
      * congruence.
      * assert (strictly_under a (c :: q)) as Hs by (apply strictly_cons, Ha).
        destruct (wf_ancestor _ _ _ _ W Hs S) as [m Hm]. rewrite Hm in Hn. inversion Hn; subst. discriminate.
    + destruct S as [_ S]. exfalso. apply (S a Ha). exists n. auto.
    + destruct S as [S1 [a' [n' [Ha' [Hn' Hd']]]]]. apply strictly_cons in Ha'.
      specialize (IH (ex_intro _ a' (ex_intro _ n' (conj Ha' (conj Hn' Hd'))))).
      destruct (blocked_at be i t q).
      * exact I.
      * destruct IH as [b [g [Hb Hg]]]. exists b, g. split; [|exact Hg]. apply strictly_cons. apply strictly_under_iff in Hb. tauto.
      * destruct IH as [[b [Hb Hg]]|[b [g [Hb Hg]]]]; [left; exists b; split; [apply under_cons, Hb|exact Hg]|right].
        exists b, g. split; [|exact Hg]. apply strictly_cons. apply strictly_under_iff in Hb. tauto.
    + destruct S as [_ [b [g [Hb Hg]]]].
      assert (HL : exists a g, strictly_under a (c :: q) /\ node_at t a = Some (OLink g)) by (exists b, g; auto).
      destruct (through be i (c :: q)) as [x| | |].
      * destruct (is_dir x); [exact HL|exact I].
      * exact HL.
      * apply strictly_cons in Hb. assert (Hb2 : exists a n, under a q /\ node_at t a = Some n /\ is_dir n = false) by (exists b, (OLink g); auto).
        specialize (IH Hb2). destruct (blocked_at be i t q); [exact I|exact HL|right; exact HL].
      * right. exact HL.
Qed.

(* --- cuts --- *)
Lemma in_upto i from last : In i (upto from last) <-> from <= i <= last.
Proof. unfold upto. rewrite in_seq. lia. Qed.
Lemma find_seq_some f from n i : find f (seq from n) = Some i -> from <= i < from + n /\ f i = true /\ forall k, from <= k < i -> f k = false.
Proof.
  revert from. induction n as [|n IH]; intros from; cbn; [discriminate|].
  destruct (f from) eqn:E.
  - intros H. inversion H; subst. split; [lia|]. split; [exact E|]. intros k Hk. lia.
  - intros H. apply IH in H as [H1 [H2 H3]]. split; [lia|]. split; [exact H2|]. intros k Hk.
    destruct (Nat.eq_dec k from) as [-> | Hn]; [exact E|apply H3; lia].
Qed.
Lemma find_seq_none f from n : find f (seq from n) = None -> forall k, from <= k < from + n -> f k = false.
Proof.
  revert from. induction n as [|n IH]; intros from; cbn; intros H k Hk; [lia|].
  destruct (f from) eqn:E; [discriminate|]. destruct (Nat.eq_dec k from) as [-> | Hn]; [exact E|].
  apply (IH (S from) H). lia.
Qed.
Lemma find_seq_first f from n i : from <= i < from + n -> f i = true -> (forall k, from <= k < i -> f k = false) -> find f (seq from n) = Some i.
Proof.
  revert from. induction n as [|n IH]; intros from Hi Hf Hk; cbn; [lia|].
  destruct (Nat.eq_dec from i) as [-> | Hn]; [rewrite Hf; reflexivity|].
  rewrite (Hk from) by lia. apply IH; [lia|exact Hf|]. intros k Hk'. apply Hk. lia.
Qed.

Definition masks (ls : stack) (k : nat) (p : path) (self : bool) : Prop :=
  exists a, under a p /\ markedi ls a (self && path_eqb a p) k = true.
Lemma cut_step_spec ls from cut p self j : from <= S cut ->
  (from <= j <= cut_step ls from cut p self <-> from <= j <= cut /\ forall k, from <= k < j -> markedi ls p self k = false).
Proof.
  intros Hf. unfold cut_step, upto. destruct (find _ _) as [i|] eqn:E.
  - apply find_seq_some in E as [H1 [H2 H3]]. split.
    + intros Hj. split; [lia|]. intros k Hk. apply H3. lia.
    + intros [Hj Hk]. split; [lia|]. destruct (le_lt_dec j i) as [|Hlt]; [assumption|].
      rewrite (Hk i) in H2 by lia. discriminate.
  - pose proof (find_seq_none _ _ _ E) as H. split.
    + intros Hj. split; [exact Hj|]. intros k Hk. apply H. lia.
    + tauto.
Qed.
Lemma cut_step_le ls from cut p self : from <= S cut -> cut_step ls from cut p self <= cut /\ from <= S (cut_step ls from cut p self).
Proof.
  intros Hf. unfold cut_step, upto. destruct (find _ _) as [i|] eqn:E; [|lia].
  apply find_seq_some in E. lia.
Qed.
Lemma cut_walk_spec ls from p : forall cut self j, from <= S cut ->
  (from <= j <= cut_walk ls from cut p self <-> from <= j <= cut /\ forall k, from <= k < j -> ~ masks ls k p self).
Proof.
  induction p as [|c q IH]; intros cut self j Hf.
  - cbn [cut_walk]. rewrite cut_step_spec by exact Hf. split; intros [H1 H2]; split; try exact H1; intros k Hk.
    + intros [a [Ha Hm]]. apply under_nil_r in Ha. subst a. rewrite path_eqb_refl, andb_true_r in Hm. rewrite (H2 k Hk) in Hm. discriminate.
    + destruct (markedi ls [] self k) eqn:E; [|reflexivity]. exfalso. apply (H2 k Hk). exists [].
      split; [apply under_refl|]. rewrite path_eqb_refl, andb_true_r. exact E.
  - cbn [cut_walk]. destruct (cut_step_le ls from cut (c :: q) self Hf) as [L1 L2].
    rewrite (IH _ false j L2). rewrite cut_step_spec by exact Hf. split.
    + intros [[H1 H2] H3]. split; [exact H1|]. intros k Hk [a [Ha Hm]]. apply under_inv in Ha as [-> | Ha].
      * rewrite path_eqb_refl, andb_true_r in Hm. rewrite (H2 k Hk) in Hm. discriminate.
      * apply (H3 k Hk). exists a. split; [exact Ha|]. cbn.
        assert (path_eqb a (c :: q) = false) as E.
        { apply path_eqb_neq. intros ->. apply under_len in Ha. cbn in Ha. lia. }
        rewrite E, andb_false_r in Hm. exact Hm.
    + intros [H1 H2]. split; [split; [exact H1|]|].
      * intros k Hk. destruct (markedi ls (c :: q) self k) eqn:E; [|reflexivity]. exfalso. apply (H2 k Hk).
        exists (c :: q). split; [apply under_refl|]. rewrite path_eqb_refl, andb_true_r. exact E.
      * intros k Hk [a [Ha Hm]]. apply (H2 k Hk). exists a. split; [apply under_cons, Ha|].
        assert (path_eqb a (c :: q) = false) as E.
        { apply path_eqb_neq. intros ->. apply under_len in Ha. cbn in Ha. lia. }
        rewrite E, andb_false_r. exact Hm.
Qed.
Lemma masks_true ls k p : masks ls k p true <-> whi ls k p = true \/ exists a, strictly_under a p /\ (whi ls k a = true \/ opi ls k a = true).
Proof.
  unfold masks, markedi, marked, whi, opi. split.
  - intros [a [Ha Hm]]. destruct (nth_error ls k) as [l|]; [|discriminate].
    destruct (path_dec a p) as [-> | Hn].
    + rewrite path_eqb_refl in Hm. cbn in Hm. rewrite andb_false_r, orb_false_r in Hm. left. exact Hm.
    + right. exists a. split; [apply strictly_under_iff; auto|].
      apply path_eqb_neq in Hn. rewrite Hn in Hm. cbn in Hm. rewrite andb_true_r in Hm. apply orb_true_iff in Hm. exact Hm.
  - destruct (nth_error ls k) as [l|]; [|intros [H|[a [_ [H|H]]]]; discriminate].
    intros [H|[a [Ha H]]].
    + exists p. split; [apply under_refl|]. rewrite H. reflexivity.
    + apply strictly_under_iff in Ha as [Ha Hn]. exists a. split; [exact Ha|].
      apply path_eqb_neq in Hn. rewrite Hn. cbn. rewrite andb_true_r. apply orb_true_iff. exact H.
Qed.
(* The layers the cut admits: those above which nothing masks the name. *)
Definition hides (ls : stack) (k : nat) (p : path) : Prop :=
  whi ls k p = true \/ exists a, strictly_under a p /\ (whi ls k a = true \/ opi ls k a = true).
Lemma cut_spec ls p from j : from <= length ls -> 0 < length ls ->
  (from <= j <= cut_from ls p from <-> from <= j < length ls /\ forall k, from <= k < j -> ~ hides ls k p).
Proof.
  intros Hf Hl. unfold cut_from. rewrite cut_walk_spec by lia. split; intros [H1 H2]; (split; [lia|]); intros k Hk H; apply (H2 k Hk); apply masks_true; exact H.
Qed.

(* --- the merged tree --- *)
Lemma merged_spec ls from j p : merged ls from j p = true <->
  from <= j /\ (forall a, under a p -> dir_at ls j a = true) /\
  forall k a, from <= k < j -> under a p -> whi ls k a = false /\ opi ls k a = false /\ nondir_at ls k a = false.
Proof.
  assert (G : forall p, (from <=? j) && dir_at ls j p &&
      forallb (fun k => negb (whi ls k p) && negb (opi ls k p) && negb (nondir_at ls k p)) (seq from (j - from)) = true <->
      from <= j /\ dir_at ls j p = true /\ forall k, from <= k < j -> whi ls k p = false /\ opi ls k p = false /\ nondir_at ls k p = false).
  { intros q. rewrite !andb_true_iff, Nat.leb_le, forallb_forall. split.
    - intros [[H1 H2] H3]. split; [exact H1|]. split; [exact H2|]. intros k Hk. specialize (H3 k ltac:(apply in_seq; lia)).
      apply andb_true_iff in H3 as [H3 H4]. apply andb_true_iff in H3 as [H3 H5]. apply negb_true_iff in H3, H4, H5. auto.
    - intros [H1 [H2 H3]]. split; [split; assumption|]. intros k Hk. apply in_seq in Hk. destruct (H3 k ltac:(lia)) as [-> [-> ->]]. reflexivity. }
  induction p as [|c q IH].
  - cbn [merged]. rewrite andb_true_r, G. split.
    + intros [H1 [H2 H3]]. split; [exact H1|]. split.
      * intros a Ha. apply under_nil_r in Ha. subst a. exact H2.
      * intros k a Hk Ha. apply under_nil_r in Ha. subst a. exact (H3 k Hk).
    + intros [H1 [H2 H3]]. split; [exact H1|]. split; [apply H2, under_refl|]. intros k Hk. exact (H3 k [] Hk (under_refl [])).
  - cbn [merged]. rewrite andb_true_iff, G, IH. split.
    + intros [[H1 [H2 H3]] [_ [H4 H5]]]. split; [exact H1|]. split.
      * intros a Ha. apply under_inv in Ha as [-> | Ha]; [exact H2|exact (H4 a Ha)].
      * intros k a Hk Ha. apply under_inv in Ha as [-> | Ha]; [exact (H3 k Hk)|exact (H5 k a Hk Ha)].
    + intros [H1 [H2 H3]]. split; [split; [exact H1|]; split; [apply H2, under_refl|]|split; [exact H1|split]].
      * intros k Hk. exact (H3 k _ Hk (under_refl _)).
      * intros a Ha. apply H2, under_cons, Ha.
      * intros k a Hk Ha. exact (H3 k a Hk (under_cons _ _ _ Ha)).
Qed.
Lemma offers_spec ls from c q j : offers ls from (c :: q) j = true <->
  merged ls from j q = true /\ (exists n, at_ ls j (c :: q) = Some n) /\ forall k, from <= k < j -> whi ls k (c :: q) = false.
Proof.
  unfold offers. rewrite !andb_true_iff, forallb_forall. split.
  - intros [[H1 H2] H3]. split; [exact H1|]. split; [destruct (at_ ls j (c :: q)); [eauto|discriminate]|].
    intros k Hk. apply negb_true_iff, H3. apply in_seq. lia.
  - intros [H1 [[n H2] H3]]. rewrite H2. split; [auto|]. intros k Hk. apply in_seq in Hk. apply negb_true_iff, H3. lia.
Qed.
Lemma at_len ls i p n : at_ ls i p = Some n -> i < length ls.
Proof. unfold at_. intros H. apply nth_error_Some. destruct (nth_error ls i); [discriminate|discriminate H]. Qed.
Lemma wf_at ls i l : wf ls -> nth_error ls i = Some l -> wf_tree (l_tree l).
Proof. intros [_ W] H. apply nth_error_In in H. rewrite Forall_forall in W. exact (W l H). Qed.
Lemma wf_len ls : wf ls -> 0 < length ls.
Proof. intros [H _]. destruct ls; [congruence|cbn; lia]. Qed.
Lemma at_parent ls i c q n : wf ls -> at_ ls i (c :: q) = Some n -> dir_at ls i q = true.
Proof.
  intros W. unfold at_, dir_at, at_. destruct (nth_error ls i) as [l|] eqn:E; [|discriminate].
  intros H. destruct (wf_parent _ _ _ _ (wf_at _ _ _ W E) H) as [m ->]. reflexivity.
Qed.
Lemma at_ancestor ls i a p n : wf ls -> at_ ls i p = Some n -> strictly_under a p -> dir_at ls i a = true.
Proof.
  intros W. unfold at_, dir_at, at_. destruct (nth_error ls i) as [l|] eqn:E; [|discriminate].
  intros H Hs. destruct (wf_ancestor _ _ _ _ (wf_at _ _ _ W E) Hs H) as [m ->]. reflexivity.
Qed.
Lemma at_ancestors ls i c q n : wf ls -> at_ ls i (c :: q) = Some n -> forall a, under a q -> dir_at ls i a = true.
Proof. intros W H a Ha. exact (at_ancestor _ _ _ _ _ W H (proj2 (strictly_cons a c q) Ha)). Qed.
Lemma at_root ls i : i < length ls -> exists m, at_ ls i [] = Some (ODir m).
Proof.
  intros H. unfold at_. destruct (nth_error ls i) as [l|] eqn:E; [apply node_at_nil|].
  apply nth_error_None in E. lia.
Qed.

Lemma view_root ls from : from < length ls -> exists m, view ls from [] = Some (from, ODir m).
Proof.
  intros H. unfold view. rewrite (find_seq_first _ from _ from).
  - destruct (at_root ls from H) as [m Hm]. exists m. rewrite Hm. reflexivity.
  - lia.
  - unfold offers. rewrite Nat.eqb_refl. apply Nat.ltb_lt in H. rewrite H. reflexivity.
  - intros k Hk. lia.
Qed.
(* What it takes for the merged tree to show layer j's node. *)
Lemma view_some ls from c q j n : wf ls ->
  (view ls from (c :: q) = Some (j, n) <->
   from <= j /\ at_ ls j (c :: q) = Some n /\ (forall k, from <= k < j -> at_ ls k (c :: q) = None) /\
   forall k, from <= k < j -> ~ hides ls k (c :: q) /\ forall a, under a q -> nondir_at ls k a = false).
Proof.
  intros W. unfold view. split.
  - destruct (find _ _) as [j'|] eqn:E; [|discriminate]. apply find_seq_some in E as [E1 [E2 E3]].
    apply offers_spec in E2 as [M [[x Hx] Wh]]. rewrite Hx. intros H. inversion H; subst j' n. clear H.
    apply merged_spec in M as [M1 [M2 M3]]. split; [exact M1|]. split; [exact Hx|]. split.
    + intros k Hk. destruct (at_ ls k (c :: q)) as [y|] eqn:Ey; [|reflexivity]. exfalso.
      specialize (E3 k Hk). assert (offers ls from (c :: q) k = true) as Ht; [|congruence].
      apply offers_spec. split; [|split; [eauto|intros k' Hk'; apply Wh; lia]].
      apply merged_spec. split; [lia|]. split; [exact (at_ancestors _ _ _ _ _ W Ey)|].
      intros k' a Hk' Ha. apply M3; [lia|exact Ha].
    + intros k Hk. split; [|intros a Ha; apply (M3 k a Hk Ha)].
      intros [H|[a [Ha H]]]; [rewrite (Wh k Hk) in H; discriminate|].
      apply strictly_cons in Ha. destruct (M3 k a Hk Ha) as [H1 [H2 _]]. destruct H; congruence.
  - intros [H1 [H2 [H3 H4]]]. rewrite (find_seq_first _ from _ j).
    + rewrite H2. reflexivity.
    + pose proof (at_len _ _ _ _ H2). lia.
    + apply offers_spec. split; [|split; [eauto|]].
      * apply merged_spec. split; [exact H1|]. split; [exact (at_ancestors _ _ _ _ _ W H2)|].
        intros k a Hk Ha. destruct (H4 k Hk) as [Hh Hn]. split; [|split; [|exact (Hn a Ha)]].
        -- destruct (whi ls k a) eqn:E; [|reflexivity]. exfalso. apply Hh. right. exists a. split; [apply strictly_cons, Ha|auto].
        -- destruct (opi ls k a) eqn:E; [|reflexivity]. exfalso. apply Hh. right. exists a. split; [apply strictly_cons, Ha|auto].
      * intros k Hk. destruct (whi ls k (c :: q)) eqn:E; [|reflexivity]. exfalso. apply (H4 k Hk). left. exact E.
    + intros k Hk. destruct (offers ls from (c :: q) k) eqn:E; [|reflexivity].
      apply offers_spec in E as [_ [[y Hy] _]]. rewrite (H3 k Hk) in Hy. discriminate.
Qed.
Lemma view_some' ls from p j n : wf ls -> from < length ls ->
  (view ls from p = Some (j, n) <->
   from <= j /\ at_ ls j p = Some n /\ (forall k, from <= k < j -> at_ ls k p = None) /\
   forall k, from <= k < j -> ~ hides ls k p /\ forall a, strictly_under a p -> nondir_at ls k a = false).
Proof.
  intros W Hf. destruct p as [|c q].
  - destruct (view_root ls from Hf) as [m Hm]. rewrite Hm. destruct (at_root ls from Hf) as [m' Hm'].
    assert (m = m') as <-.
    { unfold view in Hm. destruct (find _ _) as [j'|]; [|discriminate]. destruct (at_ ls j' []) eqn:E; [|discriminate]. inversion Hm; subst. congruence. }
    split.
    + intros H. inversion H; subst. split; [lia|]. split; [exact Hm'|]. split; intros k Hk; lia.
    + intros [H1 [H2 [H3 _]]]. destruct (Nat.eq_dec from j) as [<- | Hn]; [congruence|].
      rewrite (H3 from) in Hm' by lia. discriminate.
  - rewrite (view_some ls from c q j n W). split.
    + intros [H1 [H2 [H3 H4]]]. repeat (split; [assumption|]). intros k Hk. destruct (H4 k Hk) as [A B]. split; [exact A|].
      intros a Ha. apply B. exact (proj1 (strictly_cons a c q) Ha).
    + intros [H1 [H2 [H3 H4]]]. repeat (split; [assumption|]). intros k Hk. destruct (H4 k Hk) as [A B]. split; [exact A|].
      intros a Ha. apply B. apply (proj2 (strictly_cons a c q)). exact Ha.
Qed.
Lemma view_none ls from p : wf ls -> from < length ls -> view ls from p = None ->
  forall j n, from <= j -> at_ ls j p = Some n -> (forall k, from <= k < j -> at_ ls k p = None) ->
  exists k, from <= k < j /\ (hides ls k p \/ exists a, strictly_under a p /\ nondir_at ls k a = true).
Proof.
  intros W Hf Hv j n H1 H2 H3.
  assert (D : forall m, (forall k, from <= k < from + m -> ~ hides ls k p /\ forall a, strictly_under a p -> nondir_at ls k a = false) \/
    exists k, from <= k < from + m /\ (hides ls k p \/ exists a, strictly_under a p /\ nondir_at ls k a = true)).
  { intros m. induction m as [|m IH]; [left; intros k Hk; lia|]. destruct IH as [IH|[k [Hk H]]]; [|right; exists k; split; [lia|exact H]].
    assert (Dp : forall f : path -> bool, (forall a, strictly_under a p -> f a = false) \/ exists a, strictly_under a p /\ f a = true).
    { intros f. clear. induction p as [|c q IH]; [left; intros a Ha; exfalso; exact (strictly_nil a Ha)|].
      destruct (f q) eqn:E; [right; exists q; split; [apply strictly_cons, under_refl|exact E]|].
      destruct IH as [IH|[a [Ha H]]].
      - left. intros a Ha. apply strictly_cons in Ha. destruct (path_dec a q) as [-> | Hn]; [exact E|]. apply IH, strictly_under_iff. auto.
      - right. exists a. split; [|exact H]. apply strictly_cons. apply strictly_under_iff in Ha. tauto. }
    destruct (Dp (fun a => whi ls (from + m) a || opi ls (from + m) a)) as [A|[a [Ha A]]].
    2:{ right. exists (from + m). split; [lia|]. left. right. exists a. split; [exact Ha|]. apply orb_true_iff. exact A. }
    destruct (whi ls (from + m) p) eqn:Ew; [right; exists (from + m); split; [lia|]; left; left; exact Ew|].
    destruct (Dp (nondir_at ls (from + m))) as [B|[a [Ha B]]].
    2:{ right. exists (from + m). split; [lia|]. right. eauto. }
    left. intros k Hk. destruct (Nat.eq_dec k (from + m)) as [-> | Hn]; [|apply IH; lia].
    split; [|exact B]. intros [H|[a [Ha H]]]; [congruence|]. specialize (A a Ha). apply orb_false_iff in A. destruct H; destruct A; congruence. }
  destruct (D (j - from)) as [H4|[k [Hk H]]]; [|exists k; split; [lia|exact H]].
  exfalso. assert (view ls from p = Some (j, n)); [|congruence]. apply view_some'; [exact W|exact Hf|].
  repeat (split; [assumption|]). intros k Hk. apply H4. lia.
Qed.

(* --- lookups --- *)
Definition good (be : backend) (ls : stack) (from : nat) (p : path) (r : lres) : Prop :=
  match r with
  | LFound j n => view ls from p = Some (j, n) \/ linked ls from p
  | LMissing | LNotDir => view ls from p = None
  | LErr => (exists i a, i < length ls /\ under a p /\ broken be i a = true) \/ linked ls from p
  end.
Lemma nondir_at_iff ls i l a : nth_error ls i = Some l -> (nondir_at ls i a = true <-> nondir (l_tree l) a).
Proof.
  intros E. unfold nondir_at, at_, nondir. rewrite E. destruct (node_at (l_tree l) a) as [n|].
  - split; [intros H; exists n; split; [reflexivity|apply negb_true_iff, H]|intros [x [Hx H]]; inversion Hx; subst; rewrite H; reflexivity].
  - split; [discriminate|intros [x [Hx _]]; discriminate].
Qed.
Lemma upto_cons i last : i <= last -> upto i last = i :: upto (S i) last.
Proof. intros H. unfold upto. replace (S last - i) with (S (S last - S i)) by lia. reflexivity. Qed.
Lemma upto_nil i last : last < i -> upto i last = [].
Proof. intros H. unfold upto. replace (S last - i) with 0 by lia. reflexivity. Qed.

(* A layer with a non-directory on the way ends the search. *)
Lemma view_blocked ls from p i : wf ls -> from < length ls -> from <= i -> (exists a, strictly_under a p /\ nondir_at ls i a = true) ->
  (forall j, from <= j < i -> at_ ls j p = None) -> view ls from p = None.
Proof.
  intros W Hf Hi [a [Ha Hn]] Hb. destruct (view ls from p) as [[j n]|] eqn:E; [|reflexivity]. exfalso.
  apply (view_some' _ _ _ _ _ W Hf) in E as [E1 [E2 [E3 E4]]].
  destruct (lt_eq_lt_dec j i) as [[Hlt|Heq]|Hgt].
  - rewrite (Hb j) in E2 by lia. discriminate.
  - subst j. pose proof (at_ancestor _ _ _ _ _ W E2 Ha) as Hd. unfold dir_at in Hd. unfold nondir_at in Hn.
    destruct (at_ ls i a) as [x|]; [|discriminate]. rewrite Hd in Hn. discriminate.
  - destruct (E4 i ltac:(lia)) as [_ H]. rewrite (H a Ha) in Hn. discriminate.
Qed.

Lemma loop_good be ls p from berr : wf ls -> from < length ls -> (berr = LMissing \/ berr = LNotDir) ->
  forall n i, n = S (cut_from ls p from) - i -> from <= i ->
  (forall j, from <= j < i -> at_ ls j p = None /\ forall a, strictly_under a p -> nondir_at ls j a = false) ->
  good be ls from p (lookup_loop be ls p berr (upto i (cut_from ls p from))).
Proof.
  intros W Hf Hb. pose proof (cut_spec ls p from) as CS. specialize (fun j => CS j ltac:(lia) ltac:(lia)).
  induction n as [|n IH]; intros i En Hi Inv.
  - rewrite upto_nil by lia. cbn. destruct (view ls from p) as [[j x]|] eqn:E; [|reflexivity]. exfalso.
    apply (view_some' _ _ _ _ _ W Hf) in E as [E1 [E2 [E3 E4]]].
    assert (from <= j <= cut_from ls p from) as Hc.
    { apply CS. split; [split; [exact E1|exact (at_len _ _ _ _ E2)]|]. intros k Hk. apply E4, Hk. }
    destruct (Inv j ltac:(lia)) as [Ha _]. congruence.
  - rewrite upto_cons by lia. cbn [lookup_loop].
    assert (from <= i <= cut_from ls p from) as Hc by lia. pose proof (proj1 (CS i) Hc) as [Hil Hclear].
    destruct (nth_error ls i) as [l|] eqn:El; [|apply nth_error_None in El; lia].
    pose proof (wf_at _ _ _ W El) as Wl.
    assert (At : forall a, at_ ls i a = node_at (l_tree l) a) by (intros a; unfold at_; rewrite El; reflexivity).
    unfold lstat. destruct (broken be i p) eqn:B; [left; exists i, p; split; [lia|split; [apply under_refl|exact B]]|].
    pose proof (walk_spec (l_tree l) p Wl) as S. destruct (walk (l_tree l) p) as [x| | |].
    + left. apply view_some'; [exact W|exact Hf|]. split; [lia|]. split; [rewrite At; exact S|]. split.
      * intros k Hk. apply Inv. lia.
      * intros k Hk. split; [apply Hclear; lia|apply Inv; lia].
    + destruct S as [S1 S2]. apply IH; [lia|lia|]. intros j Hj. destruct (Nat.eq_dec j i) as [-> | Hn]; [|apply Inv; lia].
      split; [rewrite At; exact S1|]. intros a Ha. destruct (nondir_at ls i a) eqn:E; [|reflexivity]. exfalso.
      apply (nondir_at_iff _ _ _ _ El) in E. apply strictly_under_iff in Ha as [Ha _]. exact (S2 a Ha E).
    + destruct S as [S1 [a [x [Ha [Hx Hd]]]]].
      assert (V : view ls from p = None).
      { apply (view_blocked ls from p i W Hf Hi).
        - exists a. split; [exact Ha|]. apply (nondir_at_iff _ _ _ _ El). exists x. auto.
        - intros j Hj. apply Inv. lia. }
      destruct p as [|c q]; [exfalso; exact (strictly_nil a Ha)|]. cbn [tl].
      pose proof (blocked_spec be i (l_tree l) q Wl) as Bs.
      specialize (Bs (ex_intro _ a (ex_intro _ x (conj (proj1 (strictly_cons a c q) Ha) (conj Hx Hd))))).
      assert (LK : (exists b g, strictly_under b q /\ node_at (l_tree l) b = Some (OLink g)) -> linked ls from (c :: q)).
      { intros [b [g [Hb' Hg]]]. exists i, b, g. split; [exact Hc|]. split; [|rewrite At; exact Hg].
        apply strictly_cons. apply strictly_under_iff in Hb'. tauto. }
      destruct (blocked_at be i (l_tree l) q).
      * destruct Hb as [-> | ->]; exact V.
      * apply LK in Bs. destruct (lookup_loop be ls (c :: q) berr (upto (S i) (cut_from ls (c :: q) from))); cbn; auto.
      * destruct Bs as [[b [Hb' Hbr]]|Bs]; [left|right; exact (LK Bs)]. exists i, b. split; [lia|]. split; [apply under_cons, Hb'|exact Hbr].
    + destruct S as [S1 [a [g [Ha Hg]]]].
      assert (V : view ls from p = None).
      { apply (view_blocked ls from p i W Hf Hi).
        - exists a. split; [exact Ha|]. apply (nondir_at_iff _ _ _ _ El). exists (OLink g). auto.
        - intros j Hj. apply Inv. lia. }
      assert (L : linked ls from p) by (exists i, a, g; rewrite At; auto).
      assert (Any : forall r, good be ls from p r) by (intros [j y| | |]; cbn; auto). apply Any.
Qed.

Lemma berr_cases r : blocked_err r = LMissing \/ blocked_err r = LNotDir.
Proof. destruct r as [i n| | |]; cbn; auto. destruct (is_dir n); auto. Qed.
Theorem lookup_from_good be ls p from : wf ls -> good be ls from p (lookup_from be ls p from).
Proof.
  intros W. pose proof (wf_len ls W) as Hl. unfold lookup_from.
  destruct (le_lt_dec (length ls) from) as [Hge|Hf].
  - assert (E : upto from (cut_from ls p from) = []).
    { apply upto_nil. unfold cut_from. assert (G : forall q cut self, cut < from -> cut_walk ls from cut q self < from).
      { induction q as [|c q IH]; intros cut self Hc; cbn [cut_walk]; unfold cut_step; rewrite (upto_nil from cut Hc); cbn [find]; [exact Hc|exact (IH cut false Hc)]. }
      apply G. lia. }
    rewrite E. cbn. unfold view. replace (length ls - from) with 0 by lia. reflexivity.
  - apply (loop_good be ls p from _ W Hf) with (n := S (cut_from ls p from) - from).
    + destruct p as [|c q]; [right; reflexivity|apply berr_cases].
    + reflexivity.
    + lia.
    + intros j Hj. lia.
Qed.
Lemma lookup_is be ls p : lookup be ls p = lookup_from be ls p 0.
Proof. destruct p; reflexivity. Qed.

(* When no hidden link is on the way and every layer answers, the lookup is the merged tree. *)
Lemma lookup_view be ls p : wf ls -> unlinked ls p -> answers be ls p ->
  match lookup be ls p with
  | LFound j n => view ls 0 p = Some (j, n)
  | LMissing | LNotDir => view ls 0 p = None
  | LErr => False
  end.
Proof.
  intros W U A. rewrite lookup_is. pose proof (lookup_from_good be ls p 0 W) as G.
  destruct (lookup_from be ls p 0); cbn in G.
  - destruct G as [G|G]; [exact G|contradiction].
  - exact G.
  - exact G.
  - destruct G as [[i [a [H1 [H2 H3]]]]|G]; [rewrite (A i a H1 H2) in H3; discriminate|contradiction].
Qed.
(* A found answer or a missing one is never wrong, whatever else fails. *)
Lemma lookup_true be ls p : wf ls -> unlinked ls p ->
  match lookup be ls p with
  | LFound j n => view ls 0 p = Some (j, n)
  | LMissing | LNotDir => view ls 0 p = None
  | LErr => exists i a, i < length ls /\ under a p /\ broken be i a = true
  end.
Proof.
  intros W U. rewrite lookup_is. pose proof (lookup_from_good be ls p 0 W) as G.
  destruct (lookup_from be ls p 0); cbn in G.
  - destruct G as [G|G]; [exact G|contradiction].
  - exact G.
  - exact G.
  - destruct G as [G|G]; [exact G|contradiction].
Qed.

(* Ancestors of what is visible are visible directories. *)
Lemma hides_parent ls k c q a : under a q -> (hides ls k a -> hides ls k (c :: q)).
Proof.
  intros Ha [H|[b [Hb H]]]; right.
  - exists a. split; [apply strictly_cons, Ha|auto].
  - exists b. split; [|exact H]. apply strictly_cons. apply strictly_under_iff in Hb as [Hb _]. exact (under_trans _ _ _ Hb Ha).
Qed.
Lemma first_dir ls a : forall j, dir_at ls j a = true -> exists i, i <= j /\ (exists n, at_ ls i a = Some n) /\ forall k, k < i -> at_ ls k a = None.
Proof.
  induction j as [j IH] using (well_founded_induction lt_wf). intros Hd.
  assert (D : (forall k, k < j -> at_ ls k a = None) \/ exists k, k < j /\ at_ ls k a <> None).
  { clear. induction j as [|j IH]; [left; intros; lia|]. destruct IH as [IH|[k [Hk H]]]; [|right; exists k; split; [lia|exact H]].
    destruct (at_ ls j a) eqn:E; [right; exists j; split; [lia|congruence]|]. left. intros k Hk.
    destruct (Nat.eq_dec k j) as [-> | Hn]; [exact E|apply IH; lia]. }
  destruct D as [D|[k [Hk D]]].
  - exists j. split; [lia|]. split; [|exact D]. unfold dir_at in Hd. destruct (at_ ls j a); [eauto|discriminate].
  - clear IH. revert k Hk D. intros k. induction k as [k IHk] using (well_founded_induction lt_wf). intros Hk D.
    assert (D2 : (forall k', k' < k -> at_ ls k' a = None) \/ exists k', k' < k /\ at_ ls k' a <> None).
    { clear. induction k as [|k IH]; [left; intros; lia|]. destruct IH as [IH|[k' [Hk' H]]]; [|right; exists k'; split; [lia|exact H]].
      destruct (at_ ls k a) eqn:E; [right; exists k; split; [lia|congruence]|]. left. intros k' Hk'.
      destruct (Nat.eq_dec k' k) as [-> | Hn]; [exact E|apply IH; lia]. }
    destruct D2 as [D2|[k' [Hk' D2]]].
    + exists k. split; [lia|]. split; [|exact D2]. destruct (at_ ls k a); [eauto|congruence].
    + exact (IHk k' Hk' ltac:(lia) D2).
Qed.
Lemma visible_ancestor ls a p j n : wf ls -> strictly_under a p -> view ls 0 p = Some (j, n) -> exists i m, i <= j /\ view ls 0 a = Some (i, ODir m).
Proof.
  intros W Ha Hv. pose proof (wf_len ls W) as Hl. destruct p as [|c q]; [exfalso; exact (strictly_nil a Ha)|].
  apply (view_some' _ _ _ _ _ W Hl) in Hv as [_ [H2 [H3 H4]]].
  pose proof (at_ancestor _ _ _ _ _ W H2 Ha) as Hd.
  destruct (first_dir ls a j Hd) as [i [Hi [[x Hx] Hmin]]].
  assert (is_dir x = true) as Dx.
  { destruct (Nat.eq_dec i j) as [-> | Hn].
    - unfold dir_at in Hd. rewrite Hx in Hd. exact Hd.
    - destruct (H4 i ltac:(lia)) as [_ H]. specialize (H a Ha). unfold nondir_at in H. rewrite Hx in H.
      destruct (is_dir x); [reflexivity|discriminate]. }
  destruct x as [m| | |]; try discriminate. exists i, m. split; [exact Hi|].
  apply view_some'; [exact W|exact Hl|]. split; [lia|]. split; [exact Hx|]. split.
  - intros k Hk. apply Hmin. lia.
  - intros k Hk. destruct (H4 k ltac:(lia)) as [Hh Hn]. split.
    + intros Hh'. apply Hh. apply (hides_parent ls k c q a); [exact (proj1 (strictly_cons a c q) Ha)|exact Hh'].
    + intros b Hb. apply Hn. apply strictly_under_iff in Ha as [Ha Hne]. apply strictly_under_iff in Hb as [Hb Hne']. apply strictly_under_iff.
      split; [exact (under_trans _ _ _ Hb Ha)|]. intros ->. apply Hne'. apply under_antisym; assumption.
Qed.

(* --- sorting --- *)
Lemma insert_perm {A} (leb : A -> A -> bool) x l : Permutation (insert leb x l) (x :: l).
Proof.
  induction l as [|y r IH]; cbn; [reflexivity|]. destruct (leb x y); [reflexivity|].
  rewrite IH. apply perm_swap.
Qed.
Lemma isort_perm {A} (leb : A -> A -> bool) l : Permutation (isort leb l) l.
Proof. induction l as [|x r IH]; cbn; [reflexivity|]. rewrite insert_perm, IH. reflexivity. Qed.
Lemma isort_in {A} (leb : A -> A -> bool) l x : In x (isort leb l) <-> In x l.
Proof. split; apply Permutation_in; [|symmetry]; apply isort_perm. Qed.
Lemma bytes_leb_total a b : bytes_leb a b = false -> bytes_leb b a = true.
Proof.
  revert b. induction a as [|x a IH]; intros [|y b]; cbn; try reflexivity; try discriminate.
  rewrite !orb_false_iff, !orb_true_iff. intros [H1 H2]. apply N.ltb_ge in H1.
  destruct (N.eq_dec y x) as [-> | Hn].
  - right. rewrite N.eqb_refl in *. cbn in *. exact (IH b H2).
  - left. apply N.ltb_lt. lia.
Qed.
Lemma insert_sorted {A} (leb : A -> A -> bool) x l : (forall a b, leb a b = false -> leb b a = true) ->
  Sorted (fun a b => leb a b = true) l -> Sorted (fun a b => leb a b = true) (insert leb x l).
Proof.
  intros T. induction l as [|y r IH]; cbn; intros S; [repeat constructor|].
  destruct (leb x y) eqn:E; [constructor; [exact S|constructor; exact E]|].
  inversion S as [|? ? S1 S2]; subst. constructor; [exact (IH S1)|].
  destruct r as [|z r]; cbn; [constructor; apply T, E|].
  destruct (leb x z); constructor; [apply T, E|]. inversion S2; subst. assumption.
Qed.
Lemma isort_sorted {A} (leb : A -> A -> bool) l : (forall a b, leb a b = false -> leb b a = true) ->
  Sorted (fun a b => leb a b = true) (isort leb l).
Proof. intros T. induction l as [|x r IH]; cbn; [constructor|]. apply insert_sorted; assumption. Qed.

(* --- listings --- *)
Lemma whiteout_above_iff ls i p : whiteout_above ls i p = true <-> exists k, k < i /\ whi ls k p = true.
Proof.
  unfold whiteout_above, whi. revert i. induction ls as [|l r IH]; intros i.
  - destruct i; cbn; split; try discriminate; intros [k [_ H]]; destruct k; discriminate.
  - destruct i as [|i]; cbn; [split; [discriminate|intros [k [H _]]; lia]|].
    rewrite orb_true_iff, IH. split.
    + intros [H|[k [H1 H2]]]; [exists 0; split; [lia|exact H]|exists (S k); split; [lia|exact H2]].
    + intros [[|k] [H1 H2]]; [left; exact H2|right; exists k; split; [lia|exact H2]].
Qed.
Lemma child_cut_spec ls p j : 0 < length ls ->
  (j <= child_cut ls p <-> j < length ls /\ forall k a, k < j -> under a p -> whi ls k a = false /\ opi ls k a = false).
Proof.
  intros Hl. pose proof (cut_spec ls p 0) as CS. specialize (fun j => CS j ltac:(lia) Hl).
  assert (Eq : forall j, (forall k, 0 <= k < j -> ~ hides ls k p) /\ (forall k, k < j -> opi ls k p = false) <->
                    forall k a, k < j -> under a p -> whi ls k a = false /\ opi ls k a = false).
  { intros j'. split.
    - intros [H1 H2] k a Hk Ha. specialize (H1 k ltac:(lia)). destruct (path_dec a p) as [-> | Hn].
      + split; [|exact (H2 k Hk)]. destruct (whi ls k p) eqn:E; [|reflexivity]. exfalso. apply H1. left. exact E.
      + assert (strictly_under a p) as Hs by (apply strictly_under_iff; auto).
        split; [destruct (whi ls k a) eqn:E|destruct (opi ls k a) eqn:E]; try reflexivity; exfalso; apply H1; right; exists a; auto.
    - intros H. split; [|intros k Hk; exact (proj2 (H k p Hk (under_refl p)))].
      intros k Hk [Hh|[a [Ha [Hh|Hh]]]].
      + destruct (H k p ltac:(lia) (under_refl p)). congruence.
      + apply strictly_under_iff in Ha as [Ha _]. destruct (H k a ltac:(lia) Ha). congruence.
      + apply strictly_under_iff in Ha as [Ha _]. destruct (H k a ltac:(lia) Ha). congruence. }
  unfold child_cut, upto. destruct (find _ _) as [i|] eqn:E.
  - apply find_seq_some in E as [E1 [E2 E3]]. split.
    + intros Hj. assert (0 <= j <= cut_from ls p 0) as Hc by lia. apply CS in Hc as [Hc1 Hc2].
      split; [lia|]. apply Eq. split; [exact Hc2|]. intros k Hk. apply E3. lia.
    + intros [H1 H2]. apply Eq in H2 as [H2 H3]. destruct (le_lt_dec j i) as [|Hlt]; [assumption|].
      specialize (H3 i Hlt). change (opi ls i p) with (opaquei ls p i) in H3. congruence.
  - pose proof (find_seq_none _ _ _ E) as H. split.
    + intros Hj. assert (0 <= j <= cut_from ls p 0) as Hc by lia. apply CS in Hc as [Hc1 Hc2].
      split; [lia|]. apply Eq. split; [exact Hc2|]. intros k Hk. apply H. lia.
    + intros [H1 H2]. apply Eq in H2 as [H2 H3]. apply (CS j). split; [lia|exact H2].
Qed.
Lemma view_offers ls from p k n : view ls from p = Some (k, n) <->
  from <= k < length ls /\ offers ls from p k = true /\ at_ ls k p = Some n /\ forall k', from <= k' < k -> offers ls from p k' = false.
Proof.
  unfold view. split.
  - destruct (find _ _) as [j|] eqn:E; [|discriminate]. apply find_seq_some in E as [E1 [E2 E3]].
    destruct (at_ ls j p) as [x|] eqn:Ex; [|discriminate]. intros H. inversion H; subst. split; [lia|]. auto.
  - intros [H1 [H2 [H3 H4]]]. rewrite (find_seq_first _ from _ k); [rewrite H3; reflexivity|lia|exact H2|exact H4].
Qed.
Lemma existsb_fst c (acc : list (name * nat)) : existsb (fun e => bytes_eqb c (fst e)) acc = true <-> In c (map fst acc).
Proof.
  rewrite existsb_exists, in_map_iff. split; intros [e [H1 H2]]; exists e; [apply bytes_eqb_eq in H2; auto|].
  split; [exact H2|]. apply bytes_eqb_eq. auto.
Qed.
Lemma nodup_snoc (l : list name) c : NoDup l -> ~ In c l -> NoDup (l ++ [c]).
Proof.
  induction l as [|x l IH]; cbn; intros H1 H2; [repeat constructor; auto|].
  inversion H1; subst. constructor; [rewrite in_app_iff; cbn; intros [H|[H|[]]]; [auto|apply H2; left; congruence]|].
  apply IH; [assumption|tauto].
Qed.
Lemma add_entries_spec ls i p cs : forall acc, NoDup (map fst acc) ->
  NoDup (map fst (add_entries ls i p cs acc)) /\
  forall c k, In (c, k) (add_entries ls i p cs acc) <->
    In (c, k) acc \/ (k = i /\ In c cs /\ ~ In c (map fst acc) /\ whiteout_above ls i (c :: p) = false).
Proof.
  induction cs as [|x cs IH]; intros acc Hn.
  - cbn. split; [exact Hn|]. intros c k. tauto.
  - cbn [add_entries]. cbn zeta. destruct (existsb (fun e => bytes_eqb x (fst e)) acc) eqn:E.
    + apply existsb_fst in E. destruct (IH acc Hn) as [H1 H2]. split; [exact H1|]. intros c k. rewrite H2. cbn. split.
      * intros [H|[H3 [H4 [H5 H6]]]]; [left; exact H|right; tauto].
      * intros [H|[H3 [[<- | H4] [H5 H6]]]]; [left; exact H|contradiction|right; tauto].
    + assert (~ In x (map fst acc)) as Hx by (intros H; apply existsb_fst in H; congruence).
      destruct (whiteout_above ls i (x :: p)) eqn:Ew.
      * destruct (IH acc Hn) as [H1 H2]. split; [exact H1|]. intros c k. rewrite H2. cbn. split.
        -- intros [H|[H3 [H4 [H5 H6]]]]; [left; exact H|right; tauto].
        -- intros [H|[H3 [[<- | H4] [H5 H6]]]]; [left; exact H|congruence|right; tauto].
      * assert (Hn' : NoDup (map fst (acc ++ [(x, i)]))) by (rewrite map_app; apply nodup_snoc; assumption).
        destruct (IH _ Hn') as [H1 H2]. split; [exact H1|]. intros c k. rewrite H2. rewrite map_app, !in_app_iff. cbn. split.
        -- intros [[H|[H|[]]]|[H3 [H4 [H5 H6]]]]; [left; exact H|inversion H; subst; right; tauto|right; tauto].
        -- intros [H|[H3 [[<- | H4] [H5 H6]]]]; [tauto|left; right; left; congruence|].
           destruct (bytes_eqb x c) eqn:Exc; [apply bytes_eqb_eq in Exc; subst; left; right; left; congruence|].
           right. split; [exact H3|]. split; [exact H4|]. split; [|exact H6]. intros [H|[H|[]]]; [contradiction|].
           subst c. assert (bytes_eqb x x = true) by (apply bytes_eqb_eq; reflexivity). congruence.
Qed.

Definition listed (ls : stack) (p : path) (es : list (name * nat)) : Prop :=
  (forall c k, In (c, k) es <-> exists n, view ls 0 (c :: p) = Some (k, n)) /\ NoDup (map fst es) /\
  Sorted (fun a b => bytes_leb (fst a) (fst b) = true) es.
Definition partly (ls : stack) (p : path) (i : nat) (acc : list (name * nat)) : Prop :=
  (forall c k, In (c, k) acc <-> k < i /\ exists n, view ls 0 (c :: p) = Some (k, n)) /\ NoDup (map fst acc).

Lemma partly_listed ls p i acc : partly ls p i acc -> (forall k, i <= k -> merged ls 0 k p = false) -> listed ls p (isort leb_entry acc).
Proof.
  intros [H1 H2] H3. split; [|split].
  - intros c k. rewrite isort_in, H1. split; [intros [_ H]; exact H|]. intros [n H]. split; [|eauto].
    destruct (le_lt_dec i k) as [Hle|]; [|assumption]. exfalso. apply view_offers in H as [_ [H _]].
    apply offers_spec in H as [H _]. rewrite (H3 k Hle) in H. discriminate.
  - apply (Permutation_NoDup (l := map fst acc)); [|exact H2]. apply Permutation_map. symmetry. apply isort_perm.
  - apply (isort_sorted leb_entry). intros a b. apply bytes_leb_total.
Qed.
Lemma merged_blocked ls p i k : wf ls -> (exists a, under a p /\ nondir_at ls i a = true) -> i <= k -> merged ls 0 k p = false.
Proof.
  intros W [a [Ha Hn]] Hk. destruct (merged ls 0 k p) eqn:E; [|reflexivity]. apply merged_spec in E as [_ [E1 E2]].
  destruct (Nat.eq_dec i k) as [-> | Hne].
  - specialize (E1 a Ha). unfold dir_at in E1. unfold nondir_at in Hn. destruct (at_ ls k a); [|discriminate]. rewrite E1 in Hn. discriminate.
  - destruct (E2 i a ltac:(lia) Ha) as [_ [_ H]]. congruence.
Qed.
Lemma merged_past_cut ls p k : 0 < length ls -> child_cut ls p < k -> merged ls 0 k p = false.
Proof.
  intros Hl Hk. destruct (merged ls 0 k p) eqn:E; [|reflexivity]. exfalso. apply merged_spec in E as [_ [E1 E2]].
  assert (k <= child_cut ls p); [|lia]. apply child_cut_spec; [exact Hl|]. split.
  - specialize (E1 p (under_refl p)). unfold dir_at in E1. destruct (at_ ls k p) eqn:Ea; [|discriminate]. exact (at_len _ _ _ _ Ea).
  - intros k' a Hk' Ha. destruct (E2 k' a ltac:(lia) Ha) as [H1 [H2 _]]. auto.
Qed.

Lemma read_loop_good be ls p : wf ls -> unlinked ls p -> forall n i acc, n = S (child_cut ls p) - i ->
  (forall j a, j < i -> under a p -> nondir_at ls j a = false) -> partly ls p i acc ->
  match read_loop be ls p (upto i (child_cut ls p)) acc with
  | DNames es => listed ls p es
  | DErr e => e = EOther /\ exists i a, i < length ls /\ under a p /\ broken be i a = true
  end.
Proof.
  intros W U. pose proof (wf_len ls W) as Hl. pose proof (child_cut_spec ls p) as CC. specialize (fun j => CC j Hl).
  induction n as [|n IH]; intros i acc En Inv P.
  - rewrite upto_nil by lia. cbn. apply (partly_listed _ _ i); [exact P|]. intros k Hk. apply merged_past_cut; [exact Hl|lia].
  - rewrite upto_cons by lia. cbn [read_loop].
    assert (i <= child_cut ls p) as Hc by lia. pose proof (proj1 (CC i) Hc) as [Hil Hclear].
    assert (Hcut : 0 <= i <= cut_from ls p 0).
    { apply cut_spec; [lia|exact Hl|]. split; [lia|]. intros k Hk [H|[a [Ha H]]].
      - destruct (Hclear k p ltac:(lia) (under_refl p)). congruence.
      - apply strictly_under_iff in Ha as [Ha _]. destruct (Hclear k a ltac:(lia) Ha). destruct H; congruence. }
    destruct (nth_error ls i) as [l|] eqn:El; [|apply nth_error_None in El; lia].
    pose proof (wf_at _ _ _ W El) as Wl.
    assert (At : forall a, at_ ls i a = node_at (l_tree l) a) by (intros a; unfold at_; rewrite El; reflexivity).
    unfold lstat. destruct (broken be i p) eqn:B; [split; [reflexivity|]; exists i, p; split; [lia|split; [apply under_refl|exact B]]|].
    pose proof (walk_spec (l_tree l) p Wl) as S. destruct (walk (l_tree l) p) as [x| | |].
    + destruct (is_dir x) eqn:Dx.
      * assert (M : merged ls 0 i p = true).
        { apply merged_spec. split; [lia|]. split.
          - intros a Ha. destruct (path_dec a p) as [-> | Hn]; [unfold dir_at; rewrite At, S; exact Dx|].
            assert (at_ ls i p = Some x) as Hx by (rewrite At; exact S).
            apply (at_ancestor _ _ _ _ _ W Hx). apply strictly_under_iff. auto.
          - intros k a Hk Ha. destruct (Hclear k a ltac:(lia) Ha) as [H1 H2]. split; [exact H1|]. split; [exact H2|]. apply Inv; [lia|exact Ha]. }
        destruct P as [P1 P2]. destruct (add_entries_spec ls i p (children (l_tree l) p) acc P2) as [A1 A2].
        apply IH; [lia| |split; [|exact A1]].
        -- intros j a Hj Ha. destruct (Nat.eq_dec j i) as [-> | Hn]; [|apply Inv; [lia|exact Ha]].
           apply merged_spec in M as [_ [M _]]. specialize (M a Ha). unfold dir_at in M. unfold nondir_at. destruct (at_ ls i a); [rewrite M; reflexivity|reflexivity].
        -- intros c k. rewrite A2, P1. split.
           ++ intros [[H1 H2]|[-> [H1 [H2 H3]]]]; [split; [lia|exact H2]|]. split; [lia|].
              apply in_children in H1. destruct (tget (l_tree l) (c :: p)) as [y|] eqn:Ey; [|congruence]. exists y.
              apply view_offers. split; [lia|]. split; [|split; [rewrite At; exact Ey|]].
              ** apply offers_spec. split; [exact M|]. split; [exists y; rewrite At; exact Ey|].
                 intros k Hk. destruct (whi ls k (c :: p)) eqn:Ek; [|reflexivity]. exfalso.
                 assert (whiteout_above ls i (c :: p) = true); [|congruence]. apply whiteout_above_iff. exists k. split; [lia|exact Ek].
              ** intros k' Hk'. destruct (offers ls 0 (c :: p) k') eqn:Eo; [|reflexivity]. exfalso. apply H2.
                 apply in_map_iff.
                 assert (G : exists k2, k2 < i /\ exists n2, view ls 0 (c :: p) = Some (k2, n2)).
                 { unfold view. destruct (find (offers ls 0 (c :: p)) (seq 0 (length ls - 0))) as [k2|] eqn:Ef.
                   - apply find_seq_some in Ef as [F1 [F2 F3]]. exists k2. split.
                     + destruct (le_lt_dec i k2) as [Hle|]; [|assumption]. rewrite (F3 k') in Eo by lia. discriminate.
                     + apply offers_spec in F2 as [_ [[y2 Hy2] _]]. exists y2. rewrite Hy2. reflexivity.
                   - rewrite (find_seq_none _ _ _ Ef k') in Eo by lia. discriminate. }
                 destruct G as [k2 [Hk2 Hv2]]. exists (c, k2). split; [reflexivity|]. apply P1. auto.
           ++ intros [Hk [y Hy]]. destruct (Nat.eq_dec k i) as [-> | Hn]; [|left; split; [lia|eauto]]. right. split; [reflexivity|].
              apply view_offers in Hy as [_ [Ho [Ha Hmin]]]. apply offers_spec in Ho as [_ [_ Hw]]. split; [|split].
              ** apply in_children. rewrite At in Ha. change (node_at (l_tree l) (c :: p)) with (tget (l_tree l) (c :: p)) in Ha. congruence.
              ** intros Hin. apply in_map_iff in Hin as [[c' k'] [Ec Hin]]. cbn in Ec. subst c'. apply P1 in Hin as [Hk' [y' Hy']].
                 apply view_offers in Hy' as [_ [Ho' _]]. rewrite (Hmin k') in Ho' by lia. discriminate.
              ** destruct (whiteout_above ls i (c :: p)) eqn:Ew; [|reflexivity]. exfalso. apply whiteout_above_iff in Ew as [k' [Hk' Hw']].
                 rewrite (Hw k') in Hw' by lia. discriminate.
      * apply (partly_listed _ _ i); [exact P|]. intros k Hk. apply (merged_blocked ls p i k W); [|exact Hk].
        exists p. split; [apply under_refl|]. apply (nondir_at_iff _ _ _ _ El). exists x. auto.
    + destruct S as [S1 S2]. apply IH; [lia| |].
      * intros j a Hj Ha. destruct (Nat.eq_dec j i) as [-> | Hn]; [|apply Inv; [lia|exact Ha]].
        destruct (nondir_at ls i a) eqn:E; [|reflexivity]. exfalso. apply (nondir_at_iff _ _ _ _ El) in E. exact (S2 a Ha E).
      * destruct P as [P1 P2]. split; [|exact P2]. intros c k. rewrite P1. split; intros [H1 H2]; (split; [|exact H2]); [lia|].
        destruct (Nat.eq_dec k i) as [-> | Hn]; [|lia]. exfalso. destruct H2 as [y Hy]. apply view_offers in Hy as [_ [_ [Ha _]]].
        apply (at_parent _ _ _ _ _ W) in Ha. unfold dir_at in Ha. rewrite At, S1 in Ha. discriminate.
    + destruct S as [S1 [a [x [Ha [Hx Hd]]]]].
      destruct p as [|c q]; [exfalso; exact (strictly_nil a Ha)|]. cbn [tl].
      pose proof (blocked_spec be i (l_tree l) q Wl) as Bs.
      specialize (Bs (ex_intro _ a (ex_intro _ x (conj (proj1 (strictly_cons a c q) Ha) (conj Hx Hd))))).
      assert (LK : ~ exists b g, strictly_under b q /\ node_at (l_tree l) b = Some (OLink g)).
      { intros [b [g [Hb' Hg]]]. apply U. exists i, b, g. split; [exact Hcut|]. split; [|rewrite At; exact Hg].
        apply strictly_cons. apply strictly_under_iff in Hb'. tauto. }
      destruct (blocked_at be i (l_tree l) q).
      * apply (partly_listed _ _ i); [exact P|]. intros k Hk. apply (merged_blocked ls (c :: q) i k W); [|exact Hk].
        exists a. split; [apply under_cons; exact (proj1 (strictly_cons a c q) Ha)|]. apply (nondir_at_iff _ _ _ _ El). exists x. auto.
      * contradiction.
      * destruct Bs as [[b [Hb Hbr]]|Bs]; [|contradiction]. split; [reflexivity|]. exists i, b. split; [lia|]. split; [apply under_cons, Hb|exact Hbr].
    + destruct S as [S1 [a [g [Ha Hg]]]]. exfalso. apply U. exists i, a, g. rewrite At. auto.
Qed.

Theorem read_dir_view be ls p : wf ls -> unlinked ls p ->
  match read_dir be ls p with
  | DNames es => visible_dir ls p /\ listed ls p es
  | DErr ENotExist => visible ls p = None
  | DErr ENotDir => ~ visible_dir ls p
  | DErr _ => exists i a, i < length ls /\ under a p /\ broken be i a = true
  end.
Proof.
  intros W U. unfold read_dir. pose proof (lookup_true be ls p W U) as L. destruct (lookup be ls p) as [i n| | |].
  - destruct (is_dir n) eqn:D.
    + assert (V : visible_dir ls p) by (destruct n as [m| | |]; try discriminate; exists m; unfold visible; rewrite L; reflexivity).
      apply (view_some' _ _ _ _ _ W (wf_len ls W)) in L as [L1 [L2 [L3 L4]]].
      assert (G := read_loop_good be ls p W U (S (child_cut ls p) - i) i [] eq_refl).
      destruct (read_loop be ls p (upto i (child_cut ls p)) []) as [es|e].
      * split; [exact V|]. apply G.
        -- intros j a Hj Ha. destruct (path_dec a p) as [-> | Hn].
           ++ unfold nondir_at. rewrite (L3 j ltac:(lia)). reflexivity.
           ++ apply L4; [lia|]. apply strictly_under_iff. auto.
        -- split; [|constructor]. intros c k. cbn. split; [intros []|]. intros [Hk [y Hy]]. apply view_offers in Hy as [_ [_ [Ha _]]].
           apply (at_parent _ _ _ _ _ W) in Ha. unfold dir_at in Ha. rewrite (L3 k ltac:(lia)) in Ha. discriminate.
      * assert (Bk : e = EOther /\ exists i a, i < length ls /\ under a p /\ broken be i a = true).
        { apply G.
          - intros j a Hj Ha. destruct (path_dec a p) as [-> | Hn].
            + unfold nondir_at. rewrite (L3 j ltac:(lia)). reflexivity.
            + apply L4; [lia|]. apply strictly_under_iff. auto.
          - split; [|constructor]. intros c k. cbn. split; [intros []|]. intros [Hk [y Hy]]. apply view_offers in Hy as [_ [_ [Ha _]]].
            apply (at_parent _ _ _ _ _ W) in Ha. unfold dir_at in Ha. rewrite (L3 k ltac:(lia)) in Ha. discriminate. }
        destruct Bk as [-> Bk]. exact Bk.
    + intros [m Hm]. unfold visible in Hm. rewrite L in Hm. cbn in Hm. inversion Hm; subst. discriminate.
  - unfold visible. rewrite L. reflexivity.
  - intros [m Hm]. unfold visible in Hm. rewrite L in Hm. discriminate.
  - exact L.
Qed.

(* A name refused for a non-directory on the way has no visible directory above it. *)
Lemma notdir_true be ls c q : wf ls -> unlinked ls q -> answers be ls q -> lookup be ls (c :: q) = LNotDir -> ~ visible_dir ls q.
Proof.
  intros W U A H [m Hm]. pose proof (lookup_view be ls q W U A) as L. cbn [lookup] in H.
  assert (G : forall is berr, lookup_loop be ls (c :: q) berr is = LNotDir -> berr = LNotDir).
  { induction is as [|i r IH]; intros berr; cbn; [discriminate|]. destruct (nth_error ls i) as [l|]; [|discriminate].
    destruct (lstat be i (l_tree l) (c :: q)); try discriminate; try apply IH. destruct (blocked_at be i (l_tree l) q); [auto|apply IH|discriminate]. }
  apply G in H. unfold visible in Hm. destruct (lookup be ls q) as [i n| | |].
  - rewrite L in Hm. cbn in Hm. inversion Hm; subst n. cbn in H. discriminate.
  - rewrite L in Hm. discriminate.
  - rewrite L in Hm. discriminate.
  - contradiction.
Qed.

(* --- checks for concrete stacks --- *)
Definition wf_treeb (t : tree) : bool := forallb (fun e => match fst e with [] => true | _ :: q => holds_dir t q end) t.
Lemma tget_in t p n : tget t p = Some n -> exists n', In (p, n') t.
Proof.
  induction t as [|[q x] t IH]; cbn; [discriminate|]. destruct (path_eqb p q) eqn:E.
  - apply path_eqb_eq in E. subst q. intros _. exists x. left. reflexivity.
  - intros H. destruct (IH H) as [y Hy]. exists y. right. exact Hy.
Qed.
Lemma wf_tree_check t : wf_treeb t = true -> wf_tree t.
Proof.
  unfold wf_treeb. rewrite forallb_forall. intros H c p n Hg. apply tget_in in Hg as [n' Hin]. specialize (H _ Hin). cbn in H.
  unfold holds_dir in H. destruct (node_at t p) as [[m| | |]|]; try discriminate. eauto.
Qed.
Lemma wf_check ls : (negb (is_nil ls) && forallb (fun l => wf_treeb (l_tree l)) ls) = true -> wf ls.
Proof.
  rewrite andb_true_iff, forallb_forall. intros [H1 H2]. split; [destruct ls; [discriminate|discriminate]|].
  apply Forall_forall. intros l Hl. apply wf_tree_check, H2, Hl.
Qed.
Fixpoint above (p : path) : list path := match p with [] => [] | _ :: q => q :: above q end.
Lemma in_above a p : In a (above p) <-> strictly_under a p.
Proof.
  induction p as [|c q IH]; cbn; [split; [intros []|apply strictly_nil]|]. rewrite IH, strictly_cons, strictly_under_iff. split.
  - intros [<- | [H _]]; [apply under_refl|exact H].
  - intros H. destruct (path_dec a q) as [-> | Hn]; auto.
Qed.
Definition linkb (ls : stack) (i : nat) (a : path) : bool := match at_ ls i a with Some (OLink _) => true | _ => false end.
Lemma unlinked_check ls p : forallb (fun i => forallb (fun a => negb (linkb ls i a)) (above p)) (upto 0 (cut_from ls p 0)) = true -> unlinked ls p.
Proof.
  rewrite forallb_forall. intros H [i [a [g [Hi [Ha Hg]]]]].
  specialize (H i (proj2 (in_upto i 0 (cut_from ls p 0)) Hi)). rewrite forallb_forall in H.
  specialize (H a (proj2 (in_above a p) Ha)). unfold linkb in H. rewrite Hg in H. discriminate.
Qed.
