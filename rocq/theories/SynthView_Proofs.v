(* When synthfs closes the views of files. *)
From Verif Require Import Common CommonLemmas ContentRange_Model ContentRange_Proofs PathLex_Model PathLex_Proofs Synth_Model Synth_Spec Synth_Proofs SynthTree_Proofs SynthPath_Proofs.
Open Scope nat_scope.

Definition views_inj (h : heap) : Prop := forall k k' v, view_of h k = Some v -> view_of h k' = Some v -> k = k'.
Definition closes (h : heap) (n v : nat) : Prop := exists k, reach h n k /\ view_of h k = Some v.

Lemma listed_same h h' : (forall d nm, lookup h' d nm = lookup h d nm) -> forall k, listed h' k <-> listed h k.
Proof. intros H k. split; intros (d & nm & E); exists d, nm; [now rewrite <- H|now rewrite H]. Qed.
Lemma seen_view h h' k : seen h' k = seen h k -> view_of h' k = view_of h k.
Proof. unfold seen, view_of. destruct (nodes h' k) as [[| |]|], (nodes h k) as [[| |]|]; cbn; congruence. Qed.

Lemma views_same strict h h' : views_ok strict h -> (forall k, view_of h' k = view_of h k) -> (forall k, view_of h k <> None -> (listed h' k <-> listed h k)) ->
  (forall v, closed h' v = closed h v) -> next_view h' = next_view h -> views_ok strict h'.
Proof.
  intros [H1 H2 H3 H4] Hv Hl Hc Hn. constructor.
  - intros k v E. rewrite Hv in E. rewrite Hn, Hc. rewrite Hl by congruence. now apply H1.
  - intros k k' v. rewrite !Hv. apply H2.
  - intros v. rewrite Hc. apply H3.
  - intros v. rewrite Hc, Hn. apply H4.
Qed.
Lemma closed_add h d nm n : closed (add_entry h d nm n) = closed h /\ next_view (add_entry h d nm n) = next_view h.
Proof. unfold add_entry. destruct (nodes h d) as [[| |]|]; split; reflexivity. Qed.
Lemma closed_remove h d nm : closed (remove_entry h d nm) = closed h /\ next_view (remove_entry h d nm) = next_view h.
Proof. unfold remove_entry. destruct (nodes h d) as [[| |]|]; split; reflexivity. Qed.
Lemma view_entless h h' : (forall k, option_map entless (nodes h' k) = option_map entless (nodes h k)) -> forall k, view_of h' k = view_of h k.
Proof. intros H k. specialize (H k). unfold view_of. destruct (nodes h' k) as [[| |]|], (nodes h k) as [[| |]|]; cbn in H; congruence. Qed.
Lemma view_add h d nm n k : view_of (add_entry h d nm n) k = view_of h k.
Proof. apply view_entless. intros. apply nodes_add. Qed.
Lemma view_remove h d nm k : view_of (remove_entry h d nm) k = view_of h k.
Proof. apply view_entless. intros. apply nodes_remove. Qed.
Lemma view_emptied h h' : emptied h h' -> forall k, view_of h' k = view_of h k.
Proof. intros [_ H] k. unfold view_of. destruct (H k) as [-> | (m & p & es & -> & ->)]; reflexivity. Qed.
Lemma view_nodes h h' : (forall k, nodes h' k = nodes h k) -> forall k, view_of h' k = view_of h k.
Proof. intros H k. unfold view_of. now rewrite H. Qed.

(* Entering something new where no file is. *)
Definition no_file (h : heap) (d : nat) (nm : list byte) : Prop := forall x, lookup h d nm = Some x -> view_of h x = None.
Lemma listed_enter h d nm x k : tree_inv h -> is_dir_at h d -> leaf_node x d nm -> no_file h d nm -> view_of h k <> None -> (listed (fst (enter_new h d nm x)) k <-> listed h k).
Proof.
  intros H Hd Hx Hf Hk. assert (k <> next h) as Hne by (intros ->; unfold view_of in Hk; rewrite (t_fresh h H) in Hk by lia; contradiction). split.
  - intros (d' & nm' & E). rewrite lookup_enter in E by assumption. destruct (Nat.eqb d' d && bytes_eqb nm' nm); [congruence|]. now exists d', nm'.
  - intros (d' & nm' & E). exists d', nm'. rewrite lookup_enter by assumption. destruct (Nat.eqb d' d && bytes_eqb nm' nm) eqn:Ec; [|exact E]. apply andb_true_iff in Ec. destruct Ec as [E1 E2]. apply Nat.eqb_eq in E1. apply bytes_eqb_eq in E2. subst d' nm'.
    apply Hf in E. contradiction.
Qed.
Lemma view_enter h d nm x k : tree_inv h -> is_dir_at h d -> view_of (fst (enter_new h d nm x)) k = if Nat.eqb k (next h) then match x with NFile _ v => Some v | _ => None end else view_of h k.
Proof.
  intros H Hd. rewrite enter_eq. cbn [fst]. rewrite view_add. unfold view_of. cbn. unfold setf. destruct (Nat.eqb k (next h)); [|reflexivity]. now destruct x.
Qed.
Lemma closed_enter h d nm x : closed (fst (enter_new h d nm x)) = closed h /\ next_view (fst (enter_new h d nm x)) = next_view h.
Proof. rewrite enter_eq. cbn [fst]. destruct (closed_add (fst (alloc h x)) d nm (next h)) as [-> ->]. split; reflexivity. Qed.
Lemma views_enter strict h d nm x : tree_inv h -> is_dir_at h d -> leaf_node x d nm -> (forall m v, x <> NFile m v) -> no_file h d nm -> views_ok strict h -> views_ok strict (fst (enter_new h d nm x)).
Proof.
  intros H Hd Hx Hnf Hf Hv. destruct (closed_enter h d nm x) as [Hc Hn]. eapply views_same; [exact Hv| | |now intros v; rewrite Hc|exact Hn].
  - intros k. rewrite view_enter by assumption. destruct (Nat.eqb_spec k (next h)) as [-> | _]; [|reflexivity]. unfold view_of. rewrite (t_fresh h H) by lia. destruct x as [| m v|]; try reflexivity. now destruct (Hnf m v).
  - intros k Hk. now apply listed_enter.
Qed.
Lemma views_file strict h d nm mode t : tree_inv h -> is_dir_at h d -> no_file h d nm -> views_ok strict h -> views_ok strict (fst (enter_file h d nm mode t)).
Proof.
  intros H Hd Hf [H1 H2 H3 H4]. rewrite enter_file_eq. set (h1 := fst (fresh_view h t)). assert (tree_inv h1) as Hi by now apply inv_fresh. assert (is_dir_at h1 d) as Hd1 by exact Hd. set (x := NFile (new_meta nm mode) (next_view h)).
  assert (leaf_node x d nm) as Hx by now split. destruct (closed_enter h1 d nm x) as [Hc Hn]. assert (forall k, view_of (fst (enter_new h1 d nm x)) k = if Nat.eqb k (next h) then Some (next_view h) else view_of h k) as Hview by (intros k; rewrite view_enter by assumption; reflexivity).
  constructor.
  - intros k v E. rewrite Hn, Hc. change (next_view h1) with (S (next_view h)). change (closed h1) with (closed h). rewrite Hview in E. destruct (Nat.eqb_spec k (next h)) as [-> | Hk].
    + apply some_inj in E. subst v. split; [lia|]. left. split; [|apply H4; lia]. exists d, nm. rewrite (lookup_enter h1 d nm x d nm Hi Hd1 Hx). now rewrite Nat.eqb_refl, bytes_eqb_refl.
    + destruct (H1 k v E) as [Hlt Hor]. split; [lia|]. rewrite (listed_enter h1 d nm x k Hi Hd1 Hx); [exact Hor|exact Hf|]. change (view_of h1 k) with (view_of h k). congruence.
  - intros k k' v. rewrite !Hview. destruct (Nat.eqb_spec k (next h)) as [-> | Hk], (Nat.eqb_spec k' (next h)) as [-> | Hk']; intros E1 E2.
    + reflexivity.
    + apply some_inj in E1. subst v. apply H1 in E2. lia.
    + apply some_inj in E2. subst v. apply H1 in E1. lia.
    + eapply H2; eassumption.
  - intros v. rewrite Hc. apply H3.
  - intros v. rewrite Hn, Hc. cbn. intros. apply H4. lia.
Qed.

(* Removing an entry. *)
Lemma listed_remove h d base k x : tree_inv h -> lookup h d base = Some x -> (listed (remove_entry h d base) k <-> listed h k /\ k <> x).
Proof.
  intros H Hx. split.
  - intros (d' & nm & E). rewrite lookup_remove in E. destruct (Nat.eqb d' d && bytes_eqb nm base) eqn:Ec; [discriminate|]. split; [now exists d', nm|]. intros ->. destruct (t_once h H _ _ _ _ _ E Hx) as [-> ->]. now rewrite Nat.eqb_refl, bytes_eqb_refl in Ec.
  - intros [(d' & nm & E) Hne]. exists d', nm. rewrite lookup_remove. destruct (Nat.eqb d' d && bytes_eqb nm base) eqn:Ec; [|exact E]. apply andb_true_iff in Ec. destruct Ec as [E1 E2]. apply Nat.eqb_eq in E1. apply bytes_eqb_eq in E2. subst. congruence.
Qed.
Lemma views_displace strict h d base : tree_inv h -> views_ok strict h -> views_ok strict (displace h d base (lookup h d base)).
Proof.
  intros H Hv. destruct (lookup h d base) as [x|] eqn:Hx; [|exact Hv]. cbn [displace]. destruct Hv as [H1 H2 H3 H4]. destruct (closed_remove h d base) as [Hc Hn]. set (h1 := remove_entry h d base) in *.
  assert (forall k, view_of h1 k = view_of h k) as Hview by (intros; apply view_remove). assert (forall k, listed h1 k <-> listed h k /\ k <> x) as Hl by (intros; now apply listed_remove).
  unfold close_if_file. pose proof (Hview x) as Hvx. unfold view_of at 1 in Hvx. destruct (nodes h1 x) as [[m p es|m v|m t]|].
  1,3,4: apply (views_same strict h); [constructor; assumption|exact Hview| |intros; now rewrite Hc|exact Hn]; intros k Hk; rewrite Hl; split; [tauto|]; intros Hlk; split; [exact Hlk|]; intros ->; congruence.
  symmetry in Hvx. assert (listed h x) as Hlx by now exists d, base. assert (closed h v = 0) as Hcv by (destruct (H1 x v Hvx) as [_ [[_ E]|[Hnl _]]]; [exact E|contradiction]).
  constructor; cbn.
  - intros k w E. change (view_of h1 k = Some w) in E. rewrite Hview in E. rewrite Hn, Hc. destruct (H1 k w E) as [Hlt Hor]. split; [exact Hlt|].
    assert (listed (close_view h1 v) k <-> listed h1 k) as -> by now apply listed_same. rewrite Hl. unfold setf. destruct (Nat.eqb_spec w v) as [-> | Hw].
    + assert (k = x) as -> by (eapply H2; eassumption). right. split; [tauto|lia].
    + destruct Hor as [[Ha Hb]|[Ha Hb]]; [left|right; tauto]. split; [|exact Hb]. split; [exact Ha|]. intros ->. congruence.
  - intros k k' w E1 E2. change (view_of h1 k = Some w) in E1. change (view_of h1 k' = Some w) in E2. rewrite Hview in E1, E2. eapply H2; eassumption.
  - intros w. rewrite Hc. unfold setf. destruct (Nat.eqb_spec w v) as [-> | Hw]; [lia|apply H3].
  - intros w. rewrite Hc, Hn. unfold setf. destruct (Nat.eqb_spec w v) as [-> | Hw]; [|apply H4]. intros Hge. apply H1 in Hvx. lia.
Qed.
Lemma displace_empty h d base : lookup (displace h d base (lookup h d base)) d base = None.
Proof. destruct (lookup h d base) as [x|] eqn:E; [|exact E]. rewrite displace_lookup. now rewrite Nat.eqb_refl, bytes_eqb_refl. Qed.
Lemma displace_no_file h d base : no_file (displace h d base (lookup h d base)) d base.
Proof. intros x E. rewrite displace_empty in E. discriminate. Qed.

(* What removing a subtree closes. *)
Lemma reach_same h h' n : (forall k, reach h n k -> nodes h' k = nodes h k) -> forall k, reach h n k <-> reach h' n k.
Proof.
  intros H k. split; intros Hr.
  - induction Hr as [|e nm k Hr IH Hl]; [apply reach_self|]. eapply reach_step; [exact IH|]. unfold lookup in *. rewrite (H e Hr). exact Hl.
  - induction Hr as [|e nm k Hr IH Hl]; [apply reach_self|]. eapply reach_step; [exact IH|]. unfold lookup in *. rewrite (H e IH) in Hl. exact Hl.
Qed.
Lemma siblings_apart h n a x b y k : tree_inv h -> acyclic h -> lookup h n a = Some x -> lookup h n b = Some y -> reach h x k -> reach h y k -> a = b.
Proof.
  intros H Ha Hx Hy Hrx Hry. apply reach_at in Hrx. apply reach_at in Hry. destruct Hrx as (l1 & E1), Hry as (l2 & E2).
  assert (a :: l1 = b :: l2) as E; [|congruence]. apply (at_unique h n H Ha _ _ k); cbn; [now rewrite Hx|now rewrite Hy].
Qed.
Lemma reach_below h n k : tree_inv h -> reach h n k -> k = n \/ exists nm e, lookup h n nm = Some e /\ reach h e k.
Proof.
  intros H Hr. induction Hr as [|e nm k Hr IH Hl]; [now left|]. right. destruct IH as [-> | (nm' & e' & Hl' & Hr')]; [exists nm, k; split; [exact Hl|apply reach_self]|]. exists nm', e'. split; [exact Hl'|]. eapply reach_step; eassumption.
Qed.

Definition closing (h h' : heap) (c : nat -> Prop) : Prop := next_view h' = next_view h /\ forall v, (c v /\ closed h' v = S (closed h v)) \/ (~ c v /\ closed h' v = closed h v).

Lemma remove_subtree_views fuel : forall h n h', tree_inv h -> acyclic h -> views_inj h -> remove_subtree fuel h n = Some h' ->
  closing h h' (closes h n) /\ forall k, reach h n k -> entries h' k = [].
Proof.
  induction fuel as [|f IH]; intros h n h' H Ha Hi E; [discriminate|]. cbn in E. destruct (nodes h n) as [[m p es|m v|m t]|] eqn:Hn.
  - (* directories *)
    assert (forall nm e, In (nm, e) es -> lookup h n nm = Some e) as Hin by (intros nm e Hx; unfold lookup; rewrite Hn; apply in_assoc; [eapply (t_keys h H), Hn|exact Hx]).
    pose proof (t_keys h H n m p es Hn) as Hnd.
    assert (forall es' h1 h2, incl es' es -> NoDup (map fst es') -> emptied h h1 -> (forall nm e k, In (nm, e) es' -> reach h e k -> nodes h1 k = nodes h k) ->
      fold_left (fun oh (e : list byte * nat) => match oh with None => None | Some h1 => remove_subtree f h1 (snd e) end) es' (Some h1) = Some h2 ->
      closing h1 h2 (fun v => exists nm e, In (nm, e) es' /\ closes h e v) /\ (forall nm e k, In (nm, e) es' -> reach h e k -> entries h2 k = []) /\ emptied h1 h2) as Hfold.
    { induction es' as [|[nm e] es' IHe]; intros h1 h2 Hincl Hnd' Hem Hsame Ef; cbn [fold_left] in Ef.
      - apply some_inj in Ef. subst h2. split; [|split; [intros nm e k []|apply emptied_refl]]. split; [reflexivity|]. intros v. right. split; [intros (nm & e & [] & _)|reflexivity].
      - cbn [snd] in Ef. destruct (remove_subtree f h1 e) as [h3|] eqn:E3; [|rewrite (fold_none (fun h1 e => remove_subtree f h1 (snd e))) in Ef; discriminate].
        assert (tree_inv h1) as H1 by now apply (emptied_inv h). assert (acyclic h1) as Ha1 by exact (acyclic_sub h h1 (emptied_sub h h1 Hem) Ha).
        assert (views_inj h1) as Hi1 by (intros k k' v; rewrite !(view_emptied h h1 Hem); apply Hi).
        assert (forall k, reach h e k <-> reach h1 e k) as Hre by (apply reach_same; intros k Hk; eapply Hsame; [now left|exact Hk]).
        destruct (IH h1 e h3 H1 Ha1 Hi1 E3) as [[Hnv Hc] Hempty]. pose proof (remove_subtree_emptied _ _ _ _ E3) as Hem3. inversion Hnd' as [|? ? Hni Hnd2]; subst.
        assert (lookup h n nm = Some e) as Hle by (apply Hin, Hincl; now left).
        destruct (IHe h3 h2) as ([Hnv2 Hc2] & Hempty2 & Hem2); auto.
        { intros x Hx. apply Hincl. now right. }
        { eapply emptied_trans; eassumption. }
        { intros nm2 e2 k Hx Hk. rewrite (remove_subtree_below f h1 e h3 k H1 E3); [eapply Hsame; [right; exact Hx|exact Hk]|]. intros Hr. apply Hre in Hr. assert (nm = nm2) as ->; [|apply Hni; change nm2 with (fst (nm2, e2)); now apply in_map].
          eapply (siblings_apart h n nm e nm2 e2 k); eauto. apply Hin, Hincl. now right. }
        assert (forall v, closes h1 e v <-> closes h e v) as Hcl.
        { intros v. split; intros (k & Hr & Hv); exists k; (split; [now apply Hre|]); [now rewrite <- (view_emptied h h1 Hem)|now rewrite (view_emptied h h1 Hem)]. }
        split; [|split].
        + split; [congruence|]. intros v. destruct (Hc v) as [[Hy Ec]|[Hno Ec]], (Hc2 v) as [[Hy2 Ec2]|[Hno2 Ec2]].
          * exfalso. apply Hcl in Hy. destruct Hy as (k & Hr & Hv), Hy2 as (nm2 & e2 & Hx & (k2 & Hr2 & Hv2)). assert (k2 = k) as -> by (eapply Hi; eassumption). assert (nm = nm2) as ->; [|apply Hni; change nm2 with (fst (nm2, e2)); now apply in_map].
            eapply (siblings_apart h n nm e nm2 e2 k); eauto. apply Hin, Hincl. now right.
          * left. split; [exists nm, e; split; [now left|now apply Hcl]|congruence].
          * left. split; [destruct Hy2 as (nm2 & e2 & Hx & Hy2); exists nm2, e2; split; [now right|exact Hy2]|congruence].
          * right. split; [|congruence]. intros (nm2 & e2 & [Ex|Hx] & Hy2).
            -- assert (e2 = e) as -> by congruence. apply Hno. now apply Hcl.
            -- apply Hno2. now exists nm2, e2.
        + intros nm2 e2 k [Ex|Hx] Hk.
          * assert (e2 = e) as -> by congruence. specialize (Hempty k (proj1 (Hre k) Hk)). unfold entries in *. destruct (em_nodes _ _ Hem2 k) as [-> | (m2 & p2 & es2 & _ & ->)]; [exact Hempty|reflexivity].
          * eapply Hempty2; eassumption.
        + eapply emptied_trans; eassumption. }
    destruct (fold_left _ es (Some h)) as [h1|] eqn:Ef; [|discriminate]. apply Hfold in Ef; [|apply incl_refl|exact Hnd|apply emptied_refl|reflexivity]. destruct Ef as ([Hnv Hc] & Hempty & Hem). apply some_inj in E.
    assert (exists m1 p1 es1, nodes h1 n = Some (NDir m1 p1 es1)) as (m1 & p1 & es1 & Hn1) by (destruct (em_nodes _ _ Hem n) as [Ex|(m2 & p2 & es2 & _ & Ex)]; rewrite Ex; eauto). rewrite Hn1 in E. subst h'.
    assert (forall v, closes h n v <-> exists nm e, In (nm, e) es /\ closes h e v) as Hcl.
    { intros v. split.
      - intros (k & Hr & Hv). apply reach_below in Hr; [|exact H]. destruct Hr as [-> | (nm & e & Hl & Hr)]; [unfold view_of in Hv; rewrite Hn in Hv; discriminate|]. exists nm, e. split; [|now exists k]. unfold lookup in Hl. rewrite Hn in Hl. now apply assoc_in.
      - intros (nm & e & Hx & (k & Hr & Hv)). exists k. split; [|exact Hv]. eapply reach_trans; [eapply reach_one, Hin, Hx|exact Hr]. }
    split.
    + split; [exact Hnv|]. intros v. destruct (Hc v) as [[Hy Ec]|[Hno Ec]]; [left|right]; (split; [|exact Ec]).
      * now apply Hcl.
      * intros Hx. apply Hno. now apply Hcl.
    + intros k Hr. unfold entries. rewrite nodes_set. destruct (Nat.eqb_spec k n) as [-> | Hk]; [reflexivity|]. apply reach_below in Hr; [|exact H]. destruct Hr as [-> | (nm & e & Hl & Hr)]; [contradiction|]. apply (Hempty nm e k); [|exact Hr].
      unfold lookup in Hl. rewrite Hn in Hl. now apply assoc_in.
  - apply some_inj in E. subst h'. assert (forall k, reach h n k -> k = n) as Hself.
    { intros k Hr. apply reach_below in Hr; [|exact H]. destruct Hr as [-> | (nm & e & Hl & _)]; [reflexivity|]. unfold lookup in Hl. rewrite Hn in Hl. discriminate. }
    split.
    + split; [reflexivity|]. intros w. cbn. unfold setf. destruct (Nat.eqb_spec w v) as [-> | Hw]; [left|right]; (split; [|reflexivity]).
      * exists n. split; [apply reach_self|]. unfold view_of. now rewrite Hn.
      * intros (k & Hr & Hv). apply Hself in Hr. subst k. unfold view_of in Hv. rewrite Hn in Hv. congruence.
    + intros k Hr. apply Hself in Hr. subst k. unfold entries. cbn. now rewrite Hn.
  - apply some_inj in E. subst h'. assert (forall k, reach h n k -> k = n) as Hself.
    { intros k Hr. apply reach_below in Hr; [|exact H]. destruct Hr as [-> | (nm & e & Hl & _)]; [reflexivity|]. unfold lookup in Hl. rewrite Hn in Hl. discriminate. }
    split.
    + split; [reflexivity|]. intros w. right. split; [|reflexivity]. intros (k & Hr & Hv). apply Hself in Hr. subst k. unfold view_of in Hv. rewrite Hn in Hv. discriminate.
    + intros k Hr. apply Hself in Hr. subst k. unfold entries. now rewrite Hn.
  - apply some_inj in E. subst h'. assert (forall k, reach h n k -> k = n) as Hself.
    { intros k Hr. apply reach_below in Hr; [|exact H]. destruct Hr as [-> | (nm & e & Hl & _)]; [reflexivity|]. unfold lookup in Hl. rewrite Hn in Hl. discriminate. }
    split.
    + split; [reflexivity|]. intros w. right. split; [|reflexivity]. intros (k & Hr & Hv). apply Hself in Hr. subst k. unfold view_of in Hv. rewrite Hn in Hv. discriminate.
    + intros k Hr. apply Hself in Hr. subst k. unfold entries. now rewrite Hn.
Qed.

(* A subtree removed and unlisted: its files' views are closed, all others as before. *)
Lemma views_cut strict h h' n :
  views_inj h -> (forall v, closed h v <= 1) -> (forall v, next_view h <= v -> closed h v = 0) ->
  (forall k v, view_of h k = Some v -> v < next_view h /\ (reach h n k -> closed h v = 0) /\ (~ reach h n k -> (listed h k /\ closed h v = 0) \/ (~ listed h k /\ (strict = true -> closed h v = 1)))) ->
  (forall k, view_of h' k = view_of h k) -> closing h h' (closes h n) ->
  (forall k, reach h n k -> ~ listed h' k) -> (forall k, view_of h k <> None -> ~ reach h n k -> (listed h' k <-> listed h k)) -> views_ok strict h'.
Proof.
  intros Hi H3 H4 H1 Hv [Hn Hc] Hr Hnr. constructor.
  - intros k v E. rewrite Hv in E. rewrite Hn. destruct (H1 k v E) as (Hlt & Hin & Hout). split; [exact Hlt|]. destruct (Hc v) as [[(k' & Hr' & Hv') Ec]|[Hno Ec]].
    + assert (k' = k) as -> by (eapply Hi; eassumption). right. split; [now apply Hr|]. intros _. rewrite Ec, (Hin Hr'). reflexivity.
    + assert (~ reach h n k) as Hk by (intros Hk; apply Hno; now exists k). rewrite (Hnr k) by (try exact Hk; congruence). rewrite Ec. now apply Hout.
  - intros k k' v. rewrite !Hv. apply Hi.
  - intros v. destruct (Hc v) as [[(k' & Hr' & Hv') ->]|[_ ->]]; [|apply H3]. destruct (H1 k' v Hv') as (_ & Hin & _). rewrite (Hin Hr'). lia.
  - intros v Hge. rewrite Hn in Hge. destruct (Hc v) as [[(k' & Hr' & Hv') _]|[_ ->]]; [|now apply H4]. apply H1 in Hv'. lia.
Qed.
Lemma reach_listed h n k : reach h n k -> k = n \/ listed h k.
Proof. intros Hr. inversion Hr as [|e nm ? Hre Hl]; subst; [now left|right; now exists e, nm]. Qed.
Lemma views_zero strict h k v : views_ok strict h -> listed h k -> view_of h k = Some v -> closed h v = 0.
Proof. intros H Hl Hv. destruct (v_file _ _ H k v Hv) as [_ [[_ E]|[Hn _]]]; [exact E|contradiction]. Qed.

(* In the emptied heap nothing of the subtree is listed but by others. *)
Lemma subtree_listing h h1 n : tree_inv h -> emptied h h1 -> (forall k, reach h n k -> entries h1 k = []) -> (forall k, ~ reach h n k -> nodes h1 k = nodes h k) ->
  forall d nm k, lookup h1 d nm = Some k <-> lookup h d nm = Some k /\ ~ reach h n d.
Proof.
  intros H Hem He Hs d nm k. split.
  - intros E. split; [now apply (emptied_sub h h1)|]. intros Hr. apply He in Hr. unfold lookup in E. unfold entries in Hr. destruct (nodes h1 d) as [[m p es| |]|]; try discriminate. rewrite Hr in E. discriminate.
  - intros [E Hr]. unfold lookup in *. now rewrite (Hs d Hr).
Qed.
Lemma removed_below fuel h n h' k : tree_inv h -> remove_subtree fuel h n = Some h' -> ~ reach h n k -> nodes h' k = nodes h k.
Proof. apply remove_subtree_below. Qed.

Lemma views_remove_subtree strict fuel h x h' : tree_inv h -> acyclic h -> views_inj h -> (forall v, closed h v <= 1) -> (forall v, next_view h <= v -> closed h v = 0) ->
  (forall k v, view_of h k = Some v -> v < next_view h /\ ((k = x \/ listed h k) /\ closed h v = 0 \/ (k <> x /\ ~ listed h k) /\ (strict = true -> closed h v = 1))) ->
  ~ listed h x -> remove_subtree fuel h x = Some h' -> views_ok strict h'.
Proof.
  intros H Ha Hi H3 H4 H1 Hnl E. destruct (remove_subtree_views _ _ _ _ H Ha Hi E) as [Hc He]. pose proof (remove_subtree_emptied _ _ _ _ E) as Hem.
  pose proof (subtree_listing h h' x H Hem He (fun k => removed_below fuel h x h' k H E)) as Hl.
  apply (views_cut strict h h' x); auto; [| |intros k Hk (d & nm & El); apply Hl in El; destruct El as [El Hnr]; destruct (reach_listed _ _ _ Hk) as [-> | _]; [apply Hnl; now exists d, nm|]|].
  - intros k v Hv. destruct (H1 k v Hv) as [Hlt Hor]. split; [exact Hlt|]. split.
    + intros Hr. destruct Hor as [[_ E0]|[[Hkx Hkl] _]]; [exact E0|]. destruct (reach_listed _ _ _ Hr); contradiction.
    + intros Hr. destruct Hor as [[[-> | Hk] E0]|[[_ Hkl] E1]]; [exfalso; apply Hr, reach_self|now left|now right].
  - now apply view_emptied.
  - apply Hnr. inversion Hk as [|e nm' ? Hre Hle]; subst; [exfalso; apply Hnl; now exists d, nm|]. destruct (t_once h H _ _ _ _ _ El Hle) as [-> _]. exact Hre.
  - intros k _ Hr. split; intros (d & nm & El).
    + apply Hl in El. exists d, nm. apply El.
    + exists d, nm. apply Hl. split; [exact El|]. intros Hd. apply Hr. eapply reach_step; eassumption.
Qed.
Lemma views_remove_all strict fuel h b name h' r : tree_inv h -> acyclic h -> views_ok strict h -> remove_all fuel h b name = Some (h', r) -> views_ok strict h'.
Proof.
  intros H Ha Hv. unfold remove_all. assert (forall r' : sres unit, Some (h, r') = Some (h', r) -> views_ok strict h') as Hsame by (intros r' E; assert (h' = h) as -> by congruence; exact Hv).
  destruct (ends_with_dot name); [apply Hsame|]. destruct (normalize name) as [[|c l]|e]; try apply Hsame.
  destruct (resolve_parent h b name) as [[d base]|e]; try apply Hsame. destruct (lookup h d base) as [n|] eqn:En; try apply Hsame. destruct (remove_subtree fuel h n) as [h1|] eqn:E; [|discriminate].
  intros E1. assert (h' = remove_entry h1 d base) as -> by congruence. clear E1 Hsame.
  destruct (remove_subtree_views _ _ _ _ H Ha (v_inj _ _ Hv) E) as [Hc He]. pose proof (remove_subtree_emptied _ _ _ _ E) as Hem.
  pose proof (subtree_listing h h1 n H Hem He (fun k => removed_below fuel h n h1 k H E)) as Hl. pose proof (emptied_inv h h1 Hem H) as H1.
  assert (~ reach h n d) as Hnd by (eapply Ha, En). assert (lookup h1 d base = Some n) as En1 by (apply Hl; now split). destruct (closed_remove h1 d base) as [Hcr Hnr].
  apply (views_cut strict h _ n); [exact (v_inj _ _ Hv)|exact (v_once _ _ Hv)|exact (v_new _ _ Hv)| | | | |].
  - intros k v Ev. destruct (v_file _ _ Hv k v Ev) as [Hlt Hor]. split; [exact Hlt|]. split; [|tauto]. intros Hr. apply (views_zero strict h k v Hv); [|exact Ev]. destruct (reach_listed _ _ _ Hr) as [-> | Hk]; [now exists d, base|exact Hk].
  - intros k. rewrite view_remove. now apply view_emptied.
  - destruct Hc as [Hc1 Hc2]. split; [congruence|]. intros v. rewrite Hcr. apply Hc2.
  - intros k Hr Hk. apply (listed_remove h1 d base k n H1 En1) in Hk. destruct Hk as [(d' & nm & El) Hne]. apply Hl in El. destruct El as [El Hnr'].
    inversion Hr as [|e nm' ? Hre Hle]; subst; [contradiction|]. destruct (t_once h H _ _ _ _ _ El Hle) as [-> _]. contradiction.
  - intros k _ Hr. rewrite (listed_remove h1 d base k n H1 En1). split.
    + intros [(d' & nm & El) _]. apply Hl in El. exists d', nm. apply El.
    + intros (d' & nm & El). split; [|intros ->; apply Hr, reach_self]. exists d', nm. apply Hl. split; [exact El|]. intros Hd. apply Hr. eapply reach_step; eassumption.
Qed.

(* The calls. *)
Lemma lookup_none_no_file h d base : lookup h d base = None -> no_file h d base.
Proof. intros E x Hx. congruence. Qed.
Lemma views_mkdir strict h b name mode : tree_inv h -> views_ok strict h -> views_ok strict (fst (mkdir h b name mode)).
Proof.
  intros H Hv. unfold mkdir. destruct (resolve_parent h b name) as [[d base]|e] eqn:E; [|exact Hv]. apply resolve_parent_inside in E; [|exact H]. destruct (_ || _); [exact Hv|]. destruct (lookup h d base) eqn:El; [exact Hv|].
  apply views_enter; auto; [apply E|apply new_dir_leaf|discriminate|now apply lookup_none_no_file].
Qed.
Lemma views_mkdir_loop strict b mode ps : forall h, tree_inv h -> views_ok strict h -> views_ok strict (fst (mkdir_all_loop h b ps mode)).
Proof.
  induction ps as [|p ps IH]; intros h H Hv; cbn [mkdir_all_loop]; [exact Hv|].
  pose proof (keeps_mkdir h b (join_sep p) mode H) as Hk. pose proof (views_mkdir strict h b (join_sep p) mode H Hv) as Ha2. destruct (mkdir h b (join_sep p) mode) as [h1 [u|e]]; cbn [fst] in Hk, Ha2.
  - apply IH; [apply Hk|exact Ha2].
  - destruct e; try exact Ha2. destruct (resolve h1 b (join_sep p) true) as [f|e]; [|exact Ha2]. destruct (nodes h1 (f_node f)) as [[m q es| |]|]; try exact Ha2. apply IH; [apply Hk|exact Ha2].
Qed.
Lemma views_symlink strict h b t name mode : tree_inv h -> views_ok strict h -> views_ok strict (fst (symlink h b t name mode)).
Proof.
  intros H Hv. unfold symlink. destruct (resolve_parent h b name) as [[d base]|e] eqn:E; [|exact Hv]. apply resolve_parent_inside in E; [|exact H]. destruct (lookup h d base) eqn:El; [exact Hv|].
  apply views_enter; auto; [apply E|now split|discriminate|now apply lookup_none_no_file].
Qed.
Lemma views_removal strict busy h b name : tree_inv h -> views_ok strict h -> views_ok strict (fst (remove busy h b name)).
Proof.
  intros H Hv. unfold remove. destruct (resolve_parent h b name) as [[d base]|e]; [|exact Hv]. destruct (lookup h d base) as [n|] eqn:E; [|exact Hv].
  destruct (holds_something h n); [exact Hv|]. destruct (busy && _); [exact Hv|]. cbn [fst]. pose proof (views_displace strict h d base H Hv) as Hd. rewrite E in Hd. exact Hd.
Qed.
Lemma views_meta strict h n x m : nodes h n = Some x -> views_ok strict h -> views_ok strict (set_node h n (with_meta x m)).
Proof.
  intros Hx Hv. apply (views_same strict h); auto; [|intros k _; apply listed_same; intros; now apply meta_lookup]. intros k. unfold view_of. rewrite nodes_set. destruct (Nat.eqb_spec k n) as [-> | _]; [|reflexivity]. rewrite Hx. now destruct x.
Qed.
Lemma views_bump strict h n : views_ok strict h -> views_ok strict (bump h n).
Proof. intros Hv. unfold bump. destruct (nodes h n) eqn:E; [now apply views_meta|exact Hv]. Qed.
Lemma views_open_existing strict h b name q : views_ok strict h -> views_ok strict (fst (open_existing h b name q)).
Proof.
  intros Hv. unfold open_existing, open_node. destruct (resolve h b name true) as [f|]; [|exact Hv]. destruct (nodes h (f_node f)) as [[m p es|m v|m t]|]; try exact Hv.
  - destruct (o_write q); [exact Hv|now apply views_bump].
  - destruct (o_opens q); [now apply views_bump|exact Hv].
Qed.
Lemma views_open strict h b name q : tree_inv h -> views_ok strict h -> views_ok strict (fst (open_file h b name q)).
Proof.
  intros H Hv. unfold open_file. pose proof (views_open_existing strict h b name q Hv) as Hoe. destruct (o_create q); [|exact Hoe]. destruct (resolve_parent h b name) as [[d base]|] eqn:E; [|exact Hv].
  apply resolve_parent_inside in E; [|exact H]. destruct (lookup h d base) eqn:El.
  - destruct (o_excl q); [exact Hv|exact Hoe].
  - destruct (negb (o_allocs q)); [exact Hv|]. pose proof (views_file strict h d base (o_mode q) (o_tag q) H (proj2 E) (lookup_none_no_file _ _ _ El) Hv) as Hk. destruct (enter_file _ _ _ _ _) as [h1 n]. cbn [fst] in Hk.
    unfold open_node. destruct (o_opens q); [|exact Hk]. now apply views_bump.
Qed.
Lemma views_chmod strict h b name fo mode : views_ok strict h -> views_ok strict (fst (chmod h b name fo mode)).
Proof. intros Hv. unfold chmod. destruct (resolve h b name fo) as [f|]; [|exact Hv]. destruct (nodes h (f_node f)) as [x|] eqn:Hx; [now apply views_meta|exact Hv]. Qed.

(* Moving. *)
Lemma views_move strict h od ob n nd nb : tree_inv h -> is_dir_at h nd -> lookup h od ob = Some n -> lookup h nd nb = None -> views_ok strict h -> views_ok strict (move h od ob n nd nb).
Proof.
  intros H Hnd Hl Hn Hv. unfold move. set (h1 := remove_entry h od ob). set (h2 := retitle h1 n nd nb).
  assert (is_dir_at h2 nd) as Hd2 by (apply retitle_dir, (same_core_dir _ _ _ (remove_core _ od ob)), Hnd).
  assert (closed h2 = closed h /\ next_view h2 = next_view h) as [Hc2 Hn2] by (unfold h2, retitle; destruct (nodes h1 n); cbn; apply closed_remove).
  destruct (closed_add h2 nd nb n) as [Hc Hnv].
  apply (views_same strict h); auto; [| |intros v; rewrite Hc, Hc2; reflexivity|congruence].
  - intros k. rewrite view_add. rewrite <- (view_remove h od ob k). fold h1. unfold h2, retitle. destruct (nodes h1 n) as [x|] eqn:Hx; [|reflexivity]. unfold view_of. rewrite nodes_set. destruct (Nat.eqb_spec k n) as [-> | _]; [|reflexivity]. rewrite Hx. now destruct x.
  - assert (forall e c, lookup (add_entry h2 nd nb n) e c = if Nat.eqb e nd && bytes_eqb c nb then Some n else if Nat.eqb e od && bytes_eqb c ob then None else lookup h e c) as Hlk.
    { intros e c. rewrite lookup_add by exact Hd2. destruct (Nat.eqb e nd && bytes_eqb c nb); [reflexivity|]. unfold h2. rewrite retitle_lookup. apply lookup_remove. }
    intros k _. split.
    + intros (e & c & E). rewrite Hlk in E. destruct (Nat.eqb e nd && bytes_eqb c nb); [assert (k = n) as -> by congruence; now exists od, ob|]. destruct (Nat.eqb e od && bytes_eqb c ob); [discriminate|now exists e, c].
    + intros (e & c & E). destruct (Nat.eqb e od && bytes_eqb c ob) eqn:Eo.
      * apply cell_eq in Eo. destruct Eo as [-> ->]. assert (k = n) as -> by congruence. exists nd, nb. rewrite Hlk. now rewrite Nat.eqb_refl, bytes_eqb_refl.
      * exists e, c. rewrite Hlk, Eo. destruct (Nat.eqb e nd && bytes_eqb c nb) eqn:En; [|exact E]. apply cell_eq in En. destruct En as [-> ->]. congruence.
Qed.
Lemma views_rename strict h b old new : tree_inv h -> views_ok strict h -> (forall od ob n nd nb, rename_ends h b old new od ob n nd nb -> (od, ob) <> (nd, nb)) -> views_ok strict (fst (rename h b old new)).
Proof.
  intros H Hv Hs. rewrite rename_eq. destruct (resolve_parent h b old) as [[od ob]|] eqn:Eo; [|exact Hv]. destruct (lookup h od ob) as [n|] eqn:El; [|exact Hv].
  destruct (resolve_parent h b new) as [[nd nb]|] eqn:En; [|exact Hv]. destruct (match lookup h nd nb with Some x => _ | None => _ end); [exact Hv|]. cbn [fst].
  assert ((od, ob) <> (nd, nb)) as Hne by (apply (Hs od ob n nd nb); repeat split; assumption). apply resolve_parent_inside in En; [|exact H]. pose proof (keeps_displace h nd nb (lookup h nd nb) H) as Hk.
  apply views_move; [apply Hk|now apply Hk| |apply displace_empty|now apply views_displace].
  destruct (lookup h nd nb) as [x|]; [|exact El]. rewrite displace_lookup. destruct (Nat.eqb od nd && bytes_eqb ob nb) eqn:Ec; [|exact El]. apply cell_eq in Ec. destruct Ec as [-> ->]. contradiction.
Qed.

(* ensureParents never covers a file. *)
Lemma resolve_missing_no_file h b p d base : tree_inv h -> Forall proper p -> p <> [] -> resolve h b (join_sep p) true = Err ENotExist -> resolve_parent h b (join_sep p) = Ok (d, base) -> no_file h d base.
Proof.
  intros H Hp Hne Er Ep x Hx. destruct p as [|c l] using rev_ind; [contradiction|]. clear IHl. rewrite resolve_parent_join in Ep by exact Hp. rewrite resolve_join in Er by (auto; now destruct l).
  destruct (walk_comps h b true max_hops b l) as [f|] eqn:Ew; [|discriminate]. destruct (nodes h (f_node f)) as [[m q es| |]|] eqn:Hf; try discriminate. assert (d = f_node f /\ base = c) as [-> ->] by (split; congruence).
  destruct (walk_concat h b max_hops l b f Ew) as (k & _ & Hr); [now exists m, q, es|]. specialize (Hr [c]). apply Forall_app in Hp. destruct Hp as [_ Hp]. inversion Hp as [|? ? Hc _]; subst. destruct (proper_tests c Hc) as (E1 & E2 & E3).
  rewrite Er, walk_cons, E1, E2, E3, Hx in Hr. cbn zeta in Hr. unfold view_of. destruct (nodes h x) as [[| |]|]; try reflexivity. cbn in Hr. discriminate.
Qed.
Lemma views_ensure_loop strict b mode : forall l pre h par h' r, tree_inv h -> views_ok strict h -> Forall proper (pre ++ l) -> ensure_loop h b (heads pre l) mode par = (h', r) -> views_ok strict h'.
Proof.
  induction l as [|c l IH]; intros pre h par h' r H Hv Hp E; cbn [heads ensure_loop] in E; [assert (h' = h) as -> by congruence; exact Hv|].
  assert (Forall proper ((pre ++ [c]) ++ l)) as Hp2 by now rewrite <- app_assoc. assert (Forall proper (pre ++ [c])) as Hp3 by (apply Forall_app in Hp2; apply Hp2).
  assert (forall e, (h, @Err nat e) = (h', r) -> views_ok strict h') as Herr by (intros e He; assert (h' = h) as -> by congruence; exact Hv).
  destruct (resolve h b (join_sep (pre ++ [c])) true) as [f|e] eqn:Er.
  - destruct (nodes h (f_node f)) as [[m q es| |]|] eqn:Hf; try (eapply Herr, E). eapply IH; [exact H|exact Hv|exact Hp2|exact E].
  - destruct e; try (eapply Herr, E). destruct (resolve_parent h b (join_sep (pre ++ [c]))) as [[d base]|e] eqn:Ep; [|eapply Herr, E].
    pose proof (resolve_missing_no_file h b _ d base H Hp3 ltac:(now destruct pre) Er Ep) as Hnf. apply resolve_parent_inside in Ep; [|exact H].
    pose proof (inv_enter h d base (new_dir base mode d) H (proj2 Ep) (new_dir_leaf _ _ _)) as Hk.
    assert (views_ok strict (fst (enter_new h d base (new_dir base mode d)))) as Ha2 by (apply views_enter; auto; [apply Ep|apply new_dir_leaf|discriminate]).
    rewrite enter_eq in E, Hk, Ha2. cbn [fst] in Hk, Ha2. eapply IH; [exact Hk|exact Ha2|exact Hp2|exact E].
Qed.
Lemma views_ensure strict h b name mode h' r : tree_inv h -> views_ok strict h -> ensure_parents h b name mode = (h', r) -> views_ok strict h'.
Proof.
  intros H Hv. unfold ensure_parents. destruct (normalize name) as [[|c l]|e] eqn:En; try (intros E; assert (h' = h) as -> by congruence; exact Hv). apply normalize_proper in En.
  assert (Forall proper ([] ++ removelast (c :: l))) as Hp.
  { cbn [app]. apply Forall_forall. intros x Hx. eapply Forall_forall; [exact En|]. rewrite (app_removelast_last [] (l := c :: l)) by discriminate. apply in_or_app. now left. }
  destruct (ensure_loop h b (heads [] (removelast (c :: l))) mode b) as [h1 [d|e]] eqn:E; apply (views_ensure_loop strict) in E; auto; intros E2; assert (h' = h1) as -> by congruence; exact E.
Qed.
Lemma views_add_file strict h b name t mode sc stats cb : tree_inv h -> is_dir_at h b -> views_ok strict h -> views_ok strict (fst (add_file h b name t mode sc stats cb)).
Proof.
  intros H Hb Hv. unfold add_file. destruct (negb stats); [exact Hv|]. destruct (ensure_parents h b name sc) as [h1 r1] eqn:E. pose proof (views_ensure strict _ _ _ _ _ _ H Hv E) as Hv1. apply keeps_ensure in E; auto. destruct E as [Hk Hd].
  destruct r1 as [[d base]|e]; [|exact Hv1]. destruct (normalize name) as [comps|e]; [|exact Hv1]. destruct (cb comps false _) as [[]|]; try exact Hv1. cbn [fst].
  pose proof (keeps_displace h1 d base (lookup h1 d base) (proj1 Hk)) as Hk2. apply views_file; [apply Hk2|apply Hk2; eapply Hd; reflexivity|apply displace_no_file|apply views_displace; [apply Hk|exact Hv1]].
Qed.

Lemma remove_empty h d base : lookup (remove_entry h d base) d base = None.
Proof. rewrite lookup_remove. now rewrite Nat.eqb_refl, bytes_eqb_refl. Qed.
Lemma views_materialize strict h dst base mode ov h' d : tree_inv h -> acyclic h -> is_dir_at h dst -> views_ok strict h ->
  (strict = true -> ov = false -> forall x, lookup h dst base = Some x -> existing_dir h x = true) ->
  materialize_dir h dst base mode (lookup h dst base) ov = Some (h', d) -> views_ok strict h'.
Proof.
  intros H Ha Hd Hv Hcb. unfold materialize_dir.
  assert (forall h1, keeps h h1 -> views_ok strict h1 -> lookup h1 dst base = None -> Some (enter_new h1 dst base (new_dir base mode dst)) = Some (h', d) -> views_ok strict h') as Henter.
  { intros h1 Hk Hv1 Hn E. assert (views_ok strict (fst (enter_new h1 dst base (new_dir base mode dst)))) as Ha2 by (apply views_enter; auto; [apply Hk|now apply Hk|apply new_dir_leaf|discriminate|now apply lookup_none_no_file]).
    apply some_inj in E. apply (f_equal fst) in E. cbn [fst] in E. now rewrite E in Ha2. }
  destruct (lookup h dst base) as [x|] eqn:Ex; [|apply Henter; auto; now apply keeps_refl]. destruct (existing_dir h x && negb ov) eqn:Eo; [intros E; assert (h' = h) as -> by congruence; exact Hv|]. cbn zeta.
  pose proof (keeps_remove h dst base H) as Hk. pose proof (acyclic_sub h (remove_entry h dst base) (remove_sub h dst base) Ha) as Ha1. pose proof (remove_empty h dst base) as Hre. destruct (closed_remove h dst base) as [Hc Hn].
  pose proof (fun k => listed_remove h dst base k x H Ex) as Hl. pose proof (view_remove h dst base) as Hvw. destruct Hv as [H1 H2 H3 H4]. assert (listed h x) as Hlx by now exists dst, base.
  destruct ov.
  - destruct (remove_subtree _ (remove_entry h dst base) x) as [h2|] eqn:E; [|discriminate]. apply Henter.
    + eapply keeps_trans; [exact Hk|]. apply keeps_emptied; [apply Hk|eapply remove_subtree_emptied, E].
    + apply (views_remove_subtree strict _ (remove_entry h dst base) x h2) in E; auto; [apply Hk|intros k k' v; rewrite !Hvw; apply H2|intros v; rewrite Hc; apply H3|intros v; rewrite Hc, Hn; apply H4| |rewrite Hl; tauto].
      intros k v Ev. rewrite Hvw in Ev. rewrite Hn, Hc. destruct (H1 k v Ev) as [Hlt Hor]. split; [exact Hlt|]. rewrite Hl. destruct (Nat.eq_dec k x) as [-> | Hkx].
      * left. split; [now left|]. destruct Hor as [[_ E0]|[Hno _]]; [exact E0|contradiction].
      * destruct Hor as [[Hlk E0]|[Hlk E1]]; [left; tauto|right; tauto].
    + pose proof (emptied_sub _ _ (remove_subtree_emptied _ _ _ _ E)) as Hsub. destruct (lookup h2 dst base) as [y|] eqn:Ey; [|reflexivity]. apply Hsub in Ey. congruence.
  - apply Henter; [exact Hk| |exact Hre]. rewrite andb_true_r in Eo. constructor.
    + intros k v Ev. rewrite Hvw in Ev. rewrite Hn, Hc, Hl. destruct (H1 k v Ev) as [Hlt Hor]. split; [exact Hlt|]. destruct (Nat.eq_dec k x) as [-> | Hkx].
      * right. split; [tauto|]. intros Hs. exfalso. specialize (Hcb Hs eq_refl x eq_refl). congruence.
      * destruct Hor as [[Hlk E0]|[Hlk E1]]; [left; tauto|right; tauto].
    + intros k k' v. rewrite !Hvw. apply H2.
    + intros v. rewrite Hc. apply H3.
    + intros v. rewrite Hc, Hn. apply H4.
Qed.
Lemma views_descend strict cb d path cs :
  Forall (fun c => forall h dst base path h' r, tree_inv h -> acyclic h -> is_dir_at h dst -> views_ok strict h -> add_walk cb (snd c) h dst base path = Some (h', r) -> views_ok strict h') cs ->
  forall h h' r, tree_inv h -> acyclic h -> is_dir_at h d -> views_ok strict h -> descend (add_walk cb) d path cs h = Some (h', r) -> views_ok strict h'.
Proof.
  induction 1 as [|[nm c] cs Hc Hcs IH]; intros h h' r H Ha Hd Hv E; [cbn in E; assert (h' = h) as -> by congruence; exact Hv|]. cbn [snd] in Hc. rewrite descend_cons in E. destruct (add_walk cb c h d nm (path ++ [nm])) as [[h2 [u|e]]|] eqn:Ew; [| |discriminate].
  - pose proof (keeps_add_walk cb c _ _ _ _ _ _ H Hd Ew) as Hk. destruct (add_walk_total cb c h d nm (path ++ [nm]) H Hd Ha) as (h3 & r3 & E3 & Ha3). rewrite Ew in E3. assert (h3 = h2) as -> by congruence.
    eapply IH; [apply Hk|exact Ha3|now apply Hk| |exact E]. eapply Hc; [exact H|exact Ha|exact Hd|exact Hv|exact Ew].
  - assert (h' = h2) as -> by congruence. eapply Hc; [exact H|exact Ha|exact Hd|exact Hv|exact Ew].
Qed.
Lemma views_add_walk strict cb s : (strict = true -> forall p, cb p true (Some false) <> Some Keep) ->
  forall h dst base path h' r, tree_inv h -> acyclic h -> is_dir_at h dst -> views_ok strict h -> add_walk cb s h dst base path = Some (h', r) -> views_ok strict h'.
Proof.
  intros Hcb. induction s as [mode cs lists IH|mode t opens|mode t reads|] using source_ind'; intros h dst base path h' r H Ha Hd Hv E; cbn [add_walk] in E;
    assert (forall r', Some (h, r') = Some (h', r) -> views_ok strict h') as Hsame by (intros r' E'; assert (h' = h) as -> by congruence; exact Hv).
  - assert (forall ov, (strict = true -> ov = false -> forall x, lookup h dst base = Some x -> existing_dir h x = true) ->
      match materialize_dir h dst base mode (lookup h dst base) ov with None => None | Some (h1, d) => if lists then descend (add_walk cb) d path cs h1 else Some (h1, Err EOther) end = Some (h', r) -> views_ok strict h') as Hov.
    { intros ov Hx E'. destruct (materialize_total h dst base mode (lookup h dst base) ov H Hd Ha) as (h2 & d2 & E2 & Ha2).
      destruct (materialize_dir h dst base mode (lookup h dst base) ov) as [[h1 d]|] eqn:Em; [|discriminate]. assert (h2 = h1) as -> by congruence. pose proof (views_materialize strict _ _ _ _ _ _ _ H Ha Hd Hv Hx Em) as Hn. apply keeps_materialize in Em; auto. destruct Em as [Hk Hdd]. destruct lists.
      - eapply views_descend; [exact IH|apply Hk|exact Ha2|exact Hdd|exact Hn|exact E'].
      - assert (h' = h1) as -> by congruence. exact Hn. }
    destruct (cb path true _) as [[]|] eqn:Ecb; try (eapply Hsame, E).
    + apply (Hov false); [|exact E]. intros Hs _ x Hx. rewrite Hx in Ecb. cbn in Ecb. destruct (existing_dir h x); [reflexivity|]. now destruct (Hcb Hs path).
    + apply (Hov true); [discriminate|exact E].
  - destruct (cb path false _) as [dec|]; [|eapply Hsame, E].
    assert (views_ok strict (fst (enter_file (displace h dst base (lookup h dst base)) dst base mode t))) as Hke.
    { pose proof (keeps_displace h dst base (lookup h dst base) H) as Hk. apply views_file; [apply Hk|now apply Hk|apply displace_no_file|now apply views_displace]. }
    destruct dec; [eapply Hsame, E| |]; (destruct (negb opens); [eapply Hsame, E|]); destruct (lookup h dst base) as [x|]; try (match type of E with Some (?a, _) = _ => assert (h' = a) as -> by congruence end; exact Hke).
    destruct (fresh_view h t) as [h1 v] eqn:Ev. assert (h' = close_view h1 v) as -> by congruence. assert (h1 = fst (fresh_view h t)) as -> by now rewrite Ev. assert (v = next_view h) as -> by (unfold fresh_view in Ev; congruence). clear -Hv. destruct Hv as [H1 H2 H3 H4].
    constructor; cbn.
    + intros k v E. change (view_of h k = Some v) in E. destruct (H1 k v E) as [Hlt Hor]. split; [lia|]. unfold setf. destruct (Nat.eqb_spec v (next_view h)); [lia|]. exact Hor.
    + exact H2.
    + intros v. unfold setf. destruct (Nat.eqb_spec v (next_view h)) as [-> | _]; [rewrite H4 by lia; lia|apply H3].
    + intros v Hge. unfold setf. destruct (Nat.eqb_spec v (next_view h)); [lia|apply H4; lia].
  - destruct (cb path false _) as [dec|]; [|eapply Hsame, E].
    assert (views_ok strict (fst (enter_new (displace h dst base (lookup h dst base)) dst base (NLink (new_meta base mode) t)))) as Hke.
    { pose proof (keeps_displace h dst base (lookup h dst base) H) as Hk. apply views_enter; [apply Hk|now apply Hk|now split|discriminate|apply displace_no_file|now apply views_displace]. }
    destruct dec; [eapply Hsame, E| |]; (destruct (negb reads); [eapply Hsame, E|]); destruct (lookup h dst base) as [x|]; try (eapply Hsame, E); try (match type of E with Some (?a, _) = _ => assert (h' = a) as -> by congruence end; exact Hke).
  - eapply Hsame, E.
Qed.
Lemma views_add_fs strict h b name s sc cb h' r : (strict = true -> forall p, cb p true (Some false) <> Some Keep) -> tree_inv h -> acyclic h -> is_dir_at h b -> views_ok strict h -> add_fs h b name s sc cb = Some (h', r) -> views_ok strict h'.
Proof.
  intros Hcb H Ha Hb Hv. unfold add_fs. assert (forall r', Some (h, r') = Some (h', r) -> views_ok strict h') as Hsame by (intros r' E'; assert (h' = h) as -> by congruence; exact Hv).
  destruct (normalize name) as [[|c l]|e]; [| |apply Hsame].
  - destruct s as [mode cs [] | | |]; try apply Hsame. apply views_descend; auto. apply Forall_forall. intros c _. now apply views_add_walk.
  - destruct (ensure_parents h b name sc) as [h1 r1] eqn:E. pose proof (views_ensure strict _ _ _ _ _ _ H Hv E) as Hv1. pose proof (acyclic_ensure _ _ _ _ _ _ H Ha E) as Ha1. apply keeps_ensure in E; auto. destruct E as [Hk Hd].
    destruct r1 as [[d base]|e].
    + intros E. eapply (views_add_walk strict cb s Hcb); [apply Hk|exact Ha1|eapply Hd; reflexivity|exact Hv1|exact E].
    + intros E. assert (h' = h1) as -> by congruence. exact Hv1.
Qed.

Lemma step_views strict busy st o st' r : state_ok st -> acyclic (st_heap st) -> view_op strict st o -> views_ok strict (st_heap st) -> step busy st o = Some (st', r) -> views_ok strict (st_heap st').
Proof.
  intros [H Hr] Ha Hs Hv E.
  assert (forall i (f : nat -> option (heap * sres unit)), (forall b h', nth_error (st_roots st) i = Some b -> is_dir_at (st_heap st) b -> f b = Some (h', r) -> views_ok strict h') ->
    match nth_error (st_roots st) i with Some b => lift st (f b) | None => Some (st, Err EInval) end = Some (st', r) -> views_ok strict (st_heap st')) as Hat.
  { intros i f Hf E'. destruct (nth_error (st_roots st) i) as [b|] eqn:Eb.
    - destruct (f b) as [[h1 r1]|] eqn:Ef; [|discriminate]. cbn in E'. assert (st' = with_heap st h1 /\ r1 = r) as [-> ->] by (split; congruence). apply (Hf b h1); [reflexivity| |exact Ef]. eapply Forall_forall; [exact Hr|]. eapply nth_error_In, Eb.
    - assert (st' = st) as -> by congruence. exact Hv. }
  destruct o; cbn [step view_op] in *; try (eapply Hat; [|exact E]; cbn beta; intros b h' Eb Hb Ef;
    try (match type of Ef with Some ?x = Some _ => assert (h' = fst x) as -> by now replace x with (h', r) by congruence end)).
  - now apply views_mkdir.
  - unfold mkdir_all. destruct (normalize name); [now apply views_mkdir_loop|exact Hv].
  - now apply views_symlink.
  - contradiction.
  - now apply views_removal.
  - eapply views_remove_all; eassumption.
  - apply views_rename; auto. intros od ob n nd nb Hends. eapply Hs; eassumption.
  - cbn [ignore fst]. now apply views_open.
  - assert (st' = with_heap st (drop_ref (st_heap st) n)) as -> by congruence. cbn. unfold drop_ref. destruct (nodes (st_heap st) n) eqn:En; [now apply views_meta|exact Hv].
  - now apply views_chmod.
  - destruct (nth_error (st_roots st) i) as [b|] eqn:Eb; [|assert (st' = st) as -> by congruence; exact Hv]. destruct (open_root (st_heap st) b name) as [d|e] eqn:Eo; [|assert (st' = st) as -> by congruence; exact Hv].
    match type of E with Some (?a, _) = _ => assert (st' = a) as -> by congruence end. exact Hv.
  - now apply views_add_file.
  - eapply views_add_fs; eassumption.
Qed.
Lemma run_views_from strict busy os : forall st st', state_ok st -> acyclic (st_heap st) -> views_ok strict (st_heap st) -> sane busy st os -> view_ops strict busy st os -> run busy st os = Some st' -> views_ok strict (st_heap st').
Proof.
  induction os as [|o os IH]; intros st st' H Ha Hv Hs Hw E; cbn in E; [apply some_inj in E; now subst|]. destruct Hs as [Hs1 Hs2], Hw as [Hw1 Hw2]. destruct (step_total busy st o H Ha Hs1) as (st1 & r & Es & Ha1). rewrite Es in *.
  apply (IH st1 st'); auto; [eapply step_ok; eassumption|eapply step_views; eassumption].
Qed.
Lemma run_views strict busy mode os st : sane busy (new_state mode) os -> view_ops strict busy (new_state mode) os -> run busy (new_state mode) os = Some st -> views_ok strict (st_heap st).
Proof.
  apply run_views_from; [apply new_ok|apply new_acyclic|]. constructor; cbn; auto; [intros k v|intros k k' v]; unfold view_of; cbn; destruct (Nat.eqb k 0); discriminate.
Qed.
