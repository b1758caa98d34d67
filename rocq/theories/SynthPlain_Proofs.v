(* synthfs shows one plain tree. *)
From Verif Require Import Common CommonLemmas ContentRange_Model ContentRange_Proofs PathLex_Model PathLex_Proofs OsFs_Spec OsFs_Proofs Synth_Model Synth_Spec Synth_Proofs SynthTree_Proofs SynthPath_Proofs SynthEffect_Proofs SynthErr_Spec SynthErr_Proofs SynthPlain_Spec.
Open Scope nat_scope.

(* Paths. *)
Lemma eqn_true a b : eqn a b = true <-> a = b.
Proof. unfold eqn. destruct (list_eq_dec _ a b); split; congruence. Qed.
Lemma eqn_bytes a b : eqn a b = bytes_eqb a b.
Proof. apply Bool.eq_true_iff_eq. rewrite eqn_true, bytes_eqb_eq. reflexivity. Qed.
Lemma same_true p q : same p q = true <-> p = q.
Proof. unfold same. destruct (list_eq_dec _ p q); split; congruence. Qed.
Lemma same_false p q : same p q = false <-> p <> q.
Proof. unfold same. destruct (list_eq_dec _ p q); split; congruence. Qed.
Lemma same_refl p : same p p = true.
Proof. now apply same_true. Qed.
Lemma begins_iff p : forall q, begins p q = true <-> exists r, q = p ++ r.
Proof.
  induction p as [|a p IH]; intros q; cbn; [split; [exists q; reflexivity|reflexivity]|]. destruct q as [|b q]; [split; [discriminate|intros [r E]; discriminate]|].
  rewrite andb_true_iff, eqn_true, IH. split; [intros [-> [r ->]]; now exists r|intros [r E]; injection E as -> ->; eauto].
Qed.
Lemma begins_not p q : begins p q = false <-> forall r, q <> p ++ r.
Proof.
  rewrite <- Bool.not_true_iff_false, begins_iff. split; [intros H r E; apply H; eauto|intros H [r E]; now apply (H r)].
Qed.
Lemma begins_app p r : begins p (p ++ r) = true.
Proof. apply begins_iff. eauto. Qed.

(* The plain tree. *)
Lemma find_filter {A} (f g : A -> bool) l : find f (filter g l) = find (fun x => f x && g x) l.
Proof.
  induction l as [|x l IH]; cbn; [reflexivity|]. destruct (g x) eqn:Eg; cbn; destruct (f x) eqn:Ef; cbn; auto.
Qed.
Lemma find_ext' {A} (f g : A -> bool) l : (forall x, In x l -> f x = g x) -> find f l = find g l.
Proof. induction l as [|x l IH]; intros H; cbn; [reflexivity|]. rewrite (H x (or_introl eq_refl)), IH; [reflexivity|]. intros y Hy. apply H. now right. Qed.
Lemma pat_put t p x q : pat (put t p x) q = if same q p then Some x else pat t q.
Proof. unfold pat. cbn. now destruct (same q p). Qed.
Lemma pat_drop t p q : pat (drop t p) q = if begins p q then None else pat t q.
Proof.
  unfold pat, drop. cbn [t_ents]. rewrite find_filter. destruct (begins p q) eqn:E.
  - rewrite (find_ext' _ (fun _ => false)).
    + clear. induction (t_ents t); cbn; auto.
    + intros [k x] _. cbn. destruct (same q k) eqn:Es; [|reflexivity]. apply same_true in Es. subst k. now rewrite E.
  - f_equal. apply find_ext'. intros [k x] _. cbn. destruct (same q k) eqn:Es; [|reflexivity]. apply same_true in Es. subst k. now rewrite E.
Qed.
Lemma pat_new t p m x q : pat (new_file t p m x) q = if same q p then Some (LookFile m (length (t_files t))) else pat t q.
Proof. unfold pat. cbn. now destruct (same q p). Qed.
Lemma find_app' {A} (f : A -> bool) a b : find f (a ++ b) = match find f a with Some x => Some x | None => find f b end.
Proof. induction a as [|x a IH]; cbn; [reflexivity|]. destruct (f x); auto. Qed.
Lemma moved_find o n q l : option_map snd (find (fun e : path * look => same q (fst e)) (map (fun e => (n ++ skipn (length o) (fst e), snd e)) (filter (fun e => begins o (fst e)) l))) =
  if begins n q then option_map snd (find (fun e => same (o ++ skipn (length n) q) (fst e)) l) else None.
Proof.
  destruct (begins n q) eqn:E.
  - apply begins_iff in E as [r ->]. rewrite skipn_app, skipn_all2, Nat.sub_diag by lia. cbn [skipn app].
    induction l as [|[k x] l IH]; cbn; [reflexivity|]. destruct (begins o k) eqn:Eo; cbn.
    + apply begins_iff in Eo as [s ->]. rewrite skipn_app, skipn_all2, Nat.sub_diag by lia. cbn [skipn app].
      assert (same (n ++ r) (n ++ s) = same (o ++ r) (o ++ s)) as -> by (apply Bool.eq_true_iff_eq; rewrite !same_true; split; intros H; apply app_inv_head in H; congruence).
      destruct (same (o ++ r) (o ++ s)); auto.
    + rewrite IH. destruct (same (o ++ r) k) eqn:Es; [|reflexivity]. apply same_true in Es. subst k. rewrite begins_app in Eo. discriminate.
  - induction l as [|[k x] l IH]; cbn; [reflexivity|]. destruct (begins o k) eqn:Eo; cbn; [|exact IH]. destruct (same q _) eqn:Es; [|exact IH]. apply same_true in Es. subst q. rewrite begins_app in E. discriminate.
Qed.
Lemma pat_move t o n q : pat (move t o n) q =
  if begins n q then match pat t (o ++ skipn (length n) q) with Some x => Some x | None => None end else if begins o q then None else pat t q.
Proof.
  unfold pat at 1. unfold move. cbn [t_ents]. rewrite find_app'.
  pose proof (moved_find o n q (t_ents t)) as Hm. destruct (find _ (map _ _)) as [e|].
  - cbn in Hm |- *. destruct (begins n q); [|discriminate]. unfold pat. now rewrite <- Hm.
  - cbn in Hm. change (option_map snd (find (fun e => same q (fst e)) (t_ents (drop (drop t o) n)))) with (pat (drop (drop t o) n) q). rewrite !pat_drop.
    destruct (begins n q); [|reflexivity]. unfold pat. now rewrite <- Hm.
Qed.
Lemma in_pat t q x : In (q, x) (t_ents t) -> pat t q <> None.
Proof.
  unfold pat. induction (t_ents t) as [|[k y] l IH]; cbn; [tauto|]. intros [E|Hi].
  - assert (k = q) as -> by congruence. rewrite same_refl. discriminate.
  - destruct (same q k); [discriminate|auto].
Qed.
Lemma pat_in t q : pat t q <> None -> exists x, In (q, x) (t_ents t).
Proof.
  unfold pat. destruct (find _ _) as [[k x]|] eqn:E; [|contradiction]. intros _. apply find_some in E as [Hi Hs]. cbn in Hs. apply same_true in Hs. subst k. eauto.
Qed.
Lemma childless_iff t p : childless t p = true <-> forall c r, pat t (p ++ c :: r) = None.
Proof.
  unfold childless. rewrite forallb_forall. split.
  - intros H c r. destruct (pat t (p ++ c :: r)) eqn:E; [|reflexivity]. destruct (pat_in t (p ++ c :: r)) as [x Hx]; [congruence|]. apply H in Hx. cbn in Hx. rewrite begins_app in Hx. cbn in Hx.
    apply same_true in Hx. exfalso. assert (length p = length (p ++ c :: r)) as Hl by now rewrite <- Hx. rewrite app_length in Hl. cbn in Hl. lia.
  - intros H [k x] Hi. cbn. destruct (begins p k) eqn:Eb; [|reflexivity]. cbn. apply begins_iff in Eb as [r ->]. destruct r as [|c r]; [rewrite app_nil_r; apply same_refl|]. apply in_pat in Hi. now rewrite H in Hi.
Qed.

(* Names. *)
Lemma snoc_match {A B} (d : list A) x (u v : B) : match d ++ [x] with [] => u | _ :: _ => v end = v.
Proof. now destruct d. Qed.
Lemma reads_goes : forall l don r, Forall sepfree l -> (reads don l = Some r <-> goes don l r).
Proof.
  induction l as [|c l IH]; intros don r Hf; cbn [reads]; [split; [intros E; apply some_inj in E; subst; constructor|intros E; inversion E; subst; reflexivity]|]. inversion Hf as [|? ? Hc Hl]; subst.
  destruct (eqn c [] || eqn c [dot]) eqn:E1.
  - apply orb_true_iff in E1. rewrite !eqn_true in E1. rewrite (IH _ _ Hl). split; [intros E; now apply goes_skip|].
    intros E. inversion E as [|? ? ? ? Hs|? x0 ? ? Hg He|? ? ? ? Hp]; subst; auto; exfalso; [destruct E1; discriminate|]. destruct Hp as (Hn1 & Hn2 & _). tauto.
  - apply orb_false_iff in E1 as [E1 E2]. destruct (eqn c [dot; dot]) eqn:E3.
    + apply eqn_true in E3. subst c. destruct don as [|x don _] using rev_ind.
      * split; [discriminate|]. intros E. inversion E as [|? ? ? ? Hs|? x ? ? Hg He|? ? ? ? Hp]; subst; [destruct Hs; discriminate|now destruct don|now destruct Hp as (_ & _ & Hp & _)].
      * rewrite snoc_match, removelast_last, (IH _ _ Hl). split; [intros E; now constructor|]. intros E.
        inversion E as [|? ? ? ? Hs|? x0 ? ? Hg He|? ? ? ? Hp]; subst; [destruct Hs; discriminate|apply app_inj_tail in He as [-> _]; exact Hg|now destruct Hp as (_ & _ & Hp & _)].
    + rewrite <- Bool.not_true_iff_false, eqn_true in E1, E2, E3. rewrite (IH _ _ Hl). split; [intros E; apply goes_down; [now repeat split|exact E]|].
      intros E. inversion E as [|? ? ? ? Hs| |]; subst; auto; [destruct Hs; contradiction|contradiction].
Qed.
Lemma parse_means name l : parse name = Some l <-> means name l.
Proof.
  unfold parse, means. destruct (absolute name) eqn:E.
  - split; [discriminate|]. intros [Hn _]. destruct name as [|c r]; [discriminate|]. cbn in E. apply N.eqb_eq in E. subst c. now destruct (Hn r).
  - rewrite (reads_goes (split_sep name) [] l (split_sepfree name)). split; [|tauto]. intros H. split; [|exact H]. intros r ->. discriminate E.
Qed.
Lemma parse_normalize name : normalize name = match parse name with Some l => Ok l | None => Err EEscapes end.
Proof.
  destruct (parse name) as [l|] eqn:E; [now apply normalize_means, parse_means|]. apply normalize_leaves. split; [|reflexivity]. intros l Hm. apply parse_means in Hm. congruence.
Qed.
Lemma absolute_rooted g : absolute g = rooted g.
Proof. reflexivity. Qed.
Lemma over_left l : over l = nothing_left l.
Proof. destruct l as [|c [|d l]]; try reflexivity. cbn. now destruct c. Qed.
Lemma dot_last_ends name : dot_last name = ends_with_dot name.
Proof.
  apply Bool.eq_true_iff_eq. rewrite synth_dot. unfold dot_last, last_is_dot. destruct (split_sep name) as [|c l _] using rev_ind; [split; [discriminate|intros [l E]; now destruct l]|].
  rewrite rev_unit, eqn_true. split; [intros ->; eauto|]. intros [l' E]. now apply app_inj_tail in E.
Qed.
Lemma tests c : is_empty c || is_dot c = eqn c [] || eqn c [dot] /\ is_dotdot c = eqn c [dot; dot].
Proof. unfold is_dotdot, is_dot. rewrite !eqn_bytes. split; [|reflexivity]. f_equal. now destruct c. Qed.
Lemma walk_eq t fo hops cur c l : walk t fo hops cur (c :: l) =
  if eqn c [] || eqn c [dot] then walk t fo hops cur l
  else if eqn c [dot; dot] then match cur with [] => Err EEscapes | _ => walk t fo hops (removelast cur) l end
  else
    match pat t (cur ++ [c]) with
    | None => Err ENotExist
    | Some (LookDir _) => walk t fo hops (cur ++ [c]) l
    | Some (LookFile _ _) => if over l then Ok (cur ++ [c]) else Err ENotDir
    | Some (LookLink _ g) =>
        if over l && negb fo then Ok (cur ++ [c])
        else match hops with
             | O => Err ELoop
             | S k => if absolute g then Err EEscapes else walk t fo k cur (split_sep g ++ (if over l then [] else l))
             end
    end.
Proof. now destruct hops. Qed.
Lemma walk_done t fo hops cur : walk t fo hops cur [] = Ok cur.
Proof. now destruct hops. Qed.
Lemma walk_over t fo hops cur l : over l = true -> walk t fo hops cur l = Ok cur.
Proof.
  destruct l as [|c [|d l]]; cbn [over]; intros H; [apply walk_done| |discriminate]. rewrite walk_eq, H. apply walk_done.
Qed.

(* The heap and the tree. *)
Record good (h : heap) (t : tree) : Prop := {
  g_inv : tree_inv h; g_acyclic : acyclic h; g_root : is_dir_at h 0; g_shows : shows h t }.
Section Tree.
Context (h : heap) (t : tree) (G : good h t).
Lemma at_top : at_path h 0 [] = Some 0.
Proof. reflexivity. Qed.
Lemma shown p n : at_path h 0 p = Some n -> pat t p = seen h n.
Proof. intros E. rewrite <- (proj1 (g_shows h t G) p). unfold seen_at. now rewrite E. Qed.
Lemma shown_child p d c : at_path h 0 p = Some d -> pat t (p ++ [c]) = match lookup h d c with Some n => seen h n | None => None end.
Proof. intros E. rewrite <- (proj1 (g_shows h t G)). unfold seen_at. rewrite at_snoc, E. reflexivity. Qed.
Lemma at_shown p : pat t p <> None -> exists n, at_path h 0 p = Some n /\ pat t p = seen h n.
Proof. rewrite <- (proj1 (g_shows h t G)). unfold seen_at. destruct (at_path h 0 p) as [n|]; [eauto|contradiction]. Qed.
Lemma not_at p : pat t p = None -> at_path h 0 p = None.
Proof.
  rewrite <- (proj1 (g_shows h t G)). unfold seen_at. destruct (at_path h 0 p) as [n|] eqn:E; [|reflexivity]. pose proof (at_exists h 0 p n (g_inv h t G) (g_root h t G) E) as Hn.
  unfold seen. destruct (nodes h n); [discriminate|contradiction].
Qed.
Lemma dir_shown p n : at_path h 0 p = Some n -> dir_at t p = match nodes h n with Some (NDir _ _ _) => true | _ => false end.
Proof. intros E. unfold dir_at. rewrite (shown p n E). unfold seen. now destruct (nodes h n) as [[| |]|]. Qed.
Lemma up p d c n : at_path h 0 p = Some d -> lookup h d c = Some n -> is_dir_at h n -> n <> 0 /\ parent_of h n = Some d.
Proof.
  intros Ep El (m & q & es & En). split.
  - intros ->. apply (g_acyclic h t G d c 0 El). now apply (at_reach h p).
  - destruct (t_ent h (g_inv h t G) _ _ _ El) as (x & Hx & _ & Hpar). apply Hpar. assert (x = NDir m q es) as -> by congruence. reflexivity.
Qed.
Lemma walk_sim fo : forall hops l d p, at_path h 0 p = Some d -> is_dir_at h d ->
  match walk_comps h 0 fo hops d l with
  | Ok f => exists q, walk t fo hops p l = Ok q /\ at_path h 0 q = Some (f_node f)
  | Err e => walk t fo hops p l = Err e
  end.
Proof.
  induction hops as [hops IHh] using lt_wf_ind. induction l as [|c l IH]; intros d p Ep Hd; [rewrite walk_nil, walk_done; eauto|].
  rewrite Synth_Proofs.walk_cons, walk_eq. destruct (tests c) as [-> ->]. destruct (eqn c [] || eqn c [dot]); [now apply IH|]. destruct (eqn c [dot; dot]).
  - destruct p as [|x p _] using rev_ind.
    + cbn in Ep. apply some_inj in Ep. subst d. reflexivity.
    + rewrite snoc_match, removelast_last. rewrite at_snoc in Ep. destruct (at_path h 0 p) as [e|] eqn:Ee; [|discriminate]. destruct (up p e x d Ee Ep Hd) as [Hne ->].
      destruct (Nat.eqb_spec d 0); [contradiction|]. apply IH; [exact Ee|eapply lookup_dir, Ep].
  - rewrite (shown_child p d c Ep). destruct (lookup h d c) as [n|] eqn:El; [|reflexivity]. assert (at_path h 0 (p ++ [c]) = Some n) as Epc by now rewrite at_snoc, Ep.
    cbn zeta. rewrite <- (over_left l). unfold seen. destruct (nodes h n) as [[m q es|m v|m g]|] eqn:En; cbn [option_map look_of].
    + destruct (over l) eqn:Eo; [rewrite walk_over by exact Eo; eauto|]. apply IH; [exact Epc|do 3 eexists; exact En].
    + destruct (over l); [eauto|reflexivity].
    + replace (negb (over l) || fo) with (negb (over l && negb fo)) by now destruct (over l), fo. destruct (over l && negb fo) eqn:Eo; cbn [negb]; [eauto|].
      destruct hops as [|k]; [reflexivity|]. change (absolute g) with (rooted g). destruct (rooted g); [reflexivity|].
      replace (if over l then split_sep g else split_sep g ++ l) with (split_sep g ++ (if over l then [] else l)) by (destruct (over l); [now rewrite app_nil_r|reflexivity]). apply IHh; auto.
    + exfalso. exact (listed_node h d c n (g_inv h t G) El En).
Qed.
Lemma resolve_sim name fo :
  match resolve h 0 name fo with
  | Ok f => exists q, leads_to t name fo = Ok q /\ at_path h 0 q = Some (f_node f)
  | Err e => leads_to t name fo = Err e
  end.
Proof.
  unfold resolve, leads_to. rewrite parse_normalize. destruct (parse name) as [l|]; [|reflexivity]. apply (walk_sim fo max_hops l 0 [] at_top (g_root h t G)).
Qed.
Lemma parent_sim name :
  match resolve_parent h 0 name with
  | Ok (d, base) => exists p, place_of t name = Ok (p ++ [base]) /\ at_path h 0 p = Some d /\ is_dir_at h d
  | Err e => place_of t name = Err e
  end.
Proof.
  unfold resolve_parent, place_of. rewrite parse_normalize. destruct (parse name) as [[|c l]|]; try reflexivity. unfold place_at. cbv zeta.
  pose proof (walk_sim true max_hops (removelast (c :: l)) 0 [] at_top (g_root h t G)) as Hw. change 40 with max_hops. destruct (walk_comps h 0 true max_hops 0 (removelast (c :: l))) as [f|e]; [|now rewrite Hw].
  destruct Hw as (q & -> & Eq). rewrite (dir_shown q _ Eq). destruct (nodes h (f_node f)) as [[m p es|m v|m g]|] eqn:En; try reflexivity. exists q. split; [reflexivity|]. split; [exact Eq|]. do 3 eexists. exact En.
Qed.
Lemma not_in_root p d base n : at_path h 0 p = Some d -> lookup h d base = Some n -> ~ reach h n 0.
Proof. intros Ep El Hr. apply (g_acyclic h t G d base n El). eapply reach_trans; [exact Hr|]. now apply (at_reach h p). Qed.
Lemma childless_sim p d base n : at_path h 0 p = Some d -> lookup h d base = Some n -> childless t (p ++ [base]) = negb (holds_something h n).
Proof.
  intros Ep El. assert (at_path h 0 (p ++ [base]) = Some n) as En by now rewrite at_snoc, Ep. apply Bool.eq_true_iff_eq. rewrite childless_iff, negb_true_iff. unfold holds_something. split.
  - intros H. destruct (nodes h n) as [[m q [|[c k] es]| |]|] eqn:Hn; try reflexivity. exfalso. specialize (H c []). rewrite (shown_child _ _ c En) in H. unfold lookup in H. rewrite Hn in H. cbn in H. rewrite bytes_eqb_refl in H.
    assert (lookup h n c = Some k) as Hk by (unfold lookup; rewrite Hn; cbn; now rewrite bytes_eqb_refl). pose proof (listed_node h n c k (g_inv h t G) Hk) as Hx. unfold seen in H. destruct (nodes h k); [discriminate|contradiction].
  - intros H c r. rewrite <- (proj1 (g_shows h t G)). unfold seen_at. rewrite at_app, En. cbn [at_path]. unfold lookup. destruct (nodes h n) as [[m q [|e es]| |]|]; try reflexivity. discriminate.
Qed.
End Tree.

(* What the changes of the heap make of the tree. *)
Definition views (h : heap) (t : tree) : Prop := next_view h = length (t_files t) /\ forall v, v < length (t_files t) -> nth_error (t_files t) v = Some (tag h v).
Definition same_views (h h' : heap) : Prop := next_view h' = next_view h /\ forall v, tag h' v = tag h v.
Lemma views_same h h' t t' : views h t -> same_views h h' -> t_files t' = t_files t -> views h' t'.
Proof. intros [E1 E2] [E3 E4] E. unfold views. rewrite E, E3. split; [exact E1|]. intros v Hv. rewrite E4. auto. Qed.
Lemma vs_refl h : same_views h h.
Proof. split; auto. Qed.
Lemma vs_trans a b c : same_views a b -> same_views b c -> same_views a c.
Proof. intros [E1 E2] [E3 E4]. split; [congruence|]. intros v. now rewrite E4. Qed.
Lemma vs_set h n x : same_views h (set_node h n x).
Proof. split; auto. Qed.
Lemma vs_remove h d nm : same_views h (remove_entry h d nm).
Proof. unfold remove_entry. destruct (nodes h d) as [[| |]|]; first [apply vs_set|apply vs_refl]. Qed.
Lemma vs_add h d nm n : same_views h (add_entry h d nm n).
Proof. unfold add_entry. destruct (nodes h d) as [[| |]|]; first [apply vs_set|apply vs_refl]. Qed.
Lemma vs_close h n : same_views h (close_if_file h n).
Proof. unfold close_if_file. destruct (nodes h n) as [[| |]|]; split; auto. Qed.
Lemma vs_displace h d nm ex : same_views h (displace h d nm ex).
Proof. destruct ex as [x|]; [|apply vs_refl]. cbn. eapply vs_trans; [apply vs_remove|apply vs_close]. Qed.
Lemma vs_enter h d nm x : same_views h (fst (enter_new h d nm x)).
Proof. rewrite enter_eq. cbn [fst]. eapply vs_trans; [|apply vs_add]. split; reflexivity. Qed.
Lemma vs_bump h n : same_views h (bump h n).
Proof. unfold bump. destruct (nodes h n); [apply vs_set|apply vs_refl]. Qed.
Lemma vs_dropref h n : same_views h (drop_ref h n).
Proof. unfold drop_ref. destruct (nodes h n); [apply vs_set|apply vs_refl]. Qed.
Lemma vs_move h od ob n nd nb : same_views h (Synth_Proofs.move h od ob n nd nb).
Proof. unfold Synth_Proofs.move. eapply vs_trans; [apply vs_remove|]. eapply vs_trans; [|apply vs_add]. unfold retitle. destruct (nodes _ n); [apply vs_set|apply vs_refl]. Qed.
Lemma vs_subtree fuel : forall h n h', remove_subtree fuel h n = Some h' -> same_views h h'.
Proof.
  induction fuel as [|f IH]; intros h n h' E; [discriminate|]. cbn in E. destruct (nodes h n) as [[m p es|m v|m g]|].
  - assert (forall es h1 h2, fold_left (fun oh (e : list byte * nat) => match oh with None => None | Some h1 => remove_subtree f h1 (snd e) end) es (Some h1) = Some h2 -> same_views h1 h2) as Hfold.
    { clear -IH. induction es as [|e es IHe]; intros h1 h2 H; cbn in H; [apply some_inj in H; subst; apply vs_refl|]. destruct (remove_subtree f h1 (snd e)) as [h3|] eqn:E.
      - eapply vs_trans; [eapply IH, E|apply IHe, H].
      - rewrite (fold_none (fun h1 e => remove_subtree f h1 (snd e))) in H. discriminate. }
    destruct (fold_left _ es (Some h)) as [h1|] eqn:Ef; [|discriminate]. apply Hfold in Ef. apply some_inj in E. subst h'. eapply vs_trans; [exact Ef|]. destruct (nodes h1 n) as [[| |]|]; first [apply vs_set|apply vs_refl].
  - apply some_inj in E. subst. split; auto.
  - apply some_inj in E. subst. apply vs_refl.
  - apply some_inj in E. subst. apply vs_refl.
Qed.

Lemma good_same h h' t : good h t -> keeps h h' -> acyclic h' -> (forall d c, lookup h' d c = lookup h d c) -> same_seen h h' -> same_views h h' -> good h' t.
Proof.
  intros G [Hi Hk] Ha Hl Hs Hv. constructor; auto; [apply Hk, (g_root h t G)|]. split; [|exact (views_same h h' t t (proj2 (g_shows h t G)) Hv eq_refl)].
  intros p. rewrite <- (proj1 (g_shows h t G) p). apply same_at_intro; auto; [apply (g_inv h t G)|apply (g_root h t G)|].
  generalize 0. induction p as [|c p IH]; intros a; cbn; [reflexivity|]. rewrite Hl. destruct (lookup h a c); auto.
Qed.
Section Cell.
Context (h h' : heap) (t : tree) (G : good h t) (p : path) (d : nat) (base : list byte) (Ep : at_path h 0 p = Some d) (Hk : keeps h h') (Ha : acyclic h') (Hc : one_cell h h' d base) (Hs : same_seen h h').
Lemma cell_frame q : begins (p ++ [base]) q = false -> seen_at h' 0 q = pat t q.
Proof.
  intros Hb. rewrite <- (proj1 (g_shows h t G) q). apply same_at_intro; auto; [apply (g_inv h t G)|apply (g_root h t G)|].
  apply (frame_paths h h' 0 d base (g_inv h t G) (g_acyclic h t G)); [intros n; now apply (not_in_root h t G p)|exact Hc|].
  intros lp Elp [r ->]. pose proof (at_unique h 0 (g_inv h t G) (g_acyclic h t G) lp p d Elp Ep) as ->. rewrite begins_app in Hb. discriminate.
Qed.
Lemma cell_at q : begins (p ++ [base]) q = false -> at_path h' 0 q = at_path h 0 q.
Proof.
  intros Hb. apply (frame_paths h h' 0 d base (g_inv h t G) (g_acyclic h t G)); [intros n; now apply (not_in_root h t G p)|exact Hc|].
  intros lp Elp [r ->]. pose proof (at_unique h 0 (g_inv h t G) (g_acyclic h t G) lp p d Elp Ep) as ->. rewrite begins_app in Hb. discriminate.
Qed.
Lemma cell_parent : at_path h' 0 p = Some d.
Proof.
  rewrite <- Ep. apply (frame_paths h h' 0 d base (g_inv h t G) (g_acyclic h t G)); [intros n; now apply (not_in_root h t G p)|exact Hc|].
  intros lp Elp [r E]. pose proof (at_unique h 0 (g_inv h t G) (g_acyclic h t G) lp p d Elp Ep) as ->. assert (length p = length ((p ++ [base]) ++ r)) as Hl by now rewrite <- E. rewrite !app_length in Hl. cbn in Hl. lia.
Qed.
Lemma good_clear : lookup h' d base = None -> same_views h h' -> good h' (drop t (p ++ [base])).
Proof.
  intros Hn Hv. constructor; [apply Hk|exact Ha|apply Hk, (g_root h t G)|]. split; [|exact (views_same h h' t _ (proj2 (g_shows h t G)) Hv eq_refl)].
  intros q. rewrite pat_drop. destruct (begins (p ++ [base]) q) eqn:E; [|now apply cell_frame]. apply begins_iff in E as [r ->]. unfold seen_at. rewrite <- app_assoc, at_app, cell_parent. cbn. now rewrite Hn.
Qed.
Lemma good_enter t' n k : (forall x, lookup h d base = Some x -> holds_something h x = false) -> lookup h' d base = Some n -> seen h' n = Some k -> entries h' n = [] ->
  (forall q, pat t' q = if same q (p ++ [base]) then Some k else pat t q) -> views h' t' -> good h' t'.
Proof.
  intros Hold Hn Hsn Hen Ht Hv. constructor; [apply Hk|exact Ha|apply Hk, (g_root h t G)|]. split; [|exact Hv].
  intros q. rewrite Ht. destruct (begins (p ++ [base]) q) eqn:E.
  - apply begins_iff in E as [r ->]. unfold seen_at. rewrite at_app, at_snoc, cell_parent, Hn. destruct r as [|c r].
    + rewrite app_nil_r, same_refl. exact Hsn.
    + replace (same ((p ++ [base]) ++ c :: r) (p ++ [base])) with false.
      * cbn [at_path]. assert (lookup h' n c = None) as ->. { unfold lookup. unfold entries in Hen. destruct (nodes h' n) as [[m0 p0 es0| |]|]; try reflexivity. now rewrite Hen. }
        destruct (lookup h d base) as [x|] eqn:El.
        -- pose proof (childless_sim h t G p d base x Ep El) as Hcl. rewrite (Hold x eq_refl) in Hcl. symmetry. now apply (proj1 (childless_iff t (p ++ [base])) Hcl).
        -- rewrite <- (proj1 (g_shows h t G)). unfold seen_at. now rewrite at_app, at_snoc, Ep, El.
      * symmetry. apply same_false. intros E. assert (length ((p ++ [base]) ++ c :: r) = length (p ++ [base])) as Hl by now rewrite E. rewrite !app_length in Hl. cbn in Hl. lia.
  - rewrite (cell_frame q E). destruct (same q (p ++ [base])) eqn:Es; [|reflexivity]. apply same_true in Es. subst q. rewrite <- (app_nil_r (p ++ [base])), app_nil_r in E. exfalso. apply (proj1 (begins_not _ _) E []). now rewrite app_nil_r.
Qed.
End Cell.

(* Entering a leaf. *)
Lemma enter_leaf h t p d base x : good h t -> at_path h 0 p = Some d -> is_dir_at h d -> leaf_node x d base -> (forall y, lookup h d base = Some y -> holds_something h y = false) ->
  good (fst (enter_new h d base x)) (put t (p ++ [base]) (look_of x)) /\ at_path (fst (enter_new h d base x)) 0 (p ++ [base]) = Some (next h).
Proof.
  intros G Ep Hd Hx Hold. pose proof (g_inv h t G) as Hi. pose proof (keeps_enter h d base x Hi Hd Hx) as Hk. pose proof (cell_enter h d base x Hi Hd Hx) as Hc. pose proof (seen_enter h d base x Hi) as Hs. pose proof (acyclic_enter h d base x Hi Hd Hx (g_acyclic h t G)) as Ha.
  assert (lookup (fst (enter_new h d base x)) d base = Some (next h)) as El by (rewrite lookup_enter by assumption; now rewrite Nat.eqb_refl, bytes_eqb_refl).
  assert (nodes (fst (enter_new h d base x)) (next h) = Some x) as Hnode.
  { rewrite enter_eq. cbn [fst]. assert (d <> next h) as Hne by (intros ->; destruct Hd as (m & q & es & E); rewrite (t_fresh h Hi) in E by lia; discriminate).
    unfold add_entry. destruct (nodes (fst (alloc h x)) d) as [[m q es| |]|]; cbn; try (rewrite setf_same; reflexivity). rewrite setf_other by congruence. apply setf_same. }
  split.
  - apply (good_enter h _ t G p d base Ep Hk Ha Hc Hs _ (next h) (look_of x)); auto.
    + unfold seen. now rewrite Hnode.
    + unfold entries. rewrite Hnode. destruct x; try reflexivity. apply Hx.
    + intros q. apply pat_put.
    + exact (views_same h _ t _ (proj2 (g_shows h t G)) (vs_enter h d base x) eq_refl).
  - rewrite at_snoc, (cell_parent h _ t G p d base Ep Hc). exact El.
Qed.

(* Calls. *)
Definition sim (r : heap * sres unit) (o : tree * sres unit) : Prop := good (fst r) (fst o) /\ snd r = snd o.
Lemma good_ext h t t' : good h t -> (forall q, pat t' q = pat t q) -> t_files t' = t_files t -> good h t'.
Proof.
  intros G Hp Hf. constructor; [apply (g_inv h t G)|apply (g_acyclic h t G)|apply (g_root h t G)|]. destruct (g_shows h t G) as (H1 & H2). split; [intros p; now rewrite Hp|]. rewrite Hf. exact H2.
Qed.
Lemma enter_empty h t p d base x : good h t -> at_path h 0 p = Some d -> is_dir_at h d -> leaf_node x d base -> lookup h d base = None ->
  good (fst (enter_new h d base x)) (put t (p ++ [base]) (look_of x)) /\ at_path (fst (enter_new h d base x)) 0 (p ++ [base]) = Some (next h).
Proof. intros G Ep Hd Hx El. apply enter_leaf; auto. congruence. Qed.
Lemma make_sim h t name (f : nat -> list byte -> node) k : good h t -> (forall d base, leaf_node (f d base) d base /\ look_of (f d base) = k) ->
  sim (match resolve_parent h 0 name with
       | Err e => (h, Err e)
       | Ok (d, base) => match lookup h d base with Some _ => (h, Err EExist) | None => (fst (enter_new h d base (f d base)), Ok tt) end
       end) (make_at t (place_of t name) k).
Proof.
  intros G Hf. pose proof (parent_sim h t G name) as Hp. destruct (resolve_parent h 0 name) as [[d base]|e]; [|rewrite Hp; split; [exact G|reflexivity]].
  destruct Hp as (p & -> & Ep & Hd). cbn [make_at]. rewrite (shown_child h t G p d base Ep). destruct (lookup h d base) as [n|] eqn:El.
  - pose proof (listed_node h d base n (g_inv h t G) El) as Hn. unfold seen. destruct (nodes h n); [|contradiction]. split; [exact G|reflexivity].
  - destruct (Hf d base) as [Hl <-]. split; [|reflexivity]. now apply enter_empty.
Qed.
Lemma mkdir_sim h t name mode : good h t -> sim (mkdir h 0 name mode) (make_at t (place_of t name) (LookDir mode)).
Proof.
  intros G. pose proof (make_sim h t name (fun d base => new_dir base mode d) (LookDir mode) G) as H. unfold mkdir. destruct (resolve_parent h 0 name) as [[d base]|e] eqn:E.
  - destruct (resolve_parent_base h 0 name d base E) as (H1 & H2 & H3 & _). destruct (tests_true base H1 H2 H3) as [-> ->]. cbn [orb]. apply H. intros d0 b0. split; [apply new_dir_leaf|reflexivity].
  - apply H. intros d0 b0. split; [apply new_dir_leaf|reflexivity].
Qed.
Lemma symlink_sim h t target name mode : good h t -> sim (symlink h 0 target name mode) (make_at t (place_of t name) (LookLink mode target)).
Proof. intros G. apply (make_sim h t name (fun d base => NLink (new_meta base mode) target) (LookLink mode target) G). now split. Qed.
Lemma link_sim h t old new : good h t -> sim (link h 0 old new) (plain t (OLink 0 old new)).
Proof.
  intros G. unfold link, plain. pose proof (resolve_sim h t G old true) as Hr. destruct (resolve h 0 old true) as [f|e]; [|rewrite Hr; split; [exact G|reflexivity]]. destruct Hr as (q & -> & Eq).
  rewrite (shown h t G q _ Eq). unfold seen. destruct (nodes h (f_node f)) as [[m p es|m v|m g]|]; cbn [option_map look_of]; try (split; [exact G|reflexivity]).
  apply (make_sim h t new (fun d base => NFile (new_meta base (m_mode m)) v) (LookFile (m_mode m) v) G). now split.
Qed.
Lemma clear_sim h t p d base n : good h t -> at_path h 0 p = Some d -> good (displace h d base (Some n)) (drop t (p ++ [base])).
Proof.
  intros G Ep. apply (good_clear h _ t G p d base Ep); [apply keeps_displace, (g_inv h t G)|apply acyclic_displace, (g_acyclic h t G)|apply cell_displace|apply seen_displace| |apply vs_displace].
  rewrite displace_lookup, Nat.eqb_refl, bytes_eqb_refl. reflexivity.
Qed.
Lemma drop_none h t p d base : good h t -> at_path h 0 p = Some d -> lookup h d base = None -> good h (drop t (p ++ [base])).
Proof.
  intros G Ep El. apply (good_ext h t _ G); [|reflexivity]. intros q. rewrite pat_drop. destruct (begins (p ++ [base]) q) eqn:E; [|reflexivity]. apply begins_iff in E as [r ->].
  rewrite <- (proj1 (g_shows h t G)). unfold seen_at. now rewrite at_app, at_snoc, Ep, El.
Qed.
Lemma displace_sim h t p d base : good h t -> at_path h 0 p = Some d -> good (displace h d base (lookup h d base)) (drop t (p ++ [base])).
Proof.
  intros G Ep. destruct (lookup h d base) as [n|] eqn:El; [now apply clear_sim|]. cbn [displace]. now apply (drop_none h t p d).
Qed.
Lemma remove_sim h t name : good h t -> sim (remove false h 0 name) (plain t (ORemove 0 name)).
Proof.
  intros G. unfold remove, plain. pose proof (parent_sim h t G name) as Hp. destruct (resolve_parent h 0 name) as [[d base]|e]; [|rewrite Hp; split; [exact G|reflexivity]].
  destruct Hp as (p & -> & Ep & Hd). rewrite (shown_child h t G p d base Ep). destruct (lookup h d base) as [n|] eqn:El; [|split; [exact G|reflexivity]].
  pose proof (listed_node h d base n (g_inv h t G) El) as Hn. rewrite (childless_sim h t G p d base n Ep El). unfold seen. destruct (nodes h n) as [x|] eqn:Ex; [|contradiction]. cbn [option_map]. destruct (holds_something h n); cbn [negb]; [split; [exact G|reflexivity]|]. cbn [andb].
  split; [|reflexivity]. exact (clear_sim h t p d base n G Ep).
Qed.
Lemma remove_all_sim h t name : good h t -> exists r, remove_all (S (next h)) h 0 name = Some r /\ sim r (plain t (ORemoveAll 0 name)).
Proof.
  intros G. destruct (remove_all_total h 0 name (g_inv h t G) (g_acyclic h t G)) as (h' & r & E & Ha). exists (h', r). split; [exact E|]. pose proof (frames_remove_all _ _ _ _ _ _ (g_inv h t G) E) as Hf. pose proof (parent_sim h t G name) as Hp. unfold plain. rewrite dot_last_ends. revert E. unfold remove_all.
  assert (forall x : sres unit, Some (h, x) = Some (h', r) -> sim (h', r) (t, x)) as Hsame by (intros x E; assert (h' = h /\ r = x) as [-> ->] by (split; congruence); split; [exact G|reflexivity]).
  destruct (ends_with_dot name); [apply Hsame|]. unfold place_of in *. rewrite parse_normalize. destruct (parse name) as [[|c l]|] eqn:El; [apply Hsame| |apply Hsame].
  destruct (resolve_parent h 0 name) as [[d base]|e] eqn:Er; [|rewrite Hp; apply Hsame]. destruct Hp as (p & -> & Ep & Hd). destruct (lookup h d base) as [n|] eqn:Elk.
  - destruct (remove_subtree (S (next h)) h n) as [h1|] eqn:Es; [|discriminate]. intros E. assert (h' = remove_entry h1 d base /\ r = Ok tt) as [-> ->] by (split; congruence). split; [|reflexivity]. cbn [fst].
    pose proof (keeps_emptied h h1 (g_inv h t G) (remove_subtree_emptied _ _ _ _ Es)) as Hk.
    apply (good_clear h _ t G p d base Ep); [|exact Ha|now apply Hf|apply Hf| |].
    + eapply keeps_trans; [exact Hk|]. apply keeps_remove, Hk.
    + rewrite lookup_remove, Nat.eqb_refl, bytes_eqb_refl. reflexivity.
    + eapply vs_trans; [eapply vs_subtree, Es|apply vs_remove].
  - intros E. assert (h' = h /\ r = Ok tt) as [-> ->] by (split; congruence). split; [|reflexivity]. cbn [fst]. now apply (drop_none h t p d).
Qed.

(* MkdirAll. *)
Lemma parse_join l : l <> [] -> Forall proper l -> parse (join_sep l) = Some l.
Proof. intros Hl Hp. pose proof (normalize_join l Hl Hp) as E. rewrite parse_normalize in E. destruct (parse (join_sep l)) as [l'|]; [|discriminate]. exact (f_equal (fun x => match x with Ok a => Some a | Err _ => None end) E). Qed.
Lemma parse_proper name l : parse name = Some l -> Forall proper l.
Proof. intros E. apply (normalize_proper name). now rewrite parse_normalize, E. Qed.
Lemma place_join t l : l <> [] -> Forall proper l -> place_of t (join_sep l) = place_at t l.
Proof. intros Hl Hp. unfold place_of. now rewrite parse_join. Qed.
Lemma leads_join t l fo : l <> [] -> Forall proper l -> leads_to t (join_sep l) fo = walk t fo 40 [] l.
Proof. intros Hl Hp. unfold leads_to. now rewrite parse_join. Qed.
Lemma walk_err t fo : forall hops l cur e, walk t fo hops cur l = Err e -> e <> EExist.
Proof.
  induction hops as [hops IHh] using lt_wf_ind. induction l as [|c l IH]; intros cur e; [rewrite walk_done; discriminate|]. rewrite walk_eq.
  destruct (eqn c [] || eqn c [dot]); [apply IH|]. destruct (eqn c [dot; dot]); [destruct cur; [intros E; now assert (e = EEscapes) as -> by congruence|apply IH]|]. destruct (pat t (cur ++ [c])) as [[m|m v|m g]|]; [apply IH| | |intros E; now assert (e = ENotExist) as -> by congruence].
  - destruct (over l); intros E; [discriminate|]. now assert (e = ENotDir) as -> by congruence.
  - destruct (over l && negb fo); [discriminate|]. destruct hops as [|k]; [intros E; now assert (e = ELoop) as -> by congruence|]. destruct (absolute g); [intros E; now assert (e = EEscapes) as -> by congruence|]. apply IHh. lia.
Qed.
Lemma place_err t l e : place_at t l = Err e -> e <> EExist.
Proof.
  unfold place_at. destruct l as [|c l]; [intros E; now assert (e = EInval) as -> by congruence|]. destruct (walk t true 40 [] (removelast (c :: l))) as [d|e'] eqn:E; [destruct (dir_at t d); intros E'; [discriminate|now assert (e = ENotDir) as -> by congruence]|]. intros H. assert (e = e') as -> by congruence. eapply walk_err, E.
Qed.
Lemma snoc_proper (pre : path) c l : Forall proper (pre ++ c :: l) -> Forall proper (pre ++ [c]) /\ pre ++ [c] <> [] /\ Forall proper ((pre ++ [c]) ++ l).
Proof.
  intros H. split; [|split; [now destruct pre|now rewrite <- app_assoc]]. apply Forall_app in H as [H1 H2]. apply Forall_app. split; [exact H1|]. constructor; [now inversion H2|constructor].
Qed.
Lemma mkdirs_sim mode : forall l pre h t, Forall proper (pre ++ l) -> good h t -> sim (mkdir_all_loop h 0 (heads pre l) mode) (mkdirs t pre l mode).
Proof.
  induction l as [|c l IH]; intros pre h t Hp G; [split; [exact G|reflexivity]|]. destruct (snoc_proper pre c l Hp) as (Hpc & Hne & Hpl). cbn [heads mkdir_all_loop mkdirs].
  pose proof (mkdir_sim h t (join_sep (pre ++ [c])) mode G) as [G1 E1]. rewrite (place_join t _ Hne Hpc) in *. destruct (mkdir h 0 (join_sep (pre ++ [c])) mode) as [h1 r1]. cbn [fst snd] in *.
  destruct (place_at t (pre ++ [c])) as [p|e] eqn:Epl; cbn [make_at fst snd] in *.
  - destruct (pat t p) as [k|]; cbn [fst snd] in *; subst r1.
    + pose proof (resolve_sim h1 t G1 (join_sep (pre ++ [c])) true) as Hr. rewrite (leads_join t _ true Hne Hpc) in Hr. destruct (resolve h1 0 (join_sep (pre ++ [c])) true) as [f|e]; [|rewrite Hr; split; [exact G1|reflexivity]].
      destruct Hr as (q & -> & Eq). rewrite (dir_shown h1 t G1 q _ Eq). destruct (nodes h1 (f_node f)) as [[| |]|]; try (split; [exact G1|reflexivity]). now apply IH.
    + now apply IH.
  - subst r1. pose proof (place_err _ _ _ Epl). destruct e; try (split; [exact G1|reflexivity]). contradiction.
Qed.
Lemma mkdir_all_sim h t name mode : good h t -> sim (mkdir_all h 0 name mode) (plain t (OMkdirAll 0 name mode)).
Proof.
  intros G. unfold mkdir_all, plain. rewrite parse_normalize. destruct (parse name) as [l|] eqn:E; [|split; [exact G|reflexivity]]. apply mkdirs_sim; [apply (parse_proper name l E)|exact G].
Qed.

(* Opening. *)
Lemma bump_good h t n : good h t -> good (bump h n) t.
Proof.
  intros G. apply (good_same h _ t G); [apply keeps_bump, (g_inv h t G)| |intros d c; apply bump_lookup|apply seen_bump|apply vs_bump].
  apply (acyclic_same h); [intros d c; apply bump_lookup|apply (g_acyclic h t G)].
Qed.
Lemma dropref_good h t n : good h t -> good (drop_ref h n) t.
Proof.
  intros G. apply (good_same h _ t G); [apply keeps_drop, (g_inv h t G)| |intros d c; apply drop_lookup|apply seen_drop|apply vs_dropref].
  apply (acyclic_same h); [intros d c; apply drop_lookup|apply (g_acyclic h t G)].
Qed.
Lemma fresh_views h t x : good h t -> good (fst (fresh_view h x)) (Tree (t_ents t) (t_files t ++ [x])).
Proof.
  intros G. constructor; [apply inv_fresh, (g_inv h t G)|apply (acyclic_same h); [reflexivity|apply (g_acyclic h t G)]|apply (g_root h t G)|]. destruct (g_shows h t G) as (H1 & H2 & H3). split; [|split].
  - intros p. transitivity (seen_at h 0 p); [|apply H1]. unfold seen_at. replace (at_path (fst (fresh_view h x)) 0 p) with (at_path h 0 p); [reflexivity|]. generalize 0. induction p as [|c p IH]; intros a; [reflexivity|]. cbn [at_path]. change (lookup (fst (fresh_view h x)) a c) with (lookup h a c). destruct (lookup h a c); auto.
  - cbn [t_files]. rewrite app_length. cbn. lia.
  - cbn [t_files]. intros v Hv. rewrite app_length in Hv. cbn in Hv. cbn [fresh_view fst tag]. unfold setf. destruct (Nat.eqb_spec v (next_view h)) as [-> | Hne].
    + rewrite nth_error_app2 by lia. rewrite <- H2, Nat.sub_diag. reflexivity.
    + rewrite nth_error_app1 by lia. apply H3. lia.
Qed.
Lemma close_good h t v : good h t -> good (close_view h v) t.
Proof.
  intros G. apply (good_same h _ t G); [apply keeps_same; auto; apply (g_inv h t G)|apply (acyclic_same h); [reflexivity|apply (g_acyclic h t G)]|reflexivity|intros n Hn; reflexivity|split; reflexivity].
Qed.
Lemma file_sim h t p d base mode x : good h t -> at_path h 0 p = Some d -> is_dir_at h d -> (forall y, lookup h d base = Some y -> holds_something h y = false) ->
  good (fst (enter_file h d base mode x)) (new_file t (p ++ [base]) mode x).
Proof.
  intros G Ep Hd Hold. rewrite enter_file_eq. pose proof (fresh_views h t x G) as G1.
  destruct (enter_leaf _ _ p d base (NFile (new_meta base mode) (next_view h)) G1) as [G2 _]; auto.
  - rewrite <- Ep. generalize 0. clear. induction p as [|c p IH]; intros a; [reflexivity|]. cbn [at_path]. change (lookup (fst (fresh_view h x)) a c) with (lookup h a c). destruct (lookup h a c); auto.
  - now split.
  - unfold new_file. cbn [look_of new_meta m_mode] in G2. destruct (g_shows h t G) as (_ & E & _). rewrite E in G2 at 2. exact G2.
Qed.
Lemma open_there_sim h t name q : good h t -> good (fst (open_existing h 0 name q)) t /\ snd (ignore (open_existing h 0 name q)) = open_there t name q.
Proof.
  intros G. unfold open_existing, open_there. pose proof (resolve_sim h t G name true) as Hr. destruct (resolve h 0 name true) as [f|e]; [|rewrite Hr; split; [exact G|reflexivity]]. destruct Hr as (p & -> & Ep). rewrite (shown h t G p _ Ep). unfold seen.
  destruct (nodes h (f_node f)) as [[m pa es|m v|m g]|]; cbn [option_map look_of]; try (split; [exact G|reflexivity]).
  - destruct (o_write q); (split; [|reflexivity]); [exact G|now apply bump_good].
  - unfold open_node. destruct (o_opens q); (split; [|reflexivity]); [now apply bump_good|exact G].
Qed.
Lemma open_sim h t name q : good h t -> sim (ignore (open_file h 0 name q)) (plain t (OOpen 0 name q)).
Proof.
  intros G. unfold open_file, plain. destruct (o_create q); [|exact (open_there_sim h t name q G)].
  pose proof (parent_sim h t G name) as Hp. destruct (resolve_parent h 0 name) as [[d base]|e]; [|rewrite Hp; split; [exact G|reflexivity]].
  destruct Hp as (p & -> & Ep & Hd). rewrite (shown_child h t G p d base Ep). destruct (lookup h d base) as [n|] eqn:El.
  - pose proof (listed_node h d base n (g_inv h t G) El) as Hn. unfold seen. destruct (nodes h n); [|contradiction]. cbn [option_map]. destruct (o_excl q); [split; [exact G|reflexivity]|]. exact (open_there_sim h t name q G).
  - destruct (o_allocs q); cbn [negb]; [|split; [exact G|reflexivity]]. assert (good (fst (enter_file h d base (o_mode q) (o_tag q))) (new_file t (p ++ [base]) (o_mode q) (o_tag q))) as G1 by (apply (file_sim h t p d); auto; congruence).
    destruct (enter_file h d base (o_mode q) (o_tag q)) as [h1 n]. cbn [fst] in G1. unfold open_node. destruct (o_opens q); (split; [|reflexivity]); [now apply bump_good|exact G1].
Qed.

(* Modes. *)
Lemma at_lookups h h' : (forall d c, lookup h' d c = lookup h d c) -> forall p a, at_path h' a p = at_path h a p.
Proof. intros Hl. induction p as [|c p IH]; intros a; [reflexivity|]. cbn [at_path]. rewrite Hl. destruct (lookup h a c); auto. Qed.
Lemma chmod_sim h t name fo mode : good h t -> sim (chmod h 0 name fo mode) (plain t (OChmod 0 name fo mode)).
Proof.
  intros G. pose proof (keeps_chmod h 0 name fo mode (g_inv h t G)) as Hk. pose proof (chmod_lookup h 0 name fo mode) as Hl. assert (same_views h (fst (chmod h 0 name fo mode))) as Hv by (unfold chmod; destruct (resolve h 0 name fo) as [f|]; [destruct (nodes h (f_node f))|]; first [apply vs_set|apply vs_refl]).
  pose proof (chmod_effect h 0 name fo mode) as He. pose proof (resolve_sim h t G name fo) as Hr. unfold plain. assert (snd (chmod h 0 name fo mode) = match resolve h 0 name fo with Ok _ => Ok tt | Err e => Err e end) as Hs by (unfold chmod; destruct (resolve h 0 name fo) as [f|]; [destruct (nodes h (f_node f))|]; reflexivity).
  destruct (chmod h 0 name fo mode) as [h' r]. cbn [fst snd] in *. specialize (He h' r eq_refl). destruct (resolve h 0 name fo) as [f|e]; subst r.
  - destruct Hr as (p & -> & Ep). destruct He as (f' & Ef & _ & Hother & Hthis). assert (f' = f) as -> by congruence. split; [|reflexivity]. cbn [fst].
    pose proof (at_exists h 0 p _ (g_inv h t G) (g_root h t G) Ep) as Hn. rewrite (shown h t G p _ Ep) in *. destruct (seen h (f_node f)) as [k|] eqn:Ek; [|unfold seen in Ek; destruct (nodes h (f_node f)); [discriminate|contradiction]]. cbn [option_map] in Hthis.
    constructor; [apply Hk|apply (acyclic_same h); [exact Hl|apply (g_acyclic h t G)]|apply Hk, (g_root h t G)|]. split; [|exact (views_same h h' t _ (proj2 (g_shows h t G)) Hv eq_refl)].
    intros q. rewrite pat_put. unfold seen_at. rewrite (at_lookups h h' Hl). destruct (same q p) eqn:Es.
    + apply same_true in Es. subst q. now rewrite Ep.
    + rewrite <- (proj1 (g_shows h t G) q). unfold seen_at. destruct (at_path h 0 q) as [n|] eqn:Eq; [|reflexivity]. apply Hother. intros ->. apply same_false in Es. apply Es. exact (at_unique h 0 (g_inv h t G) (g_acyclic h t G) q p _ Eq Ep).
  - rewrite Hr. subst h'. split; [exact G|reflexivity].
Qed.

(* Renames. *)
Lemma childless_new h t p d base : good h t -> at_path h 0 p = Some d ->
  childless t (p ++ [base]) = negb (match lookup h d base with Some x => holds_something h x | None => false end).
Proof.
  intros G Ep. destruct (lookup h d base) as [x|] eqn:El; [now apply (childless_sim h t G p d)|]. apply childless_iff. intros c r. rewrite <- (proj1 (g_shows h t G)). unfold seen_at. now rewrite at_app, at_snoc, Ep, El.
Qed.
Lemma into_below h t old new : good h t -> moves_below h 0 old new -> into_itself t (ORename 0 old new).
Proof.
  intros G (od & ob & n & nd & nb & (Eo & El & En) & Hr). pose proof (parent_sim h t G old) as Ho. rewrite Eo in Ho. destruct Ho as (p & Ep & Ap & Dp). pose proof (parent_sim h t G new) as Hn. rewrite En in Hn. destruct Hn as (q & Eq & Aq & Dq).
  exists (p ++ [ob]), (q ++ [nb]). apply reach_at in Hr as [r Er]. assert (at_path h 0 ((p ++ [ob]) ++ r) = Some nd) as Ar by now rewrite at_app, at_snoc, Ap, El.
  pose proof (at_unique h 0 (g_inv h t G) (g_acyclic h t G) _ _ _ Ar Aq) as <-. split; [exact Ep|]. split; [|split; [exact Eq|split]].
  - rewrite (shown_child h t G p od ob Ap), El. unfold seen. pose proof (listed_node h od ob n (g_inv h t G) El). destruct (nodes h n); [discriminate|contradiction].
  - rewrite <- app_assoc. apply begins_app.
  - intros E. assert (length (p ++ [ob]) = length (((p ++ [ob]) ++ r) ++ [nb])) as Hl by now rewrite <- E. rewrite !app_length in Hl. cbn in Hl. lia.
Qed.
Lemma rename_views h b old new : same_views h (fst (rename h b old new)).
Proof.
  rewrite rename_eq. destruct (resolve_parent h b old) as [[od ob]|]; [|apply vs_refl]. destruct (lookup h od ob) as [n|]; [|apply vs_refl]. destruct (resolve_parent h b new) as [[nd nb]|]; [|apply vs_refl]. destruct (match lookup h nd nb with Some x => _ | None => _ end); [apply vs_refl|]. cbn [fst].
  eapply vs_trans; [apply vs_displace|apply vs_move].
Qed.
Lemma rename_sim h t old new : good h t -> ~ into_itself t (ORename 0 old new) -> sim (rename h 0 old new) (plain t (ORename 0 old new)).
Proof.
  intros G Hii. assert (~ moves_below h 0 old new) as Hmb by (intros Hm; now apply Hii, (into_below h)). pose proof (keeps_rename h 0 old new (g_inv h t G)) as Hk. pose proof (acyclic_rename h 0 old new (g_inv h t G) (g_acyclic h t G) Hmb) as Ha. pose proof (rename_views h 0 old new) as Hv.
  pose proof (rename_cells h 0 old new) as Hc. pose proof (rename_eq h 0 old new) as Heq. destruct (rename h 0 old new) as [h' r]. specialize (Hc h' r (g_inv h t G) eq_refl). cbn [fst] in *.
  unfold plain. pose proof (parent_sim h t G old) as Ho. destruct (resolve_parent h 0 old) as [[od ob]|e] eqn:Eo; [|rewrite Ho; assert (h' = h /\ r = Err e) as [-> ->] by (split; congruence); split; [exact G|reflexivity]]. destruct Ho as (p & -> & Ap & Dp).
  rewrite (shown_child h t G p od ob Ap). destruct (lookup h od ob) as [n|] eqn:El; [|assert (h' = h /\ r = Err ENotExist) as [-> ->] by (split; congruence); split; [exact G|reflexivity]].
  pose proof (listed_node h od ob n (g_inv h t G) El) as Hn. unfold seen. destruct (nodes h n) as [x|] eqn:Ex; [|contradiction]. cbn [option_map].
  pose proof (parent_sim h t G new) as Hq. destruct (resolve_parent h 0 new) as [[nd nb]|e] eqn:En; [|rewrite Hq; assert (h' = h /\ r = Err e) as [-> ->] by (split; congruence); split; [exact G|reflexivity]]. destruct Hq as (q & -> & Aq & Dq).
  rewrite (childless_new h t q nd nb G Aq). destruct (match lookup h nd nb with Some y => holds_something h y | None => false end) eqn:Eh; cbn [negb]; [assert (h' = h /\ r = Err ENotEmpty) as [-> ->] by (split; congruence); split; [exact G|reflexivity]|].
  assert (r = Ok tt) as -> by congruence. destruct Hc as (od' & ob' & n' & nd' & nb' & (F1 & F2 & F3) & Hrep & Hlk & Hs). assert (od' = od /\ ob' = ob /\ nd' = nd /\ nb' = nb) as (-> & -> & -> & ->) by (repeat split; congruence). assert (n' = n) as -> by congruence.
  assert (~ reach h n nd) as Hnr by (intros Hr; apply Hmb; exists od, ob, n, nd, nb; split; [repeat split; assumption|exact Hr]).
  destruct (rename_paths h 0 old new h' od ob n nd nb (g_inv h t G) (g_acyclic h t G) (conj Eo (conj El En)) Hnr Hrep Hlk 0) as (P1 & P2 & P3). destruct (P3 p q Ap Aq) as (_ & P4 & P5). clear P3.
  assert (forall s, begins (p ++ [ob]) s = false -> begins (q ++ [nb]) s = false -> seen_at h' 0 s = pat t s) as Hframe.
  { intros s H1 H2. rewrite <- (proj1 (g_shows h t G) s). apply same_at_intro; [apply (g_inv h t G)|apply (g_root h t G)|exact Hs|]. apply P1.
    - intros lo Alo [r ->]. pose proof (at_unique h 0 (g_inv h t G) (g_acyclic h t G) lo p od Alo Ap) as ->. rewrite begins_app in H1. discriminate.
    - intros ln Aln [r ->]. pose proof (at_unique h 0 (g_inv h t G) (g_acyclic h t G) ln q nd Aln Aq) as ->. rewrite begins_app in H2. discriminate. }
  assert (forall s, seen_at h' 0 ((q ++ [nb]) ++ s) = pat t ((p ++ [ob]) ++ s)) as Hnew.
  { intros s. rewrite <- (proj1 (g_shows h t G)). unfold seen_at. rewrite <- !app_assoc. cbn [app]. rewrite P4. destruct (at_path h 0 (p ++ ob :: s)) as [k|] eqn:Ek; [|reflexivity]. apply Hs. exact (at_exists h 0 _ k (g_inv h t G) (g_root h t G) Ek). }
  split; [|reflexivity]. cbn [fst]. destruct (same (p ++ [ob]) (q ++ [nb])) eqn:Esame.
  - apply same_true in Esame. constructor; [apply Hk|exact Ha|apply Hk, (g_root h t G)|]. split; [|exact (views_same h h' t _ (proj2 (g_shows h t G)) Hv eq_refl)].
    intros s. destruct (begins (p ++ [ob]) s) eqn:E; [|apply Hframe; [exact E|now rewrite <- Esame]]. apply begins_iff in E as [r ->]. rewrite Esame at 1. apply Hnew.
  - apply same_false in Esame. constructor; [apply Hk|exact Ha|apply Hk, (g_root h t G)|]. split; [|exact (views_same h h' t _ (proj2 (g_shows h t G)) Hv eq_refl)].
    intros s. rewrite pat_move. destruct (begins (q ++ [nb]) s) eqn:E1.
    + apply begins_iff in E1 as [r ->]. rewrite skipn_app, skipn_all, Nat.sub_diag. cbn [app skipn]. rewrite Hnew. now destruct (pat t ((p ++ [ob]) ++ r)).
    + destruct (begins (p ++ [ob]) s) eqn:E2; [|now apply Hframe]. apply begins_iff in E2 as [r ->]. unfold seen_at. rewrite <- app_assoc. cbn [app]. now rewrite (P5 Esame r).
Qed.
Lemma root_sim h t name : good h t -> match open_root h 0 name with Ok _ => Ok tt | Err e => Err e end = snd (plain t (OOpenRoot 0 name)).
Proof.
  intros G. unfold open_root, plain. cbn [snd]. pose proof (resolve_sim h t G name true) as Hr. destruct (resolve h 0 name true) as [f|e]; [|now rewrite Hr]. destruct Hr as (p & -> & Ep). rewrite (dir_shown h t G p _ Ep). now destruct (nodes h (f_node f)) as [[| |]|].
Qed.

(* Ingestion. *)
Lemma gone_leaf h t l c d n : good h t -> Forall proper (l ++ [c]) -> resolve h 0 (join_sep (l ++ [c])) true = Err ENotExist -> resolve_parent h 0 (join_sep (l ++ [c])) = Ok (d, c) -> lookup h d c = Some n -> holds_something h n = false.
Proof.
  intros G Hp Hr Hq El. rewrite resolve_join in Hr; [|now destruct l|exact Hp]. rewrite resolve_parent_join in Hq by exact Hp. destruct (walk_comps h 0 true max_hops 0 l) as [f|e] eqn:Ew; [|discriminate].
  assert (f_node f = d /\ is_dir_at h (f_node f)) as [<- Hd] by (destruct (nodes h (f_node f)) as [[m p es| |]|] eqn:En; try discriminate; split; [congruence|do 3 eexists; exact En]).
  unfold holds_something. destruct (nodes h n) as [[m p [|e es]| |]|] eqn:En; try reflexivity. exfalso. apply Forall_app in Hp as [_ Hc]. assert (is_dir_at h n) as Hdn by (do 3 eexists; exact En).
  destruct (walk_child h 0 max_hops 0 l f c n Ew Hd (Forall_inv Hc) El Hdn) as (f' & E & _). congruence.
Qed.
Definition leads (h : heap) (r : sres nat) (o : sres path) : Prop :=
  match r, o with Ok d, Ok p => at_path h 0 p = Some d /\ is_dir_at h d | Err e, Err e' => e = e' | _, _ => False end.
Lemma ensure_sim mode : forall l pre h t d p, Forall proper (pre ++ l) -> good h t -> at_path h 0 p = Some d -> is_dir_at h d ->
  good (fst (ensure_loop h 0 (heads pre l) mode d)) (fst (scaffolds t pre l mode p)) /\ leads (fst (ensure_loop h 0 (heads pre l) mode d)) (snd (ensure_loop h 0 (heads pre l) mode d)) (snd (scaffolds t pre l mode p)).
Proof.
  induction l as [|c l IH]; intros pre h t d p Hp G Ep Hd; [split; [exact G|split; assumption]|]. destruct (snoc_proper pre c l Hp) as (Hpc & Hne & Hpl). cbn [heads ensure_loop scaffolds].
  pose proof (resolve_sim h t G (join_sep (pre ++ [c])) true) as Hr. rewrite (leads_join t _ true Hne Hpc) in Hr. destruct (resolve h 0 (join_sep (pre ++ [c])) true) as [f|e] eqn:Er.
  - destruct Hr as (q & -> & Eq). rewrite (dir_shown h t G q _ Eq). destruct (nodes h (f_node f)) as [[m pa es| |]|] eqn:En; try (split; [exact G|reflexivity]). apply IH; auto. do 3 eexists. exact En.
  - rewrite Hr. destruct e; try (split; [exact G|reflexivity]). pose proof (parent_sim h t G (join_sep (pre ++ [c]))) as Hq. rewrite (place_join t _ Hne Hpc) in Hq. destruct (resolve_parent h 0 (join_sep (pre ++ [c]))) as [[e base]|e] eqn:Ee; [|rewrite Hq; split; [exact G|reflexivity]].
    destruct Hq as (q & -> & Eq & Hdq). assert (base = c) as -> by (rewrite resolve_parent_join in Ee by exact Hpc; destruct (walk_comps h 0 true max_hops 0 pre) as [f|]; [|discriminate]; destruct (nodes h (f_node f)) as [[| |]|]; congruence).
    destruct (enter_leaf h t q e c (new_dir c mode e) G Eq Hdq (new_dir_leaf _ _ _)) as [G1 E1]; [intros y Hy; now apply (gone_leaf h t pre c e)|].
    destruct (enter_new h e c (new_dir c mode e)) as [h1 n1] eqn:En. cbn [fst] in *. assert (n1 = next h) as -> by (rewrite enter_eq in En; congruence). cbn [look_of new_dir new_meta m_mode] in G1.
    apply (IH (pre ++ [c]) h1 _ (next h) (q ++ [c])); auto. pose proof (shown h1 _ G1 _ _ E1) as Hs. rewrite pat_put, same_refl in Hs. unfold seen in Hs. destruct (nodes h1 (next h)) as [[m pa es| |]|] eqn:Hn; try discriminate. do 3 eexists. exact Hn.
Qed.
Lemma exists_sim h t p d base : good h t -> at_path h 0 p = Some d -> option_map is_dir_look (pat t (p ++ [base])) = option_map (existing_dir h) (lookup h d base).
Proof.
  intros G Ep. rewrite (shown_child h t G p d base Ep). destruct (lookup h d base) as [n|] eqn:Eb; [|reflexivity]. pose proof (listed_node h d base n (g_inv h t G) Eb) as Hn. unfold seen, existing_dir. cbn. destruct (nodes h n) as [[| |]|]; try reflexivity. contradiction.
Qed.
Lemma displaced h t p d base : good h t -> at_path h 0 p = Some d -> is_dir_at h d ->
  at_path (displace h d base (lookup h d base)) 0 p = Some d /\ is_dir_at (displace h d base (lookup h d base)) d /\ lookup (displace h d base (lookup h d base)) d base = None.
Proof.
  intros G Ep Hd. split; [apply (cell_parent h _ t G p d base Ep), cell_displace|]. split; [now apply (keeps_displace h d base (lookup h d base) (g_inv h t G))|]. destruct (lookup h d base) as [n|] eqn:Eb; [|exact Eb]. now rewrite displace_lookup, Nat.eqb_refl, bytes_eqb_refl.
Qed.
Lemma add_file_sim h t name x mode sc stats cb : good h t -> sim (add_file h 0 name x mode sc stats cb) (plain t (OAddFile 0 name x mode sc stats cb)).
Proof.
  intros G. unfold add_file, plain. destruct stats; cbn [negb]; [|split; [exact G|reflexivity]]. unfold ensure_parents. rewrite parse_normalize. destruct (parse name) as [[|c l]|] eqn:El; try (split; [exact G|reflexivity]).
  assert (Forall proper (removelast (c :: l))) as Hp by (apply Forall_removelast, (parse_proper name), El). destruct (ensure_sim sc (removelast (c :: l)) [] h t 0 [] Hp G eq_refl (g_root h t G)) as [G1 H1].
  destruct (ensure_loop h 0 (heads [] (removelast (c :: l))) sc 0) as [h1 r1]. destruct (scaffolds t [] (removelast (c :: l)) sc []) as [t1 r2]. cbn [fst snd] in *.
  destruct r1 as [d|e], r2 as [p|e2]; try contradiction; [|cbn in H1; subst e2; split; [exact G1|reflexivity]]. destruct H1 as [Ep Hd]. set (base := last (c :: l) []) in *.
  rewrite (exists_sim h1 t1 p d base G1 Ep).
  destruct (cb (c :: l) false _) as [[]|]; try (split; [exact G1|reflexivity]). split; [|reflexivity]. cbn [fst].
  destruct (displaced h1 t1 p d base G1 Ep Hd) as (A & B & C). apply (file_sim _ _ p d); [now apply displace_sim|exact A|exact B|]. intros y Hy. congruence.
Qed.
Lemma new_dir_at h t p n m : good h (put t p (LookDir m)) -> at_path h 0 p = Some n -> is_dir_at h n.
Proof. intros G Ep. pose proof (shown h _ G _ _ Ep) as Hs. rewrite pat_put, same_refl in Hs. unfold seen in Hs. destruct (nodes h n) as [[m0 pa es| |]|] eqn:Hn; try discriminate. do 3 eexists. exact Hn. Qed.
Lemma unlisted_sim h t p d base x ov h2 : good h t -> at_path h 0 p = Some d -> is_dir_at h d -> lookup h d base = Some x ->
  (if ov : bool then remove_subtree (S (next (remove_entry h d base))) (remove_entry h d base) x else Some (remove_entry h d base)) = Some h2 ->
  good h2 (drop t (p ++ [base])) /\ at_path h2 0 p = Some d /\ is_dir_at h2 d /\ lookup h2 d base = None /\ one_cell h h2 d base.
Proof.
  intros G Ep Hd El E. pose proof (keeps_remove h d base (g_inv h t G)) as Hk. pose proof (acyclic_sub h (remove_entry h d base) (remove_sub h d base) (g_acyclic h t G)) as Ha.
  assert (emptied (remove_entry h d base) h2) as He by (destruct ov; [exact (remove_subtree_emptied _ _ _ _ E)|apply some_inj in E; subst h2; apply emptied_refl]).
  assert (same_views (remove_entry h d base) h2) as Hv by (destruct ov; [exact (vs_subtree _ _ _ _ E)|apply some_inj in E; subst h2; apply vs_refl]).
  assert (keeps h h2) as Hk2 by (eapply keeps_trans; [exact Hk|]; apply keeps_emptied; [apply Hk|exact He]).
  assert (one_cell h h2 d base) as Hc.
  { intros e c Hne Hout. assert (lookup (remove_entry h d base) e c = lookup h e c) as Hl by (rewrite lookup_remove, cell_if by exact Hne; reflexivity). rewrite <- Hl. destruct ov; [|apply some_inj in E; now subst h2].
    unfold lookup at 1. rewrite (remove_subtree_below _ _ _ _ e (proj1 Hk) E); [reflexivity|]. intros Hr. apply (Hout x El). eapply reach_sub; [apply remove_sub|exact Hr]. }
  assert (lookup h2 d base = None) as Hn.
  { destruct (lookup h2 d base) as [y|] eqn:Ey; [|reflexivity]. apply (emptied_sub _ _ He) in Ey. rewrite lookup_remove, Nat.eqb_refl, bytes_eqb_refl in Ey. discriminate. }
  split; [|split; [apply (cell_parent h _ t G p d base Ep Hc)|split; [now apply Hk2|split; [exact Hn|exact Hc]]]].
  apply (good_clear h _ t G p d base Ep Hk2); auto.
  - now apply (acyclic_emptied _ _ He).
  - eapply seen_trans; [apply seen_remove|apply seen_emptied, He].
  - eapply vs_trans; [apply vs_remove|exact Hv].
Qed.
(* Only what is at P and below has changed. *)
Definition around (h h' : heap) (P : path) : Prop := forall q, begins P q = false -> at_path h' 0 q = at_path h 0 q.
Lemma around_refl h P : around h h P.
Proof. intros q _. reflexivity. Qed.
Lemma around_trans a b c P : around a b P -> around b c P -> around a c P.
Proof. intros H1 H2 q Hq. now rewrite (H2 q Hq), (H1 q Hq). Qed.
Lemma around_below a b P r : around a b (P ++ r) -> around a b P.
Proof. intros H q Hq. apply H. apply begins_not. intros s ->. rewrite <- app_assoc, begins_app in Hq. discriminate. Qed.
Lemma materialize_sim h t p d base mode ov : good h t -> at_path h 0 p = Some d -> is_dir_at h d ->
  exists h1 n, materialize_dir h d base mode (lookup h d base) ov = Some (h1, n) /\ around h h1 (p ++ [base]) /\ at_path h1 0 (p ++ [base]) = Some n /\ is_dir_at h1 n /\
    good h1 (match ov, option_map is_dir_look (pat t (p ++ [base])) with false, Some true => t | _, _ => put (drop t (p ++ [base])) (p ++ [base]) (LookDir mode) end).
Proof.
  intros G Ep Hd. destruct (materialize_total h d base mode (lookup h d base) ov (g_inv h t G) Hd (g_acyclic h t G)) as (h1 & n & E & _). exists h1, n. split; [exact E|]. rewrite (exists_sim h t p d base G Ep). revert E. unfold materialize_dir.
  assert (forall h2, good h2 (drop t (p ++ [base])) -> at_path h2 0 p = Some d -> is_dir_at h2 d -> lookup h2 d base = None /\ one_cell h h2 d base -> Some (enter_new h2 d base (new_dir base mode d)) = Some (h1, n) ->
    around h h1 (p ++ [base]) /\ at_path h1 0 (p ++ [base]) = Some n /\ is_dir_at h1 n /\ good h1 (put (drop t (p ++ [base])) (p ++ [base]) (LookDir mode))) as Henter.
  { intros h2 G2 E2 Hd2 [El2 Hc2] E. apply some_inj in E. pose proof (cell_enter h2 d base (new_dir base mode d) (g_inv _ _ G2) Hd2 (new_dir_leaf _ _ _)) as Hc3. destruct (enter_empty h2 _ p d base (new_dir base mode d) G2 E2 Hd2 (new_dir_leaf _ _ _) El2) as [G3 E3]. rewrite E in *. cbn [fst] in *. assert (n = next h2) as -> by (rewrite enter_eq in E; congruence).
    cbn [look_of new_dir new_meta m_mode] in G3. split; [|split; [exact E3|]].
    { apply (around_trans _ h2); intros q Hq; [exact (cell_at h h2 t G p d base Ep Hc2 q Hq)|exact (cell_at h2 h1 _ G2 p d base E2 Hc3 q Hq)]. } split; [exact (new_dir_at _ _ _ _ _ G3 E3)|exact G3]. }
  destruct (lookup h d base) as [x|] eqn:El; cbn [option_map].
  - destruct (existing_dir h x) eqn:Ex, ov; cbn [andb negb]; cbv zeta.
    2: { intros E. assert (h1 = h /\ n = x) as [-> ->] by (split; congruence). split; [apply around_refl|]. split; [now rewrite at_snoc, Ep|]. split; [|exact G]. unfold existing_dir in Ex. destruct (nodes h x) as [[m pa es| |]|] eqn:Hn; try discriminate. do 3 eexists. exact Hn. }
    all: try (destruct (remove_subtree (S (next (remove_entry h d base))) (remove_entry h d base) x) as [h2|] eqn:E2; [|discriminate]). all: intros E.
    + destruct (unlisted_sim h t p d base x true h2 G Ep Hd El E2) as (A & B & C & D). exact (Henter h2 A B C D E).
    + destruct (unlisted_sim h t p d base x true h2 G Ep Hd El E2) as (A & B & C & D). exact (Henter h2 A B C D E).
    + destruct (unlisted_sim h t p d base x false _ G Ep Hd El eq_refl) as (A & B & C & D). exact (Henter _ A B C D E).
  - intros E. destruct (Henter h (drop_none h t p d base G Ep El) Ep Hd (conj El (cell_same h h d base (fun _ _ => eq_refl))) E) as (A & B & C & D). split; [exact A|split; [exact B|split; [exact C|]]]. now destruct ov.
Qed.

Definition grafted (h : heap) (P : path) (r : option (heap * sres unit)) (o : tree * sres unit) : Prop :=
  exists h' x, r = Some (h', x) /\ good h' (fst o) /\ x = snd o /\ around h h' P /\ (forall d, is_dir_at h d -> is_dir_at h' d).
Lemma grafted_same h t P x : good h t -> grafted h P (Some (h, x)) (t, x).
Proof. intros G. exists h, x. split; [reflexivity|]. split; [exact G|]. split; [reflexivity|]. split; [apply around_refl|auto]. Qed.
Lemma each_cons f d way nm c cs t : each f d way ((nm, c) :: cs) t = match f c t d nm (way ++ [nm]) with (t1, Ok _) => each f d way cs t1 | r => r end.
Proof. reflexivity. Qed.
Lemma below_itself (p : path) c : begins (p ++ [c]) p = false.
Proof. apply begins_not. intros r E. assert (length p = length ((p ++ [c]) ++ r)) as Hl by now rewrite <- E. rewrite !app_length in Hl. cbn in Hl. lia. Qed.
Lemma each_sim cb way cs : Forall (fun c => forall h t d p base way, good h t -> at_path h 0 p = Some d -> is_dir_at h d -> grafted h (p ++ [base]) (add_walk cb (snd c) h d base way) (graft cb (snd c) t p base way)) cs ->
  forall h t d p, good h t -> at_path h 0 p = Some d -> is_dir_at h d -> grafted h p (descend (add_walk cb) d way cs h) (each (graft cb) p way cs t).
Proof.
  induction 1 as [|[nm c] cs Hc Hcs IH]; intros h t d p G Ep Hd; [apply grafted_same, G|]. cbn [snd] in Hc. rewrite descend_cons, each_cons. destruct (Hc h t d p nm (way ++ [nm]) G Ep Hd) as (h2 & x & -> & G2 & E2 & A2 & K2). destruct (graft cb c t p nm (way ++ [nm])) as [t2 x2]. cbn [fst snd] in *. subst x2.
  destruct x as [u|e].
  - destruct (IH h2 t2 d p G2) as (h3 & x3 & -> & G3 & E3 & A3 & K3); [rewrite (A2 p (below_itself p nm)); exact Ep|auto|]. exists h3, x3. split; [reflexivity|]. split; [exact G3|]. split; [exact E3|]. split; [|auto]. apply (around_trans _ h2); [now apply around_below with (r := [nm])|exact A3].
  - exists h2, (Err e). split; [reflexivity|]. split; [exact G2|]. split; [reflexivity|]. split; [now apply around_below with (r := [nm])|exact K2].
Qed.
Lemma graft_sim cb s : forall h t d p base way, good h t -> at_path h 0 p = Some d -> is_dir_at h d -> grafted h (p ++ [base]) (add_walk cb s h d base way) (graft cb s t p base way).
Proof.
  induction s as [mode cs lists IH|mode x opens|mode g rd|] using source_ind'; intros h t d p base way G Ep Hd; cbn [add_walk graft]; [| | |apply grafted_same, G]; rewrite (exists_sim h t p d base G Ep).
  - destruct (cb way true (option_map (existing_dir h) (lookup h d base))) as [dec|]; [|apply grafted_same, G].
    assert (forall ov t1, t1 = (match ov, option_map (existing_dir h) (lookup h d base) with false, Some true => t | _, _ => put (drop t (p ++ [base])) (p ++ [base]) (LookDir mode) end) ->
      grafted h (p ++ [base]) (match materialize_dir h d base mode (lookup h d base) ov with None => None | Some (h1, d0) => if lists then descend (add_walk cb) d0 way cs h1 else Some (h1, Err EOther) end)
        (if lists then each (graft cb) (p ++ [base]) way cs t1 else (t1, Err EOther))) as Hov.
    { intros ov t1 ->. destruct (materialize_sim h t p d base mode ov G Ep Hd) as (h1 & n & E & A & B & C & D). rewrite (exists_sim h t p d base G Ep) in D. pose proof (keeps_materialize _ _ _ _ _ _ _ _ (g_inv h t G) Hd E) as [[_ Hk] _]. rewrite E. destruct lists.
      - destruct (each_sim cb way cs IH h1 _ n (p ++ [base]) D B C) as (h3 & x3 & -> & G3 & E3 & A3 & K3). exists h3, x3. split; [reflexivity|]. split; [exact G3|]. split; [exact E3|]. split; [exact (around_trans _ _ _ _ A A3)|auto].
      - exists h1, (Err EOther). split; [reflexivity|]. split; [exact D|]. split; [reflexivity|]. split; [exact A|exact Hk]. }
    destruct dec; [apply grafted_same, G| |]; apply Hov; [reflexivity|]. now destruct (option_map (existing_dir h) (lookup h d base)) as [[]|].
  - destruct (cb way false (option_map (existing_dir h) (lookup h d base))) as [dec|]; [|apply grafted_same, G].
    destruct (displaced h t p d base G Ep Hd) as (A & B & C). assert (grafted h (p ++ [base]) (Some (fst (enter_file (displace h d base (lookup h d base)) d base mode x), Ok tt)) (new_file (drop t (p ++ [base])) (p ++ [base]) mode x, Ok tt)) as Hput.
    { pose proof (displace_sim h t p d base G Ep) as G2. do 2 eexists. split; [reflexivity|]. split; [|split; [reflexivity|split]].
      - apply (file_sim _ _ p d); auto. intros y Hy. congruence.
      - apply (around_trans _ (displace h d base (lookup h d base))); intros q Hq; [exact (cell_at h _ t G p d base Ep (cell_displace h d base _) q Hq)|exact (cell_at _ _ _ G2 p d base A (cell_file _ d base mode x (g_inv _ _ G2) B) q Hq)].
      - intros e He. apply (keeps_file _ d base mode x (g_inv _ _ G2) B). now apply (keeps_displace h d base _ (g_inv h t G)). }
    destruct dec; [apply grafted_same, G| |]; (destruct opens; cbn [negb]; [|apply grafted_same, G]); [|exact Hput]. destruct (lookup h d base) as [n|] eqn:El; [|exact Hput]. cbn [option_map].
    exists (close_view (fst (fresh_view h x)) (next_view h)), (Ok tt). split; [reflexivity|]. split; [apply close_good, (fresh_views h t x G)|]. split; [reflexivity|]. split; [|auto]. intros q _. apply at_lookups. reflexivity.
  - destruct (cb way false (option_map (existing_dir h) (lookup h d base))) as [dec|]; [|apply grafted_same, G].
    destruct (displaced h t p d base G Ep Hd) as (A & B & C). assert (grafted h (p ++ [base]) (Some (fst (enter_new (displace h d base (lookup h d base)) d base (NLink (new_meta base mode) g)), Ok tt)) (put (drop t (p ++ [base])) (p ++ [base]) (LookLink mode g), Ok tt)) as Hput.
    { pose proof (displace_sim h t p d base G Ep) as G2. assert (leaf_node (NLink (new_meta base mode) g) d base) as Hlf by now split. do 2 eexists. split; [reflexivity|]. split; [|split; [reflexivity|split]].
      - exact (proj1 (enter_empty _ _ p d base (NLink (new_meta base mode) g) G2 A B Hlf C)).
      - apply (around_trans _ (displace h d base (lookup h d base))); intros q Hq; [exact (cell_at h _ t G p d base Ep (cell_displace h d base _) q Hq)|exact (cell_at _ _ _ G2 p d base A (cell_enter _ d base _ (g_inv _ _ G2) B Hlf) q Hq)].
      - intros e He. apply (keeps_enter _ d base _ (g_inv _ _ G2) B Hlf). now apply (keeps_displace h d base _ (g_inv h t G)). }
    destruct dec; [apply grafted_same, G| |]; (destruct rd; cbn [negb]; [|apply grafted_same, G]); [|exact Hput]. destruct (lookup h d base) as [n|] eqn:El; [|exact Hput]. apply grafted_same, G.
Qed.
Lemma add_fs_sim h t name s sc cb : good h t -> exists r, add_fs h 0 name s sc cb = Some r /\ sim r (plain t (OAddFS 0 name s sc cb)).
Proof.
  intros G. assert (forall h1 P r o, grafted h1 P r o -> exists r', r = Some r' /\ sim r' o) as Hg by (intros h1 P r o (h' & x & -> & G' & Ex & _); exists (h', x); split; [reflexivity|]; split; assumption).
  unfold add_fs, plain, ensure_parents. rewrite parse_normalize. destruct (parse name) as [[|c l]|] eqn:El.
  - destruct s as [mode cs [] | | |]; try (exists (h, Err EOther); split; [reflexivity|]; split; [exact G|reflexivity]). apply (Hg h []). apply each_sim; auto; [|apply (g_root h t G)]. apply Forall_forall. intros c _. apply graft_sim.
  - assert (Forall proper (removelast (c :: l))) as Hp by (apply Forall_removelast, (parse_proper name), El). destruct (ensure_sim sc (removelast (c :: l)) [] h t 0 [] Hp G eq_refl (g_root h t G)) as [G1 H1].
    destruct (ensure_loop h 0 (heads [] (removelast (c :: l))) sc 0) as [h1 r1]. destruct (scaffolds t [] (removelast (c :: l)) sc []) as [t1 r2]. cbn [fst snd] in *.
    destruct r1 as [d|e], r2 as [p|e2]; try contradiction; [|cbn in H1; subst e2; exists (h1, Err e); split; [reflexivity|]; split; [exact G1|reflexivity]]. destruct H1 as [Ep Hd]. eapply Hg. now apply graft_sim.
  - exists (h, Err EEscapes). split; [reflexivity|]. split; [exact G|reflexivity].
Qed.

(* Histories. *)
Lemma step_sim st t o : good (st_heap st) t -> nth_error (st_roots st) 0 = Some 0 -> by_root o -> ~ into_itself t o ->
  exists st', step false st o = Some (st', snd (plain t o)) /\ good (st_heap st') (fst (plain t o)) /\ nth_error (st_roots st') 0 = Some 0.
Proof.
  intros G R B I.
  assert (forall r, sim r (plain t o) -> exists st', lift st (Some r) = Some (st', snd (plain t o)) /\ good (st_heap st') (fst (plain t o)) /\ nth_error (st_roots st') 0 = Some 0) as Hr.
  { intros [h' x] [G' E]. cbn [fst snd] in *. subst x. exists (with_heap st h'). split; [reflexivity|]. split; [exact G'|exact R]. }
  destruct o as [i name mode|i name mode|i tg name mode|i old new|i name|i name|i old new|i name q|n|i name fo mode|i name|i name x mode sc stats cb|i name s sc cb]; cbn [by_root] in B; try subst i; cbn [step]; rewrite ?R.
  - apply Hr. now apply mkdir_sim.
  - apply Hr. now apply mkdir_all_sim.
  - apply Hr. now apply symlink_sim.
  - apply Hr. now apply link_sim.
  - apply Hr. now apply remove_sim.
  - destruct (remove_all_sim (st_heap st) t name G) as (r & -> & H). now apply Hr.
  - apply Hr. now apply rename_sim.
  - apply Hr. now apply open_sim.
  - exists (with_heap st (drop_ref (st_heap st) n)). split; [reflexivity|]. split; [now apply dropref_good|exact R].
  - apply Hr. now apply chmod_sim.
  - pose proof (root_sim (st_heap st) t name G) as E. rewrite <- E. destruct (open_root (st_heap st) 0 name) as [d|e].
    + eexists. split; [reflexivity|]. split; [exact G|]. cbn [st_roots]. destruct (st_roots st); [discriminate|exact R].
    + eexists. split; [reflexivity|]. split; [exact G|exact R].
  - apply Hr. now apply add_file_sim.
  - destruct (add_fs_sim (st_heap st) t name s sc cb G) as (r & -> & H). now apply Hr.
Qed.
Lemma trace_sim os : forall st t, good (st_heap st) t -> nth_error (st_roots st) 0 = Some 0 -> fit t os ->
  exists st', trace st os = Some (st', answers t os) /\ good (st_heap st') (after t os) /\ nth_error (st_roots st') 0 = Some 0.
Proof.
  induction os as [|o os IH]; intros st t G R F; [exists st; cbn; auto|]. destruct F as (B & I & F). destruct (step_sim st t o G R B I) as (st1 & E1 & G1 & R1). destruct (IH st1 _ G1 R1 F) as (st2 & E2 & G2 & R2).
  exists st2. cbn [trace answers]. rewrite E1, E2. split; [reflexivity|]. split; [exact G2|exact R2].
Qed.
Lemma start_good mode : good (st_heap (new_state mode)) (start mode).
Proof.
  constructor; [apply new_ok|apply new_acyclic|do 3 eexists; reflexivity|]. split; [|split; [reflexivity|intros v Hv; cbn in Hv; lia]]. intros [|c p]; reflexivity.
Qed.
Lemma history mode os : fit (start mode) os -> exists st, trace (new_state mode) os = Some (st, answers (start mode) os) /\ shows (st_heap st) (after (start mode) os).
Proof.
  intros F. destruct (trace_sim os (new_state mode) (start mode) (start_good mode) eq_refl F) as (st & E & G & _). exists st. split; [exact E|apply (g_shows _ _ G)].
Qed.
Lemma reached mode os st rs : fit (start mode) os -> trace (new_state mode) os = Some (st, rs) -> good (st_heap st) (after (start mode) os).
Proof.
  intros F E. destruct (trace_sim os (new_state mode) (start mode) (start_good mode) eq_refl F) as (st' & E' & G & _). assert (st' = st) as -> by congruence. exact G.
Qed.
Lemma looks mode os st rs name fo : fit (start mode) os -> trace (new_state mode) os = Some (st, rs) ->
  match leads_to (after (start mode) os) name fo with
  | Ok p => exists f, resolve (st_heap st) 0 name fo = Ok f /\ seen (st_heap st) (f_node f) = pat (after (start mode) os) p /\ pat (after (start mode) os) p <> None
  | Err e => resolve (st_heap st) 0 name fo = Err e
  end.
Proof.
  intros F E. pose proof (reached mode os st rs F E) as G. pose proof (resolve_sim _ _ G name fo) as Hr. destruct (resolve (st_heap st) 0 name fo) as [f|e]; [|now rewrite Hr]. destruct Hr as (p & -> & Ep). exists f. split; [reflexivity|]. rewrite (shown _ _ G p _ Ep). split; [reflexivity|].
  pose proof (at_exists _ 0 p _ (g_inv _ _ G) (g_root _ _ G) Ep) as Hn. unfold seen. destruct (nodes (st_heap st) (f_node f)); [discriminate|contradiction].
Qed.
Lemma lists mode os st rs name p : fit (start mode) os -> trace (new_state mode) os = Some (st, rs) -> leads_to (after (start mode) os) name true = Ok p ->
  exists f, resolve (st_heap st) 0 name true = Ok f /\ NoDup (listing (st_heap st) (f_node f)) /\ forall c, In c (listing (st_heap st) (f_node f)) <-> pat (after (start mode) os) (p ++ [c]) <> None.
Proof.
  intros F E Hl. pose proof (reached mode os st rs F E) as G. pose proof (resolve_sim _ _ G name true) as Hr. destruct (resolve (st_heap st) 0 name true) as [f|e]; [|congruence]. destruct Hr as (p' & E' & Ep). assert (p' = p) as -> by (rewrite Hl in E'; congruence).
  exists f. split; [reflexivity|]. split; [apply listing_nodup, (g_inv _ _ G)|]. intros c. rewrite (listing_lookup _ _ _ (g_inv _ _ G)), (shown_child _ _ G p _ c Ep). destruct (lookup (st_heap st) (f_node f) c) as [n|] eqn:El; [|tauto].
  pose proof (listed_node _ _ _ _ (g_inv _ _ G) El) as Hn. unfold seen. destruct (nodes (st_heap st) n); [|contradiction]. split; discriminate.
Qed.
Lemma rooted_tree mode os p c : fit (start mode) os -> pat (after (start mode) os) (p ++ [c]) <> None -> dir_at (after (start mode) os) p = true.
Proof.
  intros F Hp. destruct (trace_sim os (new_state mode) (start mode) (start_good mode) eq_refl F) as (st & E & G & _). destruct (at_shown _ _ G _ Hp) as (n & En & _). rewrite at_snoc in En. destruct (at_path (st_heap st) 0 p) as [d|] eqn:Ed; [|discriminate].
  rewrite (dir_shown _ _ G p d Ed). destruct (lookup_dir _ _ _ _ En) as (m & q & es & ->). reflexivity.
Qed.
Lemma rename_keeps t i old new p m v : snd (plain t (ORename i old new)) = Ok tt -> pat t p = Some (LookFile m v) -> place_of t new <> Ok p ->
  exists q, pat (fst (plain t (ORename i old new))) q = Some (LookFile m v).
Proof.
  cbn [plain]. destruct (place_of t old) as [o|]; [|discriminate]. destruct (pat t o) as [k|]; [|discriminate]. destruct (place_of t new) as [n|]; [|discriminate]. destruct (childless t n) eqn:Ec; [|discriminate]. cbn [fst snd]. intros _ Hp Hne.
  destruct (same o n); [eauto|]. destruct (begins o p) eqn:Eo.
  - apply begins_iff in Eo as [r ->]. exists (n ++ r). rewrite pat_move, begins_app, skipn_app, skipn_all, Nat.sub_diag. cbn [app skipn]. now rewrite Hp.
  - exists p. rewrite pat_move, Eo. destruct (begins n p) eqn:En; [|exact Hp]. exfalso. apply begins_iff in En as [[|c r] ->]; [rewrite app_nil_r in Hne; congruence|]. pose proof (proj1 (childless_iff t n) Ec c r). congruence.
Qed.

(* Deciding that a history fits. *)
Definition by_rootb (o : sop) : bool :=
  match o with
  | OMkdir i _ _ | OMkdirAll i _ _ | OSymlink i _ _ _ | OLink i _ _ | ORemove i _ | ORemoveAll i _ | ORename i _ _
  | OOpen i _ _ | OChmod i _ _ _ | OOpenRoot i _ | OAddFile i _ _ _ _ _ _ | OAddFS i _ _ _ _ => Nat.eqb i 0
  | OCloseHandle _ => true
  end.
Definition into_itselfb (t : tree) (o : sop) : bool :=
  match o with
  | ORename _ old new => match place_of t old, place_of t new with Ok p, Ok n => begins p n && negb (same p n) | _, _ => false end
  | _ => false
  end.
Fixpoint fitb (t : tree) (os : list sop) : bool :=
  match os with [] => true | o :: os => by_rootb o && negb (into_itselfb t o) && fitb (fst (plain t o)) os end.
Lemma fitb_fit os : forall t, fitb t os = true -> fit t os.
Proof.
  induction os as [|o os IH]; intros t; [easy|]. cbn [fitb fit]. rewrite !andb_true_iff, negb_true_iff. intros [[H1 H2] H3]. split; [|split; [|now apply IH]].
  - destruct o; cbn in *; auto; now apply Nat.eqb_eq.
  - destruct o; try (solve [intros []]). intros (pp & nn & E1 & _ & E2 & E3 & E4). cbn in H2. rewrite E1, E2, E3 in H2. apply same_false in E4. rewrite E4 in H2. discriminate.
Qed.
Lemma renames_keep mode os st rs old new st' p m v : fit (start mode) os -> trace (new_state mode) os = Some (st, rs) -> ~ into_itself (after (start mode) os) (ORename 0 old new) -> step false st (ORename 0 old new) = Some (st', Ok tt) ->
  seen_at (st_heap st) 0 p = Some (LookFile m v) -> place_of (after (start mode) os) new <> Ok p -> exists q, seen_at (st_heap st') 0 q = Some (LookFile m v).
Proof.
  intros F E I Es Hp Hn. destruct (trace_sim os (new_state mode) (start mode) (start_good mode) eq_refl F) as (st0 & E0 & G & R). assert (st0 = st) as -> by congruence.
  destruct (step_sim st _ (ORename 0 old new) G R eq_refl I) as (st1 & E1 & G1 & _). rewrite Es in E1. apply some_inj in E1. pose proof (f_equal fst E1) as E2. apply (f_equal snd) in E1. cbn [fst snd] in E1, E2. subst st1.
  rewrite (proj1 (g_shows _ _ G)) in Hp. destruct (rename_keeps _ 0 old new p m v (eq_sym E1) Hp Hn) as [q Hq]. exists q. now rewrite (proj1 (g_shows _ _ G1)).
Qed.
