(* synthfs: why calls fail. *)
From Verif Require Import Common CommonLemmas ContentRange_Model ContentRange_Proofs PathLex_Model PathLex_Proofs OsFs_Model OsFs_Spec OsFs_Proofs
  Synth_Model Synth_Spec Synth_Proofs SynthTree_Proofs SynthPath_Proofs SynthEffect_Proofs SynthAdd_Proofs SynthErr_Spec.
Open Scope nat_scope.

Lemma left_end l : Synth_Model.nothing_left l = true <-> at_end l.
Proof.
  unfold at_end. destruct l as [|c [|c2 l]]; cbn [Synth_Model.nothing_left].
  - tauto.
  - rewrite is_empty_true. split; [intros ->; now right|intros [H|H]; [discriminate|congruence]].
  - split; [discriminate|intros [H|H]; discriminate].
Qed.
Lemma left_not_end l : Synth_Model.nothing_left l = false <-> ~ at_end l.
Proof. rewrite <- left_end. destruct (Synth_Model.nothing_left l); split; congruence || tauto || (intros; reflexivity). Qed.
Lemma top_iff t : rooted t = true <-> from_top t.
Proof. apply rooted_iff. Qed.
Lemma top_not t : rooted t = false <-> ~ from_top t.
Proof. rewrite <- top_iff. destruct (rooted t); split; congruence || tauto. Qed.

Lemma walk_stops h b fo : tree_inv h -> forall hops comps cur e, reach h b cur -> is_dir_at h cur -> walk_comps h b fo hops cur comps = Err e -> stops h b fo hops cur comps e.
Proof.
  intros H. induction hops as [|hops IHh]; induction comps as [|c rest IHc]; intros cur e Hr Hd Hw.
  1,3: rewrite walk_nil in Hw; discriminate.
  all: rewrite walk_cons in Hw; destruct (is_empty c || is_dot c) eqn:Esk; [apply st_skip; [now apply tests_skip|now apply IHc]|];
    destruct (is_dotdot c) eqn:Edd;
    [ apply is_dotdot_true in Edd; subst c; destruct (Nat.eqb_spec cur b) as [Heq|Hne];
      [assert (e = EEscapes) as -> by congruence; subst cur; apply st_above|];
      inversion Hr as [Heq|d nm n Hre Hle Heq]; [subst; contradiction|]; subst n;
      destruct (t_ent h H _ _ _ Hle) as (y & Hy & _ & Hp); destruct Hd as (m & p & es & Hd); rewrite Hd in Hy; apply some_inj in Hy; subst y;
      rewrite (Hp eq_refl) in Hw; eapply st_up; [exact Hne|exact Hle|apply IHc; [exact Hre|eapply lookup_dir, Hle|exact Hw]] |];
    pose proof (tests_false c Esk Edd) as Hc;
    destruct (lookup h cur c) as [n|] eqn:Hl; [|assert (e = ENotExist) as -> by congruence; now apply st_missing]; cbn zeta in Hw;
    assert (reach h b n) as Hrn by (eapply reach_step; eassumption);
    destruct (t_ent h H _ _ _ Hl) as (x & Hx & _); rewrite Hx in Hw;
    destruct (Synth_Model.nothing_left rest) eqn:En; pose proof En as En'; [apply left_end in En'|apply left_not_end in En'];
    destruct x as [m p es|m v|m t]; cbn [negb orb] in Hw; try discriminate.
  - destruct fo; [|discriminate]. assert (e = ELoop) as -> by congruence. eapply st_loop; eauto.
  - eapply st_down; eauto; [now exists m, p, es|]. apply IHc; auto. now exists m, p, es.
  - assert (e = ENotDir) as -> by congruence. eapply st_file; eauto.
  - assert (e = ELoop) as -> by congruence. eapply st_loop; eauto.
  - destruct fo; [|discriminate]. destruct (rooted t) eqn:Et; pose proof Et as Et'.
    + apply top_iff in Et'. assert (e = EEscapes) as -> by congruence. eapply st_top; eauto.
    + apply top_not in Et'. eapply (st_link _ _ _ _ _ _ _ _ _ _ (split_sep t)); eauto. left. auto.
  - eapply st_down; eauto; [now exists m, p, es|]. apply IHc; auto. now exists m, p, es.
  - assert (e = ENotDir) as -> by congruence. eapply st_file; eauto.
  - destruct (rooted t) eqn:Et; pose proof Et as Et'.
    + apply top_iff in Et'. assert (e = EEscapes) as -> by congruence. eapply st_top; eauto.
    + apply top_not in Et'. eapply (st_link _ _ _ _ _ _ _ _ _ _ (split_sep t ++ rest)); eauto. right. auto.
Qed.

Lemma stops_walk h b fo : tree_inv h -> forall hops cur comps e, stops h b fo hops cur comps e -> is_dir_at h cur -> walk_comps h b fo hops cur comps = Err e.
Proof.
  intros H hops cur comps e Hs.
  assert (forall c, ordinary c -> is_empty c || is_dot c = false /\ is_dotdot c = false) as Ho by (intros c (H1 & H2 & H3); now apply tests_true).
  assert (forall l, ~ at_end l \/ fo = true -> negb (Synth_Model.nothing_left l) || fo = true) as Hg.
  { intros l [Hl|Hl]; [apply left_not_end in Hl; now rewrite Hl|rewrite Hl; apply orb_true_r]. }
  induction Hs as [k cur c l Hc Hl|k cur c l n m v Hc Hl Hn He|k l|cur c l n m t Hc Hl Hn Hf|k cur c l n m t Hc Hl Hn Hf Ht|k cur c l e Hc Hs IH|k cur d nm l e Hne Hl Hs IH
    |k cur c l n m t r e Hc Hl Hn Hf Ht Hr Hs IH|k cur c l n e Hc Hl Hdn He Hs IH]; intros Hd; rewrite walk_cons.
  - destruct (Ho c Hc) as [-> ->]. now rewrite Hl.
  - destruct (Ho c Hc) as [-> ->]. rewrite Hl. cbn zeta. rewrite Hn. apply left_not_end in He. now rewrite He.
  - change (is_empty [dot; dot] || is_dot [dot; dot]) with false. change (is_dotdot [dot; dot]) with true. cbn iota. now rewrite Nat.eqb_refl.
  - destruct (Ho c Hc) as [-> ->]. rewrite Hl. cbn zeta. rewrite Hn, (Hg l Hf). reflexivity.
  - destruct (Ho c Hc) as [-> ->]. rewrite Hl. cbn zeta. rewrite Hn, (Hg l Hf). apply top_iff in Ht. now rewrite Ht.
  - apply tests_skip in Hc. rewrite Hc. now apply IH.
  - change (is_empty [dot; dot] || is_dot [dot; dot]) with false. change (is_dotdot [dot; dot]) with true. cbn iota.
    destruct (Nat.eqb_spec cur b); [contradiction|]. destruct (t_ent h H _ _ _ Hl) as (y & Hy & _ & Hp). destruct Hd as (m & p & es & Hd). rewrite Hd in Hy. apply some_inj in Hy. subst y.
    rewrite (Hp eq_refl). apply IH. eapply lookup_dir, Hl.
  - destruct (Ho c Hc) as [-> ->]. rewrite Hl. cbn zeta. rewrite Hn, (Hg l Hf). apply top_not in Ht. rewrite Ht.
    destruct Hr as [[Hr ->]|[Hr ->]]; [apply left_end in Hr|apply left_not_end in Hr]; rewrite Hr; now apply IH.
  - destruct (Ho c Hc) as [-> ->]. rewrite Hl. cbn zeta. pose proof Hdn as (m & p & es & Hn). rewrite Hn. apply left_not_end in He. rewrite He. now apply IH.
Qed.

(* Names. *)
Lemma normalize_means name l : normalize name = Ok l <-> means name l.
Proof.
  split.
  - intros E. pose proof (normalize_proper _ _ E) as Hp. unfold normalize in E. apply means_comps. destruct (is_dot (clean name)) eqn:Ed.
    + assert (l = []) as -> by congruence. apply is_dot_true in Ed. unfold clean in Ed. destruct (rooted name) eqn:Er; [discriminate|].
      split; [reflexivity|]. split; [|constructor]. apply (render_inj false); [apply clean_comps_normal, split_sepfree|apply normal_nil|exact Ed].
    + destruct (is_local (clean name)) eqn:El; [|discriminate]. assert (l = split_sep (clean name)) as Hl by congruence. subst l.
      apply is_local_comps in El as (_ & Hr & _). rewrite rooted_clean in Hr. split; [exact Hr|].
      assert (clean name = render false (clean_comps false (split_sep name))) as Ec by (unfold clean; now rewrite Hr).
      assert (normal false (clean_comps false (split_sep name))) as Hn by (apply clean_comps_normal, split_sepfree).
      rewrite Ec in *. rewrite split_render in * by exact Hn. destruct (clean_comps false (split_sep name)) as [|c l]; [discriminate|]. split; [reflexivity|exact Hp].
  - intros Hm. apply means_comps in Hm as (Hr & Hc & Hp). unfold normalize.
    assert (clean name = render false l) as -> by (unfold clean; rewrite Hr, Hc; reflexivity).
    destruct l as [|c l]; [reflexivity|]. pose proof (normalize_join (c :: l) ltac:(discriminate) Hp) as E. unfold normalize in E.
    change (join_sep (c :: l)) with (render false (c :: l)) in E. rewrite clean_render in E by (apply normal_false_proper, Hp). exact E.
Qed.
Lemma normalize_leaves name e : normalize name = Err e <-> leaves name /\ e = EEscapes.
Proof.
  split.
  - intros E. split; [intros l Hm; apply normalize_means in Hm; congruence|]. unfold normalize in E. destruct (is_dot _); [discriminate|]. destruct (is_local _); congruence.
  - intros [Hn ->]. destruct (normalize name) as [l|e] eqn:E; [exfalso; apply (Hn l), normalize_means, E|].
    unfold normalize in E. destruct (is_dot _); [discriminate|]. destruct (is_local _); congruence.
Qed.

(* Paths, names and places. *)
Section At.
Context (h : heap) (b : nat) (H : tree_inv h) (Hb : is_dir_at h b).

Lemma arrives_walk fo l n : arrives h b fo l n <-> exists f, walk_comps h b fo max_hops b l = Ok f /\ f_node f = n.
Proof.
  split.
  - intros (k & f & Hk & Hn & E). exists f. split; [|exact E]. eapply namei_walk; eauto.
  - intros (f & Hw & E). apply walk_namei in Hw; [|exact H|apply reach_self]. destruct Hw as (k & Hk & Hn). exists k, f. auto.
Qed.
Lemma stuck_walk fo l e : stuck h b fo l e <-> walk_comps h b fo max_hops b l = Err e.
Proof. split; [intros Hs; now apply stops_walk|intros Hw; apply walk_stops; auto; apply reach_self]. Qed.
Lemma leads_resolve fo name n : leads h b fo name n <-> exists f, resolve h b name fo = Ok f /\ f_node f = n.
Proof.
  unfold leads, resolve. split.
  - intros (l & Hm & Ha). apply normalize_means in Hm. rewrite Hm. now apply arrives_walk.
  - intros (f & Hr & E). destruct (normalize name) as [l|] eqn:En; [|discriminate]. exists l. split; [now apply normalize_means|]. apply arrives_walk. eauto.
Qed.
Lemma lost_resolve fo name e : lost h b fo name e <-> resolve h b name fo = Err e.
Proof.
  unfold lost, resolve. split.
  - intros [Hl|(l & Hm & Hs)]; [apply normalize_leaves in Hl; now rewrite Hl|]. apply normalize_means in Hm. rewrite Hm. now apply stuck_walk.
  - destruct (normalize name) as [l|e'] eqn:En; intros E.
    + right. exists l. split; [now apply normalize_means|now apply stuck_walk].
    + left. apply normalize_leaves. congruence.
Qed.
Lemma dir_cases n : (is_dir_at h n /\ exists m p es, nodes h n = Some (NDir m p es)) \/ (~ is_dir_at h n /\ match nodes h n with Some (NDir _ _ _) => False | _ => True end).
Proof.
  destruct (nodes h n) as [[m p es|m v|m t]|] eqn:E; [left; split; [now exists m, p, es|eauto]|right..]; (split; [|exact I]); intros (m' & p' & es' & E'); congruence.
Qed.
Lemma resolve_parent_of name l c : means name (l ++ [c]) ->
  resolve_parent h b name = match walk_comps h b true max_hops b l with
    | Err e => Err e
    | Ok f => match nodes h (f_node f) with Some (NDir _ _ _) => Ok (f_node f, c) | _ => Err ENotDir end
    end.
Proof.
  intros Hm. apply normalize_means in Hm. unfold resolve_parent. rewrite Hm. destruct (l ++ [c]) as [|x r] eqn:E; [now destruct l|]. now rewrite <- E, removelast_last, last_last.
Qed.
Lemma place_parent name d base : place h b name d base <-> resolve_parent h b name = Ok (d, base).
Proof.
  split.
  - intros (l & Hm & Ha & (m & p & es & Hd)). rewrite (resolve_parent_of _ _ _ Hm). apply arrives_walk in Ha. destruct Ha as (f & -> & ->). now rewrite Hd.
  - intros E. pose proof (resolve_parent_inside _ _ _ _ _ H E) as [_ Hd]. destruct (normalize name) as [l|e] eqn:En; [|unfold resolve_parent in E; rewrite En in E; discriminate].
    destruct l as [|c l _] using rev_ind; [unfold resolve_parent in E; rewrite En in E; discriminate|]. apply normalize_means in En. rewrite (resolve_parent_of _ _ _ En) in E.
    destruct (walk_comps h b true max_hops b l) as [f|] eqn:Ew; [|discriminate]. destruct (nodes h (f_node f)) as [[| |]|]; try discriminate.
    assert (f_node f = d /\ c = base) as [E1 ->] by (split; congruence). exists l. split; [exact En|]. split; [|exact Hd]. apply arrives_walk. eauto.
Qed.
Lemma no_place_parent name e : no_place h b name e <-> resolve_parent h b name = Err e.
Proof.
  unfold no_place. split.
  - intros [Hl|[[Hm ->]|(l & c & Hm & Hr)]].
    + apply normalize_leaves in Hl. unfold resolve_parent. now rewrite Hl.
    + apply normalize_means in Hm. unfold resolve_parent. now rewrite Hm.
    + rewrite (resolve_parent_of _ _ _ Hm). destruct Hr as [Hs|(n & Ha & Hd & ->)].
      * apply stuck_walk in Hs. now rewrite Hs.
      * apply arrives_walk in Ha. destruct Ha as (f & -> & ->). destruct (dir_cases n) as [[Hd' _]|[_ Hn]]; [contradiction|]. destruct (nodes h n) as [[| |]|]; tauto.
  - intros E. destruct (normalize name) as [l|e'] eqn:En; [|left; apply normalize_leaves; unfold resolve_parent in E; rewrite En in E; congruence].
    destruct l as [|c l _] using rev_ind; [right; left; split; [now apply normalize_means|unfold resolve_parent in E; rewrite En in E; congruence]|].
    apply normalize_means in En. right. right. exists l, c. split; [exact En|]. rewrite (resolve_parent_of _ _ _ En) in E.
    destruct (walk_comps h b true max_hops b l) as [f|e'] eqn:Ew; [|left; apply stuck_walk; congruence]. right. exists (f_node f). split; [apply arrives_walk; eauto|].
    destruct (dir_cases (f_node f)) as [[_ (m & p & es & Hd)]|[Hd _]]; [rewrite Hd in E; discriminate|]. split; [exact Hd|]. destruct (nodes h (f_node f)) as [[| |]|]; congruence.
Qed.
Lemma lead_not_link name f : resolve h b name true = Ok f -> is_dir_at h (f_node f) \/ is_file_at h (f_node f).
Proof.
  intros E. assert (forall k cur l f, namei h b true k cur l f -> is_dir_at h cur -> is_dir_at h (f_node f) \/ is_file_at h (f_node f)) as Hn.
  { clear f E. intros k cur l f Hn. induction Hn as [cur|k cur c l f Hc Hn IH|k cur d nm l f Hne Hl Hn IH|k cur c l n m t f H1 H2 H3 Hl Hx Ht Hlast Hn IH|cur c l n x H1 H2 H3 Hl Hx Hlast Hfo|k cur c l n m p es f H1 H2 H3 Hl Hx Hlast Hn IH]; intros Hd; auto.
    - apply IH. eapply lookup_dir, Hl.
    - cbn [f_node]. destruct x as [m p es|m v|m t]; [left; now exists m, p, es|right; now exists m, v|]. specialize (Hfo m t eq_refl). discriminate.
    - apply IH. now exists m, p, es. }
  unfold resolve in E. destruct (normalize name) as [l|]; [|discriminate]. apply walk_namei in E; [|exact H|apply reach_self]. destruct E as (k & _ & Hk). eapply Hn; eauto.
Qed.
Lemma full_iff n : holds_something h n = true <-> entries h n <> [].
Proof. unfold holds_something, entries. destruct (nodes h n) as [[m p [|x es]| |]|]; split; congruence || discriminate || reflexivity. Qed.
Lemma held_iff n : match nodes h n with Some x => Nat.ltb 0 (m_ref (meta_of x)) | None => false end = true <-> held h n.
Proof.
  unfold held. destruct (nodes h n) as [x|].
  - rewrite Nat.ltb_lt. split; [intros Hl; eauto|intros (y & E & Hl); apply some_inj in E; now subst y].
  - split; [discriminate|intros (y & E & _); discriminate].
Qed.

(* The calls. *)
Lemma chmod_err fo name mode e : snd (chmod h b name fo mode) = Err e <-> lost h b fo name e.
Proof.
  rewrite lost_resolve. unfold chmod. destruct (resolve h b name fo) as [f|e']; cbn [snd].
  - split; [|discriminate]. destruct (nodes h (f_node f)); discriminate.
  - split; congruence.
Qed.
Lemma open_root_err name e : open_root h b name = Err e <-> sub_root_fault h b name e.
Proof.
  unfold open_root, sub_root_fault. rewrite lost_resolve. split.
  - destruct (resolve h b name true) as [f|e'] eqn:Er; intros E; [|left; congruence]. right. exists (f_node f). split; [apply leads_resolve; eauto|].
    destruct (dir_cases (f_node f)) as [[_ (m & p & es & Hd)]|[Hd _]]; [rewrite Hd in E; discriminate|]. split; [exact Hd|]. destruct (nodes h (f_node f)) as [[| |]|]; congruence.
  - intros [E|(n & Hl & Hd & ->)]; [now rewrite E|]. apply leads_resolve in Hl as (f & -> & ->). destruct (dir_cases n) as [[Hd' _]|[_ Hn]]; [contradiction|]. destruct (nodes h n) as [[| |]|]; tauto.
Qed.

Lemma make_iff name e (t : nat -> list byte -> heap * sres unit) : (forall d base, snd (t d base) = Ok tt) ->
  (snd (match resolve_parent h b name with
        | Err e => (h, Err e)
        | Ok (d, base) => match lookup h d base with Some _ => (h, Err EExist) | None => t d base end
        end) = Err e <-> make_fault h b name e).
Proof.
  intros Ht. unfold make_fault. rewrite no_place_parent. split.
  - destruct (resolve_parent h b name) as [[d base]|e'] eqn:Ep; intros E; [|left; cbn in E; congruence]. right.
    destruct (lookup h d base) as [n|] eqn:El; [|rewrite Ht in E; discriminate]. exists d, base, n. split; [now apply place_parent|]. cbn in E. split; [exact El|congruence].
  - intros [E|(d & base & n & Hp & El & ->)]; [now rewrite E|]. apply place_parent in Hp. now rewrite Hp, El.
Qed.
Lemma mkdir_err name mode e : snd (mkdir h b name mode) = Err e <-> make_fault h b name e.
Proof.
  rewrite <- (make_iff name e (fun d base => (fst (enter_new h d base (new_dir base mode d)), Ok tt))) by reflexivity. unfold mkdir.
  destruct (resolve_parent h b name) as [[d base]|e'] eqn:Ep; [|reflexivity]. apply resolve_parent_base, proper_tests in Ep. destruct Ep as (-> & -> & ->). reflexivity.
Qed.
Lemma symlink_err t name mode e : snd (symlink h b t name mode) = Err e <-> make_fault h b name e.
Proof. apply (make_iff name e (fun d base => (fst (enter_new h d base (NLink (new_meta base mode) t)), Ok tt))). reflexivity. Qed.
Lemma link_err old new e : snd (link h b old new) = Err e <-> link_fault h b old new e.
Proof.
  unfold link, link_fault. rewrite lost_resolve. destruct (resolve h b old true) as [f|e'] eqn:Er.
  - assert (leads h b true old (f_node f)) as Hl by (apply leads_resolve; eauto).
    assert (forall n, leads h b true old n -> n = f_node f) as Hu by (intros n Hn; apply leads_resolve in Hn as (f' & Ef & <-); congruence).
    destruct (nodes h (f_node f)) as [[m p es|m v|m t]|] eqn:Hn.
    2: { change (fun d base => (fst (enter_new h d base (NFile (new_meta base (m_mode m)) v)), Ok tt)) with (fun d base => (fst (enter_new h d base (NFile (new_meta base (m_mode m)) v)), Ok tt)).
         rewrite (make_iff new e (fun d base => (fst (enter_new h d base (NFile (new_meta base (m_mode m)) v)), Ok tt))) by reflexivity. split.
         - intros Hf. right. exists (f_node f). split; [exact Hl|]. right. split; [now exists m, v|exact Hf].
         - intros [E|(n & Hl' & [[Hf _]|[_ Hf]])]; [discriminate| |exact Hf]. exfalso. apply Hf. rewrite (Hu n Hl'). now exists m, v. }
    all: cbn [snd]; split; [intros E; right; exists (f_node f); split; [exact Hl|]; left; split; [intros (m' & v' & E'); congruence|congruence]
      |intros [E|(n & Hl' & [[_ ->]|[(m' & v' & Hf) _]])]; [discriminate|reflexivity|rewrite (Hu n Hl') in Hf; congruence]].
  - cbn [snd]. split; [intros E; left; congruence|]. intros [E|(n & Hl & _)]; [congruence|]. apply leads_resolve in Hl as (f & Ef & _). congruence.
Qed.
Lemma remove_err busy name e : snd (remove busy h b name) = Err e <-> remove_fault busy h b name e.
Proof.
  unfold remove, remove_fault. rewrite no_place_parent. split.
  - destruct (resolve_parent h b name) as [[d base]|e'] eqn:Ep; intros E; [|left; cbn in E; congruence]. right. exists d, base. split; [now apply place_parent|].
    destruct (lookup h d base) as [n|] eqn:El; [|left; cbn in E; split; congruence]. right. exists n. split; [reflexivity|].
    destruct (holds_something h n) eqn:Eh; [left; split; [now apply full_iff|cbn in E; congruence]|]. right.
    destruct (busy && _) eqn:Eb; [|discriminate]. apply andb_true_iff in Eb as [-> Eb]. split; [|split; [reflexivity|split; [now apply held_iff|cbn in E; congruence]]].
    destruct (entries h n) as [|x es] eqn:Ee; [reflexivity|]. assert (holds_something h n = true) as X by (apply full_iff; congruence). congruence.
  - intros [E|(d & base & Hp & Hc)]; [now rewrite E|]. apply place_parent in Hp. rewrite Hp. destruct Hc as [[-> ->]|(n & -> & Hc)]; [reflexivity|].
    destruct Hc as [[Hf ->]|(Hf & -> & Hh & ->)]; [apply full_iff in Hf; now rewrite Hf|].
    destruct (holds_something h n) eqn:Eh; [apply full_iff in Eh; congruence|]. apply held_iff in Hh. cbn [andb]. now rewrite Hh.
Qed.
Lemma synth_dot name : Synth_Model.ends_with_dot name = true <-> last_is_dot name.
Proof.
  rewrite <- ends_with_dot_iff. assert (Synth_Model.ends_with_dot name = OsFs_Model.ends_with_dot name) as ->; [|tauto].
  unfold Synth_Model.ends_with_dot, OsFs_Model.ends_with_dot. destruct (rev name) as [|c [|d r]] eqn:Er.
  - apply (f_equal (@rev _)) in Er. rewrite rev_involutive in Er. subst name. reflexivity.
  - apply (f_equal (@rev _)) in Er. rewrite rev_involutive in Er. subst name. cbn. destruct (N.eqb c dot); reflexivity.
  - destruct (bytes_eqb name [dot]) eqn:E; [|reflexivity]. apply bytes_eqb_eq in E. subst name. discriminate.
Qed.
Lemma remove_all_err fuel name e : (exists h', remove_all fuel h b name = Some (h', Err e)) <-> remove_all_fault h b name e.
Proof.
  unfold remove_all, remove_all_fault. rewrite <- synth_dot, no_place_parent. destruct (Synth_Model.ends_with_dot name).
  - split; [intros (h' & E); left; split; congruence|]. intros [[_ ->]|[Hn _]]; [eauto|contradiction (Hn eq_refl)].
  - assert (forall e', (exists h', Some (h, @Err unit e') = Some (h', Err e)) <-> e' = e) as He by (intros e'; split; [intros (h' & E); congruence|intros ->; eauto]).
    transitivity (resolve_parent h b name = Err e); [|split; [intros E; right; split; [discriminate|exact E]|intros [[X _]|[_ E]]; [discriminate|exact E]]].
    unfold resolve_parent. destruct (normalize name) as [[|c l]|e'] eqn:En.
    + rewrite He. split; congruence.
    + destruct (walk_comps h b true max_hops b (removelast (c :: l))) as [f|e'] eqn:Ew.
      * destruct (nodes h (f_node f)) as [[m p es|m v|m t]|] eqn:Hn; try (rewrite He; split; congruence).
        split; [|discriminate]. destruct (lookup h (f_node f) (last (c :: l) [])) as [n|]; [|intros (h' & E); discriminate]. destruct (remove_subtree fuel h n); intros (h' & E); discriminate.
      * rewrite He. split; congruence.
    + rewrite He. split; congruence.
Qed.
Lemma rename_err old new e : snd (rename h b old new) = Err e <-> rename_fault h b old new e.
Proof.
  unfold rename, rename_fault. rewrite no_place_parent. split.
  - destruct (resolve_parent h b old) as [[d base]|e'] eqn:Ep; intros E; [|left; cbn in E; congruence]. right. exists d, base. split; [now apply place_parent|].
    destruct (lookup h d base) as [n|] eqn:El; [|left; cbn in E; split; congruence]. right. split; [discriminate|]. rewrite no_place_parent.
    destruct (resolve_parent h b new) as [[d2 base2]|e'] eqn:Ep2; [|left; cbn in E; congruence]. right. cbn zeta in E.
    destruct (lookup h d2 base2) as [x|] eqn:El2; [|discriminate]. destruct (holds_something h x) eqn:Eh; [|discriminate].
    exists d2, base2, x. split; [now apply place_parent|]. split; [exact El2|]. split; [now apply full_iff|cbn in E; congruence].
  - intros [E|(d & base & Hp & Hc)]; [now rewrite E|]. apply place_parent in Hp. rewrite Hp. destruct Hc as [[-> ->]|[Hn Hc]]; [reflexivity|].
    destruct (lookup h d base) as [n|]; [|contradiction]. rewrite no_place_parent in Hc. destruct Hc as [->|(d2 & base2 & x & Hp2 & El2 & Hx & ->)]; [reflexivity|].
    apply place_parent in Hp2. rewrite Hp2, El2. apply full_iff in Hx. rewrite Hx. reflexivity.
Qed.
Lemma open_existing_err name q e : snd (open_existing h b name q) = Err e <-> open_fault h b name q e.
Proof.
  unfold open_existing, open_fault, open_node. rewrite lost_resolve. destruct (resolve h b name true) as [f|e'] eqn:Er.
  - assert (leads h b true name (f_node f)) as Hl by (apply leads_resolve; eauto).
    assert (forall n, leads h b true name n -> n = f_node f) as Hu by (intros n Hn; apply leads_resolve in Hn as (f' & Ef & <-); congruence).
    destruct (lead_not_link _ _ Er) as [(m & p & es & Hn)|(m & v & Hn)]; rewrite Hn.
    + split.
      * destruct (o_write q) eqn:Ew; intros E; [|discriminate]. right. exists (f_node f). split; [exact Hl|]. left. split; [now exists m, p, es|split; [reflexivity|cbn in E; congruence]].
      * intros [E|(n & Hl' & [(_ & -> & ->)|((m' & v' & Hf) & _)])]; [discriminate|reflexivity|]. rewrite (Hu n Hl') in Hf. congruence.
    + split.
      * destruct (o_opens q) eqn:Ew; intros E; [discriminate|]. right. exists (f_node f). split; [exact Hl|]. right. split; [now exists m, v|split; [reflexivity|cbn in E; congruence]].
      * intros [E|(n & Hl' & [((m' & p' & es' & Hf) & _)|(_ & -> & ->)])]; [discriminate| |reflexivity]. rewrite (Hu n Hl') in Hf. congruence.
  - cbn [snd]. split; [intros E; left; congruence|]. intros [E|(n & Hl & _)]; [congruence|]. apply leads_resolve in Hl as (f & Ef & _). congruence.
Qed.
Lemma open_err name q e : snd (open_file h b name q) = Err e <-> if o_create q then create_fault h b name q e else open_fault h b name q e.
Proof.
  unfold open_file. destruct (o_create q); [|apply open_existing_err]. unfold create_fault. rewrite no_place_parent. split.
  - destruct (resolve_parent h b name) as [[d base]|e'] eqn:Ep; intros E; [|left; cbn in E; congruence]. right. exists d, base. split; [now apply place_parent|].
    destruct (lookup h d base) as [n|] eqn:El.
    + left. split; [discriminate|]. destruct (o_excl q); [left; cbn in E; split; congruence|right]. split; [reflexivity|]. now apply open_existing_err.
    + right. split; [reflexivity|]. destruct (o_allocs q) eqn:Ea; cbn [negb] in E; [|cbn in E; split; [now left|congruence]].
      destruct (enter_file h d base (o_mode q) (o_tag q)) as [h1 n]. unfold open_node in E. destruct (o_opens q); [discriminate|]. cbn in E. split; [now right|congruence].
  - intros [E|(d & base & Hp & Hc)]; [now rewrite E|]. apply place_parent in Hp. rewrite Hp. destruct Hc as [[Hn Hc]|(-> & Ha & ->)].
    + destruct (lookup h d base) as [n|]; [|contradiction]. destruct Hc as [[-> ->]|[-> Hc]]; [reflexivity|]. now apply open_existing_err.
    + destruct (o_allocs q); cbn [negb]; [|reflexivity]. destruct Ha as [Ha|Ha]; [discriminate|]. destruct (enter_file h d base (o_mode q) (o_tag q)) as [h1 n]. unfold open_node. now rewrite Ha.
Qed.
End At.

(* A path that leads to something missing never leads anywhere, however it goes on. *)
Lemma missing_never h b : tree_inv h -> forall k0 cur l, stops h b true k0 cur l ENotExist -> is_dir_at h cur -> forall k r f, walk_comps h b true k cur (l ++ r) <> Ok f.
Proof.
  intros H k0 cur l Hs.
  assert (forall c, ordinary c -> is_empty c || is_dot c = false /\ is_dotdot c = false) as Ho by (intros c (H1 & H2 & H3); now apply tests_true).
  remember ENotExist as e eqn:He.
  induction Hs as [k0 cur c l Hc Hl|k0 cur c l n m v Hc Hl Hn Hend|k0 l|cur c l n m t Hc Hl Hn Hf|k0 cur c l n m t Hc Hl Hn Hf Ht|k0 cur c l e Hc Hs IH|k0 cur d nm l e Hne Hl Hs IH
    |k0 cur c l n m t r0 e Hc Hl Hn Hf Ht Hr Hs IH|k0 cur c l n e Hc Hl Hdn Hend Hs IH]; try discriminate; intros Hd k r f; cbn [app]; rewrite walk_cons.
  - destruct (Ho c Hc) as [-> ->]. rewrite Hl. discriminate.
  - apply tests_skip in Hc. rewrite Hc. now apply IH.
  - change (is_empty [dot; dot] || is_dot [dot; dot]) with false. change (is_dotdot [dot; dot]) with true. cbn iota.
    destruct (Nat.eqb_spec cur b); [contradiction|]. destruct (t_ent h H _ _ _ Hl) as (y & Hy & _ & Hp). destruct Hd as (m & p & es & Hd). rewrite Hd in Hy. apply some_inj in Hy. subst y.
    rewrite (Hp eq_refl). apply IH; [exact He|]. eapply lookup_dir, Hl.
  - destruct (Ho c Hc) as [-> ->]. rewrite Hl. cbn zeta. rewrite Hn, orb_true_r. apply top_not in Ht. rewrite Ht. destruct k as [|k]; [discriminate|].
    destruct (Synth_Model.nothing_left (l ++ r)) eqn:En.
    + apply nothing_app in En as [En _]. apply left_end in En. destruct Hr as [[_ ->]|[Hr _]]; [|contradiction]. rewrite <- (app_nil_r (split_sep t)). now apply IH.
    + destruct Hr as [[_ ->]|[_ ->]]; [|rewrite app_assoc]; now apply IH.
  - destruct (Ho c Hc) as [-> ->]. rewrite Hl. cbn zeta. pose proof Hdn as (m & p & es & Hn). rewrite Hn.
    destruct (Synth_Model.nothing_left (l ++ r)) eqn:En; [apply nothing_app in En as [En _]; apply left_end in En; contradiction|]. now apply IH.
Qed.

(* The entry c0 of d0 is free, or a link that dangles. *)
Definition open_cell (h : heap) (b d0 : nat) (c0 : list byte) : Prop := lookup h d0 c0 = None \/ exists k0, stops h b true k0 d0 [c0] ENotExist.
(* Entering something there takes no path away. *)
Lemma enter_walk h b d0 c0 x : tree_inv h -> is_dir_at h d0 -> leaf_node x d0 c0 -> open_cell h b d0 c0 ->
  forall hops comps cur f, reach h b cur -> is_dir_at h cur -> walk_comps h b true hops cur comps = Ok f -> walk_comps (fst (enter_new h d0 c0 x)) b true hops cur comps = Ok f.
Proof.
  intros H Hd0 Hx Hcell.
  assert (forall k y, nodes h k = Some y -> exists y', nodes (fst (enter_new h d0 c0 x)) k = Some y' /\ core y' = core y /\ look_of y' = look_of y) as Hc.
  { intros k y Hy. rewrite enter_eq. cbn [fst]. assert (nodes (fst (alloc h x)) k = Some y) as Hy2.
    { cbn. rewrite setf_other; [exact Hy|]. intros ->. rewrite (t_fresh h H (next h)) in Hy by lia. discriminate. }
    pose proof (nodes_add (fst (alloc h x)) d0 c0 (next h) k) as Ha. rewrite Hy2 in Ha. destruct (nodes (add_entry (fst (alloc h x)) d0 c0 (next h)) k) as [z|]; [|discriminate]. exists z. split; [reflexivity|].
    destruct y, z; cbn in *; try discriminate; split; unfold core; cbn; congruence. }
  assert (forall e c, (e <> d0 \/ c <> c0) -> lookup (fst (enter_new h d0 c0 x)) e c = lookup h e c) as Hlk by (intros e c Hne; rewrite lookup_enter by assumption; now rewrite (cell_if _ _ _ _ Hne)).
  set (h2 := fst (enter_new h d0 c0 x)) in *. clearbody h2.
  assert (forall k p, parent_of h k = Some p -> parent_of h2 k = Some p) as Hpar.
  { intros k p. unfold parent_of. destruct (nodes h k) as [y|] eqn:Hy; [|discriminate]. destruct (Hc k y Hy) as (y' & -> & E & _). destruct y, y'; cbn in *; unfold core in E; cbn in E; try discriminate; congruence. }
  induction hops as [|hops IHh]; induction comps as [|c rest IHc]; intros cur f Hr Hd Hw.
  1,3: rewrite walk_nil in *; exact Hw.
  all: pose proof Hw as Hw0; rewrite walk_cons in Hw |- *; destruct (is_empty c || is_dot c); [now apply IHc|]; destruct (is_dotdot c);
    [ destruct (Nat.eqb_spec cur b) as [|Hcb]; [discriminate|]; destruct (parent_of h cur) as [p|] eqn:Hp; [|discriminate]; rewrite (Hpar _ _ Hp);
      inversion Hr as [Heq|e nm n Hre Hle Heq]; [subst; contradiction|]; subst n; pose proof (parent_lister _ _ _ _ _ H Hle Hp); subst p; apply IHc; [exact Hre|eapply lookup_dir, Hle|exact Hw] |];
    destruct (lookup h cur c) as [n|] eqn:El; [|discriminate]; cbn zeta in Hw |- *;
    assert (cur <> d0 \/ c <> c0) as Hne by
      (destruct (cell_dec cur d0 c c0) as [[-> ->]|Hne]; [|exact Hne]; exfalso; destruct Hcell as [Hcell|(k0 & Hcell)]; [congruence|exact (missing_never h b H k0 d0 [c0] Hcell Hd _ rest f Hw0)]);
    rewrite (Hlk cur c Hne), El; assert (reach h b n) as Hrn by (eapply reach_step; eassumption);
    destruct (t_ent h H _ _ _ El) as (y & Hy & _); destruct (Hc n y Hy) as (y' & Hy' & E & E2); rewrite Hy in Hw; rewrite Hy';
    destruct y as [m p es|m v|m t], y' as [m' p' es'|m' v'|m' t']; cbn in E2; try discriminate; try exact Hw.
  - destruct (Synth_Model.nothing_left rest); [exact Hw|]. apply IHc; auto. now exists m, p, es.
  - destruct (Synth_Model.nothing_left rest); [exact Hw|]. apply IHc; auto. now exists m, p, es.
  - assert (t' = t) as -> by congruence. rewrite orb_true_r in *. destruct (rooted t); [discriminate|]. now apply IHh.
Qed.

(* One directory more on the way. *)
Lemma enter_step h b pre c f mode : tree_inv h -> is_dir_at h b -> proper c -> walk_comps h b true max_hops b pre = Ok f -> is_dir_at h (f_node f) -> open_cell h b (f_node f) c ->
  let h2 := fst (enter_new h (f_node f) c (new_dir c mode (f_node f))) in
  tree_inv h2 /\ is_dir_at h2 b /\ is_dir_at h2 (next h) /\ (forall c', lookup h2 (next h) c' = None) /\ exists f', walk_comps h2 b true max_hops b (pre ++ [c]) = Ok f' /\ f_node f' = next h.
Proof.
  intros H Hb Hc Hw Hd Hcell h2. pose proof (new_dir_leaf c mode (f_node f)) as Hleaf.
  assert (tree_inv h2) as Hi by now apply inv_enter. assert (forall d, is_dir_at h d -> is_dir_at h2 d) as Hk by apply (proj2 (keeps_enter h (f_node f) c _ H Hd Hleaf)).
  assert (is_dir_at h2 (next h)) as Hn by (apply seen_dir; exists mode; apply (enter_seen h (f_node f) c (new_dir c mode (f_node f)) H Hd)).
  split; [exact Hi|]. split; [auto|]. split; [exact Hn|]. split.
  - intros c'. unfold h2. rewrite lookup_enter by assumption. pose proof (dir_old h _ H Hd) as Hlt. assert (Nat.eqb (next h) (f_node f) = false) as -> by (apply Nat.eqb_neq; lia).
    cbn [andb]. unfold lookup. now rewrite (t_fresh h H (next h) (Nat.le_refl _)).
  - apply (walk_child h2 b max_hops b pre f c (next h)).
    + apply enter_walk; [exact H|exact Hd|exact Hleaf|exact Hcell|apply reach_self|exact Hb|exact Hw].
    + apply Hk, Hd.
    + exact Hc.
    + unfold h2. rewrite lookup_enter by assumption. now rewrite Nat.eqb_refl, bytes_eqb_refl.
    + exact Hn.
Qed.
Lemma step_names pre c (l : list (list byte)) : Forall proper (pre ++ c :: l) -> Forall proper (pre ++ [c]) /\ proper c /\ Forall proper ((pre ++ [c]) ++ l).
Proof.
  intros Hp. apply Forall_app in Hp as [H1 H2]. inversion H2; subst. split; [apply Forall_app; auto|]. split; [assumption|]. rewrite <- app_assoc. apply Forall_app. auto.
Qed.
Lemma mkdir_step h b pre c f mode : Forall proper (pre ++ [c]) -> proper c -> walk_comps h b true max_hops b pre = Ok f -> is_dir_at h (f_node f) ->
  mkdir h b (join_sep (pre ++ [c])) mode = match lookup h (f_node f) c with Some _ => (h, Err EExist) | None => (fst (enter_new h (f_node f) c (new_dir c mode (f_node f))), Ok tt) end.
Proof.
  intros Hp Hc Hw (m & p & es & Hd). unfold mkdir. rewrite resolve_parent_join by exact Hp. rewrite Hw, Hd. destruct (proper_tests c Hc) as (-> & -> & ->). reflexivity.
Qed.
Lemma mkdir_fresh b mode : forall l pre h f, tree_inv h -> is_dir_at h b -> Forall proper (pre ++ l) -> walk_comps h b true max_hops b pre = Ok f -> is_dir_at h (f_node f) ->
  (forall c, lookup h (f_node f) c = None) -> snd (mkdir_all_loop h b (heads pre l) mode) = Ok tt.
Proof.
  induction l as [|c l IH]; intros pre h f H Hb Hp Hw Hd Hf; [reflexivity|]. cbn [heads mkdir_all_loop]. destruct (step_names _ _ _ Hp) as (Hp1 & Hc & Hp2).
  rewrite (mkdir_step h b pre c f mode Hp1 Hc Hw Hd), Hf.
  destruct (enter_step h b pre c f mode H Hb Hc Hw Hd (or_introl (Hf c))) as (H2 & Hb2 & Hn2 & Hf2 & f' & Hw2 & E). apply (IH _ _ f'); auto; rewrite E; assumption.
Qed.

(* The first element that is not a directory, counted from pre on. *)
Definition dir_path (h : heap) (b : nat) (l : list (list byte)) : Prop := exists f, walk_comps h b true max_hops b l = Ok f /\ is_dir_at h (f_node f).
Definition first_bad (h : heap) (b : nat) (pre l p : list (list byte)) (c : list byte) (r : list (list byte)) : Prop :=
  l = p ++ c :: r /\ (forall a t, p = a ++ t -> dir_path h b (pre ++ a)) /\ ~ dir_path h b (pre ++ p ++ [c]).
Lemma first_bad_cons h b pre c l p c' r : dir_path h b pre -> dir_path h b (pre ++ [c]) ->
  (first_bad h b pre (c :: l) p c' r <-> exists p', p = c :: p' /\ first_bad h b (pre ++ [c]) l p' c' r).
Proof.
  intros H0 H1. split.
  - intros (E & Hd & Hn). destruct p as [|x p']; [injection E as -> ->; contradiction|]. injection E as <- ->. exists p'. split; [reflexivity|]. split; [reflexivity|]. split.
    + intros a t ->. rewrite <- app_assoc. apply (Hd (c :: a) t). reflexivity.
    + rewrite <- app_assoc. exact Hn.
  - intros (p' & -> & -> & Hd & Hn). split; [reflexivity|]. split.
    + intros [|x a] t E; [now rewrite app_nil_r|]. injection E as <- ->. specialize (Hd a t eq_refl). now rewrite <- app_assoc in Hd.
    + now rewrite <- app_assoc in Hn.
Qed.
Lemma first_bad_here h b pre c l p c' r : dir_path h b pre -> ~ dir_path h b (pre ++ [c]) -> (first_bad h b pre (c :: l) p c' r <-> p = [] /\ c' = c /\ r = l).
Proof.
  intros H0 H1. split.
  - intros (E & Hd & Hn). destruct p as [|x p']; [injection E as -> ->; auto|]. injection E as <- ->. exfalso. apply H1. apply (Hd [c] p'). reflexivity.
  - intros (-> & -> & ->). split; [reflexivity|]. split; [|exact H1]. intros [|x a] t E; [now rewrite app_nil_r|discriminate].
Qed.

Definition loop_fault (h : heap) (b : nat) (pre l : list (list byte)) (e : serr) : Prop :=
  exists p c r f n, first_bad h b pre l p c r /\ walk_comps h b true max_hops b (pre ++ p) = Ok f /\ lookup h (f_node f) c = Some n /\
    match walk_comps h b true max_hops b (pre ++ p ++ [c]) with Err e' => e = e' | Ok _ => e = ENotEmpty end.
Lemma child_missing h b pre c f : walk_comps h b true max_hops b pre = Ok f -> is_dir_at h (f_node f) -> proper c -> lookup h (f_node f) c = None -> walk_comps h b true max_hops b (pre ++ [c]) = Err ENotExist.
Proof.
  intros Hw Hd Hc Hl. destruct (walk_concat h b max_hops pre b f Hw Hd) as (k & _ & Hr). specialize (Hr [c]). rewrite walk_cons in Hr. destruct (proper_tests c Hc) as (E1 & E2 & E3). rewrite E1, E2, E3, Hl in Hr.
  cbn [orb res_node] in Hr. destruct (walk_comps h b true max_hops b (pre ++ [c])) as [f'|e]; cbn [res_node] in Hr; congruence.
Qed.
Lemma mkdir_loop_err b mode e : forall l pre h f, tree_inv h -> is_dir_at h b -> Forall proper (pre ++ l) -> walk_comps h b true max_hops b pre = Ok f -> is_dir_at h (f_node f) ->
  (snd (mkdir_all_loop h b (heads pre l) mode) = Err e <-> loop_fault h b pre l e).
Proof.
  induction l as [|c l IH]; intros pre h f H Hb Hp Hw Hd.
  - cbn. split; [discriminate|]. intros (p & c & r & f' & n & (E & _) & _). destruct p; discriminate.
  - cbn [heads mkdir_all_loop]. destruct (step_names _ _ _ Hp) as (Hp1 & Hc & Hp2). rewrite (mkdir_step h b pre c f mode Hp1 Hc Hw Hd).
    assert (dir_path h b pre) as H0 by (exists f; auto). destruct (lookup h (f_node f) c) as [n|] eqn:El.
    + rewrite resolve_join by (auto; now destruct pre). destruct (walk_comps h b true max_hops b (pre ++ [c])) as [f2|e2] eqn:Ew2.
      * destruct (dir_cases h (f_node f2)) as [[Hd2 (m & p & es & Hn2)]|[Hd2 Hn2]].
        -- rewrite Hn2. rewrite (IH (pre ++ [c]) h f2 H Hb Hp2 Ew2 Hd2). assert (dir_path h b (pre ++ [c])) as H1 by (exists f2; auto). unfold loop_fault. split.
           ++ intros (p' & c' & r & f' & n' & Hb' & Hf' & Hl' & He'). exists (c :: p'), c', r, f', n'. split; [apply first_bad_cons; eauto|]. rewrite <- app_assoc in Hf', He'. auto.
           ++ intros (p' & c' & r & f' & n' & Hb' & Hf' & Hl' & He'). apply first_bad_cons in Hb'; auto. destruct Hb' as (p2 & -> & Hb'). exists p2, c', r, f', n'. split; [exact Hb'|]. rewrite <- !app_assoc. auto.
        -- assert (~ dir_path h b (pre ++ [c])) as H1 by (intros (f3 & E3 & Hd3); congruence).
           transitivity (e = ENotEmpty); [destruct (nodes h (f_node f2)) as [[| |]|]; cbn; try tauto; split; congruence|]. unfold loop_fault. split.
           ++ intros ->. exists [], c, l, f, n. split; [apply first_bad_here; auto|]. cbn [app]. rewrite app_nil_r, Ew2. auto.
           ++ intros (p' & c' & r & f' & n' & Hb' & Hf' & Hl' & He'). apply first_bad_here in Hb'; auto. destruct Hb' as (-> & -> & ->). cbn [app] in He'. rewrite Ew2 in He'. exact He'.
      * assert (~ dir_path h b (pre ++ [c])) as H1 by (intros (f3 & E3 & Hd3); congruence). transitivity (e = e2); [cbn; split; congruence|]. unfold loop_fault. split.
        -- intros ->. exists [], c, l, f, n. split; [apply first_bad_here; auto|]. cbn [app]. rewrite app_nil_r, Ew2. auto.
        -- intros (p' & c' & r & f' & n' & Hb' & Hf' & Hl' & He'). apply first_bad_here in Hb'; auto. destruct Hb' as (-> & -> & ->). cbn [app] in He'. rewrite Ew2 in He'. exact He'.
    + pose proof (child_missing h b pre c f Hw Hd Hc El) as Hm. assert (~ dir_path h b (pre ++ [c])) as H1 by (intros (f3 & E3 & Hd3); congruence).
      destruct (enter_step h b pre c f mode H Hb Hc Hw Hd (or_introl El)) as (H2 & Hb2 & Hn2 & Hf2 & f' & Hw2 & E). rewrite (mkdir_fresh b mode l (pre ++ [c]) _ f'); auto; try (rewrite E; assumption).
      split; [discriminate|]. intros (p' & c' & r & f3 & n' & Hb' & Hf' & Hl' & He'). apply first_bad_here in Hb'; auto. destruct Hb' as (-> & -> & ->). rewrite app_nil_r, Hw in Hf'. congruence.
Qed.

Section Ways.
Context (h : heap) (b : nat) (H : tree_inv h) (Hb : is_dir_at h b).
Lemma dir_path_iff l : dir_path h b l <-> exists d, arrives h b true l d /\ is_dir_at h d.
Proof.
  split; [intros (f & Hw & Hd); exists (f_node f); split; [apply arrives_walk; eauto|exact Hd]|].
  intros (d & Ha & Hd). apply arrives_walk in Ha; auto. destruct Ha as (f & Hw & <-). exists f. auto.
Qed.
Lemma first_iff l p c r : first_not_dir h b l p c r <-> first_bad h b [] l p c r.
Proof.
  unfold first_not_dir, first_bad, all_dirs. cbn [app]. split.
  - intros (E & Hd & Hn). split; [exact E|]. split; [intros a t Ea; apply dir_path_iff; eauto|]. intros Hp. apply Hn. intros a t Ea. apply dir_path_iff in Hp.
    destruct t as [|x t _] using rev_ind; [rewrite app_nil_r in Ea; now subst a|]. rewrite app_assoc in Ea. apply app_inj_tail in Ea as [-> _]. eauto.
  - intros (E & Hd & Hn). split; [exact E|]. split; [intros a t Ea; apply dir_path_iff; eauto|]. intros Hp. apply Hn. apply dir_path_iff. apply (Hp (p ++ [c]) []). now rewrite app_nil_r.
Qed.
Lemma mkdir_all_err name mode e : snd (mkdir_all h b name mode) = Err e <-> mkdir_all_fault h b name e.
Proof.
  unfold mkdir_all, mkdir_all_fault. destruct (normalize name) as [l|e'] eqn:En.
  - pose proof (normalize_proper _ _ En) as Hp. apply normalize_means in En. rewrite (mkdir_loop_err b mode e l [] h {| f_node := b; f_at := None |} H Hb Hp (walk_nil _ _ _ _ _) Hb). unfold loop_fault. cbn [app]. split.
    + intros (p & c & r & f & n & Hf & Hw & Hl & He). right. exists l, p, c, r, (f_node f), n. split; [exact En|]. split; [now apply first_iff|]. split; [apply arrives_walk; eauto|]. split; [exact Hl|].
      destruct (walk_comps h b true max_hops b (p ++ [c])) as [f'|e'] eqn:Ew; [right; exists (f_node f'); split; [apply arrives_walk; eauto|exact He]|left; apply stuck_walk; congruence].
    + intros [[Hl _]|(l' & p & c & r & d & n & Hm & Hf & Ha & Hl & He)]; [contradiction (Hl l En)|]. assert (l' = l) as -> by (apply normalize_means in Hm, En; congruence).
      apply arrives_walk in Ha; auto. destruct Ha as (f & Hw & <-). exists p, c, r, f, n. split; [now apply first_iff|]. split; [exact Hw|]. split; [exact Hl|].
      destruct He as [Hs|(x & Ha & ->)]; [apply stuck_walk in Hs; auto; now rewrite Hs|]. apply arrives_walk in Ha; auto. destruct Ha as (f' & -> & _). reflexivity.
  - cbn [snd]. split.
    + intros E. left. apply normalize_leaves. congruence.
    + intros [Hl|(l' & p & c & r & d & n & Hm & _)]; [apply normalize_leaves in Hl; congruence|]. apply normalize_means in Hm. congruence.
Qed.
End Ways.

Lemma ensure_step h b pre c f : Forall proper (pre ++ [c]) -> walk_comps h b true max_hops b pre = Ok f -> is_dir_at h (f_node f) -> resolve_parent h b (join_sep (pre ++ [c])) = Ok (f_node f, c).
Proof. intros Hp Hw (m & p & es & Hd). rewrite resolve_parent_join by exact Hp. now rewrite Hw, Hd. Qed.
Lemma ensure_fresh b mode : forall l pre h f, tree_inv h -> is_dir_at h b -> Forall proper (pre ++ l) -> walk_comps h b true max_hops b pre = Ok f -> is_dir_at h (f_node f) ->
  (forall c, lookup h (f_node f) c = None) -> exists d, snd (ensure_loop h b (heads pre l) mode (f_node f)) = Ok d.
Proof.
  induction l as [|c l IH]; intros pre h f H Hb Hp Hw Hd Hf; [eexists; reflexivity|]. cbn [heads ensure_loop]. destruct (step_names _ _ _ Hp) as (Hp1 & Hc & Hp2).
  rewrite resolve_join by (auto; now destruct pre). rewrite (child_missing h b pre c f Hw Hd Hc (Hf c)), (ensure_step h b pre c f Hp1 Hw Hd).
  destruct (enter_step h b pre c f mode H Hb Hc Hw Hd (or_introl (Hf c))) as (H2 & Hb2 & Hn2 & Hf2 & f' & Hw2 & E). rewrite enter_eq in *. cbn [fst] in *.
  set (h2 := add_entry (fst (alloc h (new_dir c mode (f_node f)))) (f_node f) c (next h)) in *. clearbody h2.
  rewrite <- E. apply (IH (pre ++ [c]) _ f' H2 Hb2 Hp2 Hw2); [rewrite E; exact Hn2|rewrite E; exact Hf2].
Qed.
Definition ensure_fault (h : heap) (b : nat) (pre l : list (list byte)) (e : serr) : Prop :=
  exists p c r, first_bad h b pre l p c r /\ match walk_comps h b true max_hops b (pre ++ p ++ [c]) with Err e' => e = e' /\ e <> ENotExist | Ok _ => e = ENotDir end.
Lemma ensure_loop_err b mode e : forall l pre h f, tree_inv h -> is_dir_at h b -> Forall proper (pre ++ l) -> walk_comps h b true max_hops b pre = Ok f -> is_dir_at h (f_node f) ->
  (snd (ensure_loop h b (heads pre l) mode (f_node f)) = Err e <-> ensure_fault h b pre l e).
Proof.
  induction l as [|c l IH]; intros pre h f H Hb Hp Hw Hd.
  - cbn. split; [discriminate|]. intros (p & c & r & (E & _) & _). destruct p; discriminate.
  - cbn [heads ensure_loop]. destruct (step_names _ _ _ Hp) as (Hp1 & Hc & Hp2). assert (dir_path h b pre) as H0 by (exists f; auto).
    rewrite resolve_join by (auto; now destruct pre). destruct (walk_comps h b true max_hops b (pre ++ [c])) as [f2|e2] eqn:Ew2.
    + destruct (dir_cases h (f_node f2)) as [[Hd2 (m & p & es & Hn2)]|[Hd2 Hn2]].
      * rewrite Hn2. rewrite (IH (pre ++ [c]) h f2 H Hb Hp2 Ew2 Hd2). assert (dir_path h b (pre ++ [c])) as H1 by (exists f2; auto). unfold ensure_fault. split.
        -- intros (p' & c' & r & Hb' & He'). exists (c :: p'), c', r. split; [apply first_bad_cons; eauto|]. rewrite <- app_assoc in He'. exact He'.
        -- intros (p' & c' & r & Hb' & He'). apply first_bad_cons in Hb'; auto. destruct Hb' as (p2 & -> & Hb'). exists p2, c', r. split; [exact Hb'|]. rewrite <- !app_assoc. exact He'.
      * assert (~ dir_path h b (pre ++ [c])) as H1 by (intros (f3 & E3 & Hd3); congruence).
        transitivity (e = ENotDir); [destruct (nodes h (f_node f2)) as [[| |]|]; cbn; try tauto; split; congruence|]. unfold ensure_fault. split.
        -- intros ->. exists [], c, l. split; [apply first_bad_here; auto|]. cbn [app]. now rewrite Ew2.
        -- intros (p' & c' & r & Hb' & He'). apply first_bad_here in Hb'; auto. destruct Hb' as (-> & -> & ->). cbn [app] in He'. rewrite Ew2 in He'. exact He'.
    + assert (~ dir_path h b (pre ++ [c])) as H1 by (intros (f3 & E3 & Hd3); congruence). transitivity (e = e2 /\ e <> ENotExist).
      * assert (e2 = ENotExist \/ e2 <> ENotExist) as [-> | Hne] by (destruct e2; (left; reflexivity) || (right; discriminate)).
        2: { destruct e2; try (cbn; split; [intros E; split; congruence|intros [-> _]; reflexivity]). contradiction. }
        rewrite (ensure_step h b pre c f Hp1 Hw Hd).
        assert (open_cell h b (f_node f) c) as Hcell.
        { right. destruct (walk_concat h b max_hops pre b f Hw Hd) as (k & _ & Hr). specialize (Hr [c]). rewrite Ew2 in Hr. exists k. apply walk_stops; auto; [apply (walk_inside h b true H _ _ _ _ (reach_self h b) Hw)|].
          destruct (walk_comps h b true k (f_node f) [c]) as [f3|e3]; cbn in Hr; [discriminate|congruence]. }
        destruct (enter_step h b pre c f mode H Hb Hc Hw Hd Hcell) as (H2 & Hb2 & Hn2 & Hf2 & f' & Hw2 & E). rewrite enter_eq in *. cbn [fst] in *.
        set (h2 := add_entry (fst (alloc h (new_dir c mode (f_node f)))) (f_node f) c (next h)) in *. clearbody h2. rewrite <- E.
        destruct (ensure_fresh b mode l (pre ++ [c]) _ f' H2 Hb2 Hp2 Hw2) as (d & Ed); [rewrite E; exact Hn2|rewrite E; exact Hf2|]. rewrite Ed. split; [discriminate|]. intros [-> X]. contradiction.
      * unfold ensure_fault. split.
        -- intros He. exists [], c, l. split; [apply first_bad_here; auto|]. cbn [app]. now rewrite Ew2.
        -- intros (p' & c' & r & Hb' & He'). apply first_bad_here in Hb'; auto. destruct Hb' as (-> & -> & ->). cbn [app] in He'. rewrite Ew2 in He'. exact He'.
Qed.

Section Adds.
Context (h : heap) (b : nat) (H : tree_inv h) (Hb : is_dir_at h b).
Lemma parents_err name mode e : snd (ensure_parents h b name mode) = Err e <-> parents_fault h b name e.
Proof.
  unfold ensure_parents, parents_fault. destruct (normalize name) as [l|e'] eqn:En.
  - pose proof (normalize_proper _ _ En) as Hp. destruct l as [|c l _] using rev_ind.
    + apply normalize_means in En. cbn [snd]. split; [intros E; right; left; split; [exact En|congruence]|].
      intros [[Hl _]|[[_ ->]|(l & z & p & c & r & Hm & _)]]; [contradiction (Hl [] En)|reflexivity|]. apply normalize_means in Hm, En. assert (l ++ [z] = []) as X by congruence. now destruct l.
    + transitivity (ensure_fault h b [] l e).
      * assert (match l ++ [c] with [] => (h, Err EInval) | _ :: _ => match ensure_loop h b (heads [] (removelast (l ++ [c]))) mode b with (h1, Ok d) => (h1, Ok (d, last (l ++ [c]) [])) | (h1, Err e) => (h1, Err e) end end
          = match ensure_loop h b (heads [] l) mode b with (h1, Ok d) => (h1, Ok (d, c)) | (h1, Err e) => (h1, Err e) end) as Eq.
        { rewrite removelast_last, last_last. now destruct (l ++ [c]) eqn:X; [destruct l|]. }
        assert (Forall proper ([] ++ l)) as Hpl by (apply Forall_app in Hp; apply Hp).
        rewrite <- (ensure_loop_err b mode e l [] h {| f_node := b; f_at := None |} H Hb Hpl (walk_nil _ _ _ _ _) Hb). cbn [f_node].
        destruct (l ++ [c]) as [|y r] eqn:X; [now destruct l|]. rewrite Eq. destruct (ensure_loop h b (heads [] l) mode b) as [h1 [d|e1]]; cbn [snd]; split; congruence || discriminate.
      * apply normalize_means in En. unfold ensure_fault. cbn [app]. split.
        -- intros (p & c' & r & Hf & He). right. right. exists l, c, p, c', r. split; [exact En|]. split; [now apply first_iff|].
           destruct (walk_comps h b true max_hops b (p ++ [c'])) as [f'|e'] eqn:Ew; [right; exists (f_node f'); split; [apply arrives_walk; eauto|exact He]|left; destruct He as [-> He]; split; [now apply stuck_walk|exact He]].
        -- intros [[Hl _]|[[Hm ->]|(l' & z & p & c' & r & Hm & Hf & He)]]; [contradiction (Hl _ En)| |].
           ++ apply normalize_means in Hm, En. assert (l ++ [c] = []) as X by congruence. now destruct l.
           ++ assert (l' ++ [z] = l ++ [c]) as X by (apply normalize_means in Hm, En; congruence). apply app_inj_tail in X as [-> ->]. exists p, c', r. split; [now apply first_iff|].
              destruct He as [[Hs He]|(x & Ha & ->)]; [apply stuck_walk in Hs; auto; rewrite Hs; auto|]. apply arrives_walk in Ha; auto. destruct Ha as (f' & -> & _). reflexivity.
  - cbn [snd]. split.
    + intros E. left. apply normalize_leaves. congruence.
    + intros [Hl|[[Hm _]|(l & z & p & c & r & Hm & _)]]; [apply normalize_leaves in Hl; congruence| |]; apply normalize_means in Hm; congruence.
Qed.
Lemma ensure_named name mode h1 d base : ensure_parents h b name mode = (h1, Ok (d, base)) -> exists comps, normalize name = Ok comps.
Proof. unfold ensure_parents. destruct (normalize name) as [l|e]; [eauto|discriminate]. Qed.
Lemma add_file_err name t mode sc cb e : (forall p i x, cb p i x <> None) -> (snd (add_file h b name t mode sc true cb) = Err e <-> parents_fault h b name e).
Proof.
  intros Hcb. rewrite <- (parents_err name sc e). unfold add_file. cbn [negb]. destruct (ensure_parents h b name sc) as [h1 [[d base]|e1]] eqn:Ee; cbn [snd].
  - destruct (ensure_named _ _ _ _ _ Ee) as (comps & ->). destruct (cb comps false (option_map (existing_dir h1) (lookup h1 d base))) as [[]|] eqn:Ec; cbn [snd]; split; try discriminate. contradiction (Hcb _ _ _ Ec).
  - split; congruence.
Qed.
Lemma add_file_stat name t mode sc cb : add_file h b name t mode sc false cb = (h, Err EOther).
Proof. reflexivity. Qed.
Lemma walk_other cb s : forall h d base path h' e, add_walk cb s h d base path = Some (h', Err e) -> e = EOther.
Proof.
  induction s as [mode cs lists IH|mode t opens|mode t reads|] using source_ind'; intros h0 d base path h' e; cbn [add_walk].
  - assert (forall h1 d1, descend (add_walk cb) d1 path cs h1 = Some (h', Err e) -> e = EOther) as Hds.
    { induction IH as [|[nm c] cs Hc Hcs IHc]; intros h1 d1; [discriminate|]. rewrite descend_cons. cbn [snd] in Hc.
      destruct (add_walk cb c h1 d1 nm (path ++ [nm])) as [[h2 [u|e2]]|] eqn:Ew; [apply IHc| |discriminate]. intros E. apply Hc in Ew. congruence. }
    destruct (cb path true _) as [[]|]; try congruence; (destruct (materialize_dir _ _ _ _ _ _) as [[h1 d1]|]; [|discriminate]; destruct lists; [apply Hds|congruence]).
  - destruct (cb path false _) as [[]|]; try congruence; destruct opens; cbn [negb]; try congruence; destruct (lookup h0 d base); cbn; congruence.
  - destruct (cb path false _) as [[]|]; try congruence; destruct reads; cbn [negb]; try congruence; destruct (lookup h0 d base); cbn; congruence.
  - congruence.
Qed.
Lemma descend_other cb d path : forall cs h h' e, descend (add_walk cb) d path cs h = Some (h', Err e) -> e = EOther.
Proof.
  induction cs as [|[nm c] cs IHc]; intros h0 h' e; cbn; [discriminate|]. destruct (add_walk cb c h0 d nm (path ++ [nm])) as [[h2 [u|e2]]|] eqn:Ew; [apply IHc| |discriminate].
  intros E. apply walk_other in Ew. congruence.
Qed.
Lemma add_fs_err name s sc cb e : e <> EOther -> ((exists h', add_fs h b name s sc cb = Some (h', Err e)) <-> ~ means name [] /\ parents_fault h b name e).
Proof.
  intros He. rewrite <- (parents_err name sc e). unfold add_fs. destruct (normalize name) as [[|c l]|e'] eqn:En.
  - pose proof En as Hm. apply normalize_means in Hm. split; [|tauto]. intros (h' & E). exfalso. apply He. destruct s as [m cs [|]| | |]; try congruence. now apply descend_other in E.
  - assert (~ means name []) as Hm by (intros Hm; apply normalize_means in Hm; congruence). destruct (ensure_parents h b name sc) as [h1 [[d base]|e1]]; cbn [snd].
    + split; [intros (h' & E); apply walk_other in E; contradiction|intros [_ E]; discriminate].
    + split; [intros (h' & E); split; [exact Hm|congruence]|intros [_ E]; exists h1; congruence].
  - assert (~ means name []) as Hm by (intros Hm; apply normalize_means in Hm; congruence). unfold ensure_parents. rewrite En. cbn [snd].
    split; [intros (h' & E); split; [exact Hm|congruence]|intros [_ E]; exists h; congruence].
Qed.
End Adds.

Lemma run_at busy mode os st i b : run busy (new_state mode) os = Some st -> nth_error (st_roots st) i = Some b -> tree_inv (st_heap st) /\ is_dir_at (st_heap st) b.
Proof.
  intros E Eb. assert (state_ok st) as [H Hr] by (eapply run_ok; [apply (new_ok mode)|exact E]). split; [exact H|]. eapply Forall_forall; [exact Hr|]. eapply nth_error_In, Eb.
Qed.
Lemma run_names busy mode os st i b fo name n : run busy (new_state mode) os = Some st -> nth_error (st_roots st) i = Some b ->
  ((exists f, resolve (st_heap st) b name fo = Ok f /\ f_node f = n) <-> leads (st_heap st) b fo name n) /\ (forall e, resolve (st_heap st) b name fo = Err e <-> lost (st_heap st) b fo name e).
Proof. intros E Eb. destruct (run_at _ _ _ _ _ _ E Eb) as [H Hb]. split; [now rewrite leads_resolve|intros e; now rewrite lost_resolve]. Qed.
Lemma run_places busy mode os st i b name d base : run busy (new_state mode) os = Some st -> nth_error (st_roots st) i = Some b ->
  (resolve_parent (st_heap st) b name = Ok (d, base) <-> place (st_heap st) b name d base) /\ (forall e, resolve_parent (st_heap st) b name = Err e <-> no_place (st_heap st) b name e).
Proof. intros E Eb. destruct (run_at _ _ _ _ _ _ E Eb) as [H Hb]. split; [now rewrite place_parent|intros e; now rewrite no_place_parent]. Qed.
