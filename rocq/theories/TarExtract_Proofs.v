From Verif Require Import Common CommonLemmas ContentRange_Model ContentRange_Proofs PathLex_Model PathLex_Proofs CopyFs_Model CopyFs_Proofs Views_Proofs IoBridge_Proofs TarFs_Model TarFs_Spec TarFs_Proofs Views_Spec TarExtract_Spec.
Open Scope nat_scope.

(* ---- names ---- *)

Lemma elems_none name : normal (rooted name) (elems name).
Proof. apply clean_normal. Qed.
Lemma normal_elem r l x : normal r l -> In x l -> x <> [] /\ x <> [dot].
Proof.
  intros (k & l' & -> & Hp & _) Hin. apply in_app_iff in Hin. destruct Hin as [Hin|Hin].
  - apply repeat_spec in Hin. subst x. split; discriminate.
  - rewrite Forall_forall in Hp. destruct (Hp x Hin) as (H1 & H2 & _). auto.
Qed.
Lemma key_place h : rooted (h_name h) = false -> split_sep (key_of h) = match place h with [] => [[dot]] | l => l end.
Proof.
  intros Hr. unfold key_of, place. change (clean (h_name h)) with (render (rooted (h_name h)) (elems (h_name h))). rewrite split_render by apply elems_none. rewrite Hr. destruct (elems (h_name h)); reflexivity.
Qed.
Lemma key_dot h : rooted (h_name h) = false -> (key_of h = [dot] <-> place h = []).
Proof.
  intros Hr. unfold key_of, place. change (clean (h_name h)) with (render (rooted (h_name h)) (elems (h_name h))). rewrite Hr. split; [|intros ->; reflexivity]. intros H.
  apply render_false_dot; [rewrite <- Hr; apply elems_none|]. rewrite H. reflexivity.
Qed.
Lemma place_split h c : rooted (h_name h) = false -> c <> [] -> key_of h <> [dot] -> (split_sep (key_of h) = c <-> place h = c).
Proof. intros Hr Hc Hk. rewrite (key_place h Hr). rewrite (key_dot h Hr) in Hk. destruct (place h); [contradiction|tauto]. Qed.

Lemma link_comps h : rooted (h_link h) = false -> text_comps (clean (h_link h)) = match link_place h with [] => [[dot]] | l => l end.
Proof.
  intros Hr. unfold text_comps, link_place. change (clean (h_link h)) with (render (rooted (h_link h)) (elems (h_link h))). rewrite split_render by apply elems_none. rewrite Hr.
  pose proof (elems_none (h_link h)) as Hn. destruct (elems (h_link h)) as [|x l] eqn:E; [reflexivity|].
  destruct (rev (x :: l)) as [|y r] eqn:Er; [reflexivity|]. assert (In y (x :: l)) as Hin by (apply in_rev; rewrite Er; left; reflexivity).
  destruct (normal_elem _ _ y Hn Hin) as [Hy _]. destruct y; [contradiction|reflexivity].
Qed.

Lemma above_spec c c' : is_above c c' = true <-> above c c'.
Proof.
  revert c'. induction c as [|x c IH]; intros [|y c']; cbn; split; intros H; try discriminate.
  - destruct H as (? & ? & E). discriminate.
  - exists y, c'. reflexivity.
  - reflexivity.
  - destruct H as (? & ? & E). discriminate.
  - destruct (list_eq_dec N.eq_dec x y) as [->|]; [|discriminate]. apply IH in H. destruct H as (z & r & ->). exists z, r. reflexivity.
  - destruct H as (z & r & E). cbn in E. assert (x = y) as -> by congruence. destruct (list_eq_dec N.eq_dec y y); [|contradiction]. apply IH. exists z, r. congruence.
Qed.
Lemma above_irrefl c : ~ above c c.
Proof. intros (x & r & E). apply (f_equal (@length _)) in E. rewrite app_length in E. cbn in E. lia. Qed.

(* ---- winners ---- *)

Definition entries_ok (o : topt) (arch : list hdr) : Prop := Forall (fun h => rooted (h_name h) = false /\ kept o h) arch.

Lemma winner_in o arch c h : winner o arch c h -> In h arch.
Proof. intros (a1 & a2 & -> & _). apply in_elt. Qed.
Lemma winner_place o arch c h : entries_ok o arch -> winner o arch c h -> place h = c /\ c <> [].
Proof.
  intros Hok Hw. pose proof (winner_in _ _ _ _ Hw) as Hin. destruct Hw as (a1 & a2 & _ & Hc & _ & _ & Hk). unfold entries_ok in Hok. rewrite Forall_forall in Hok. destruct (Hok h Hin) as [Hr _].
  rewrite (key_place h Hr) in Hc. rewrite (key_dot h Hr) in Hk. destruct (place h); [contradiction|]. subst c. split; [reflexivity|discriminate].
Qed.
Lemma place_neq h c : rooted (h_name h) = false -> c <> [] -> place h <> c -> c <> [[dot]] -> split_sep (key_of h) <> c.
Proof. intros Hr Hc Hp Hd. rewrite (key_place h Hr). destruct (place h); [congruence|exact Hp]. Qed.
Lemma place_nodot h : place h <> [[dot]].
Proof. intros E. assert (In [dot] (place h)) as Hin by (rewrite E; left; reflexivity). destruct (normal_elem _ _ _ (elems_none (h_name h)) Hin) as [_ H]. contradiction. Qed.

Lemma winner_of o arch a h b c : entries_ok o arch -> arch = a ++ h :: b -> place h = c -> c <> [] -> Forall (fun x => place x <> c) b -> winner o arch c h.
Proof.
  intros Hok E Hp Hc Hb. unfold entries_ok in Hok. rewrite Forall_forall in Hok. assert (In h arch) as Hin by (rewrite E; apply in_elt). destruct (Hok h Hin) as [Hr Hk].
  exists a, b. split; [exact E|]. assert (key_of h <> [dot]) as Hkd by (rewrite (key_dot h Hr); congruence). split; [apply (place_split h c Hr Hc Hkd); exact Hp|]. split; [|auto].
  rewrite Forall_forall in *. intros x Hx. apply place_neq; [|exact Hc|auto|]. { apply Hok. rewrite E. apply in_app_iff. right. right. exact Hx. } rewrite <- Hp. apply place_nodot.
Qed.
Lemma winner_parts o arch c h : entries_ok o arch -> winner o arch c h -> exists a b, arch = a ++ h :: b /\ place h = c /\ c <> [] /\ Forall (fun x => place x <> c) b.
Proof.
  intros Hok Hw. destruct (winner_place _ _ _ _ Hok Hw) as [Hp Hc]. destruct Hw as (a & b & E & _ & Hb & _). exists a, b. split; [exact E|]. split; [exact Hp|]. split; [exact Hc|].
  unfold entries_ok in Hok. rewrite Forall_forall in *. intros x Hx Hpx. apply (Hb x Hx). assert (In x arch) as Hin by (rewrite E; apply in_app_iff; right; right; exact Hx). destruct (Hok x Hin) as [Hr _].
  rewrite (key_place x Hr), Hpx. destruct c; [contradiction|reflexivity].
Qed.
Lemma some_winner o arch c h : entries_ok o arch -> In h arch -> place h = c -> c <> [] -> exists h', winner o arch c h'.
Proof.
  intros Hok Hin Hp Hc. assert (exists a h' b, arch = a ++ h' :: b /\ place h' = c /\ Forall (fun x => place x <> c) b) as (a & h' & b & E & Hp' & Hb).
  { clear Hok. induction arch as [|x arch IH]; [destruct Hin|]. destruct (Exists_dec (fun x => place x = c) arch (fun x => path_dec (place x) c)) as [He|He].
    - apply Exists_exists in He. destruct He as (y & Hy & Hpy). assert (exists a h' b, arch = a ++ h' :: b /\ place h' = c /\ Forall (fun x => place x <> c) b) as (a & h' & b & E & H1 & H2).
      { clear IH Hin. revert y Hy Hpy. induction arch as [|z arch IH]; intros y Hy Hpy; [destruct Hy|]. destruct (Exists_dec (fun x => place x = c) arch (fun x => path_dec (place x) c)) as [He2|He2].
        - apply Exists_exists in He2. destruct He2 as (y2 & Hy2 & Hpy2). destruct (IH y2 Hy2 Hpy2) as (a & h' & b & E & H1 & H2). exists (z :: a), h', b. rewrite E. auto.
        - exists [], z, arch. split; [reflexivity|]. apply Forall_Exists_neg in He2. split; [|exact He2]. destruct Hy as [->|Hy]; [exact Hpy|]. rewrite Forall_forall in He2. destruct (He2 y Hy Hpy). }
      exists (x :: a), h', b. rewrite E. auto.
    - apply Forall_Exists_neg in He. exists [], x, arch. split; [reflexivity|]. split; [|exact He]. destruct Hin as [->|Hin]; [exact Hp|]. rewrite Forall_forall in He. destruct (He h Hin Hp). }
  exists h'. eapply winner_of; eauto.
Qed.

(* ---- extraction ---- *)

Lemma tame_prefix o a h : tame o (a ++ [h]) -> tame o a.
Proof.
  intros [H1 H2 H3 H4 H5]. constructor.
  - intros x r Hin. apply H1. apply in_app_iff. auto.
  - apply Forall_app in H2. apply H2.
  - intros x y Hx Hy. apply H3; apply in_app_iff; auto.
  - intros b x b' E Ht. subst a. destruct (H4 b x (b' ++ [h])) as (Hi & Hb & Ha); [rewrite <- app_assoc; reflexivity|exact Ht|]. split; [exact Hi|]. split; [|exact Ha]. rewrite app_comm_cons in Hb. apply Forall_app in Hb. apply Hb.
  - intros x Hx. apply H5. apply in_app_iff. auto.
Qed.

Definition under (arch : list hdr) (c : list (list byte)) : Prop := exists h, In h arch /\ above c (place h).
Lemma under_dec arch c : {under arch c} + {~ under arch c}.
Proof.
  destruct (Exists_dec (fun h => is_above c (place h) = true) arch (fun h => bool_dec _ _)) as [H|H]; [left|right].
  - apply Exists_exists in H. destruct H as (h & Hin & Ha). exists h. split; [exact Hin|apply above_spec; exact Ha].
  - intros (h & Hin & Ha). apply H, Exists_exists. exists h. split; [exact Hin|apply above_spec; exact Ha].
Qed.
Definition has (arch : list hdr) (c : list (list byte)) : Prop := exists h, In h arch /\ place h = c.
Lemma has_dec arch c : {has arch c} + {~ has arch c}.
Proof.
  destruct (Exists_dec (fun h => place h = c) arch (fun h => path_dec _ _)) as [H|H]; [left|right].
  - apply Exists_exists in H. exact H.
  - intros H2. apply H, Exists_exists. exact H2.
Qed.

(* What a leaf shows. *)
Definition leaf_shows (o : topt) (arch : list hdr) (h : hdr) (x : xnode) : Prop :=
  match h_type h with
  | TDir => False
  | TSym => x = XSym h
  | TLink => exists d, x = XHard h d /\ winner o arch (link_place h) d /\ file_type d
  | TReg | TDev | TOther => x = XFile h
  end.

Lemma winner_snoc o a h c w : entries_ok o (a ++ [h]) -> winner o (a ++ [h]) c w -> (c = place h /\ w = h) \/ (c <> place h /\ winner o a c w).
Proof.
  intros Hok Hw. destruct (winner_parts _ _ _ _ Hok Hw) as (x & y & E & Hp & Hc & Hy). destruct y as [|z y] using rev_ind.
  - apply app_inj_tail in E. destruct E as [-> ->]. auto.
  - clear IHy. rewrite app_comm_cons, app_assoc in E. apply app_inj_tail in E. destruct E as [-> <-]. apply Forall_app in Hy. destruct Hy as [Hy Hz]. inversion Hz; subst. right. split; [congruence|].
    apply Forall_app in Hok. destruct Hok as [Hok _]. eapply winner_of; eauto.
Qed.
Lemma winner_snoc_other o a h c w : entries_ok o (a ++ [h]) -> c <> place h -> winner o a c w -> winner o (a ++ [h]) c w.
Proof.
  intros Hok Hc Hw. assert (entries_ok o a) as Hoka by (apply Forall_app in Hok; apply Hok). destruct (winner_parts _ _ _ _ Hoka Hw) as (x & y & E & Hp & Hcn & Hy). subst a.
  eapply (winner_of o _ x w (y ++ [h])); [exact Hok|rewrite <- app_assoc; reflexivity|exact Hp|exact Hcn|]. apply Forall_app. split; [exact Hy|]. constructor; [congruence|constructor].
Qed.

Record shows (o : topt) (arch : list hdr) (st : disk) : Prop := {
  sh_root : st [] = Some (XDir None);
  sh_dir : forall c h, winner o arch c h -> h_type h = TDir -> st c = Some (XDir (Some h));
  sh_leaf : forall c h, winner o arch c h -> h_type h <> TDir -> exists x, st c = Some x /\ leaf_shows o arch h x;
  sh_made : forall c, c <> [] -> ~ has arch c -> under arch c -> st c = Some (XDir None);
  sh_none : forall c, c <> [] -> ~ has arch c -> ~ under arch c -> st c = None }.

Lemma extract_shows o arch : tame o arch -> shows o arch (extract arch).
Proof.
  induction arch as [|h a IH] using rev_ind; intros Ht.
  - constructor; cbn; try reflexivity.
    + intros c h Hw. destruct (winner_in _ _ _ _ Hw).
    + intros c h Hw. destruct (winner_in _ _ _ _ Hw).
    + intros c _ _ (h & [] & _).
    + intros [|x c]; [contradiction|reflexivity].
  - specialize (IH (tame_prefix _ _ _ Ht)). pose proof Ht as [T1 T2 T3 T4 T5]. destruct IH as [S0 S1 S2 S3 S4].
    assert (entries_ok o a) as Hoka by (apply Forall_app in T2; apply T2).
    unfold extract. rewrite fold_left_app. change (fold_left extract1 a empty_disk) with (extract a). cbn [fold_left]. set (st := extract a) in *.
    assert (forall c, has (a ++ [h]) c <-> has a c \/ c = place h) as Hhas.
    { intros c. unfold has. split; [intros (x & Hx & E); apply in_app_iff in Hx; destruct Hx as [Hx|[<-|[]]]; eauto|]. intros [(x & Hx & E)|E]; [exists x|exists h]; (split; [apply in_app_iff; cbn; auto|auto]). }
    assert (forall c, under (a ++ [h]) c <-> under a c \/ above c (place h)) as Hund.
    { intros c. unfold under. split; [intros (x & Hx & E); apply in_app_iff in Hx; destruct Hx as [Hx|[<-|[]]]; eauto|]. intros [(x & Hx & E)|E]; [exists x|exists h]; (split; [apply in_app_iff; cbn; auto|auto]). }
    assert (forall c w, c <> place h -> winner o (a ++ [h]) c w -> winner o a c w) as Hold.
    { intros c w Hc Hw. destruct (winner_snoc _ _ _ _ _ T2 Hw) as [[E _]|[_ H]]; [contradiction|exact H]. }
    assert (forall c w x, c <> place h -> winner o a c w -> leaf_shows o a w x -> leaf_shows o (a ++ [h]) w x) as Hls.
    { intros c w x Hc Hw Hx. unfold leaf_shows in *. destruct (h_type w) eqn:Ew; auto. destruct Hx as (d & -> & Hd & Hf). exists d. split; [reflexivity|]. split; [|exact Hf].
      apply winner_snoc_other; [exact T2| |exact Hd]. destruct (winner_parts _ _ _ _ Hoka Hw) as (p & q & E & _). destruct (T4 p w (q ++ [h])) as (_ & Hb & _); [rewrite E, <- app_assoc; reflexivity|exact Ew|].
      rewrite app_comm_cons in Hb. apply Forall_app in Hb. destruct Hb as [_ Hb]. inversion Hb; subst. congruence. }
    assert (In h (a ++ [h])) as Hinh by (apply in_app_iff; cbn; auto).
    unfold extract1. destruct (place h) as [|p0 pl] eqn:Epl.
    + (* an entry for the root *)
      constructor.
      * exact S0.
      * intros c w Hw Hd. apply S1; [|exact Hd]. apply Hold; [apply (winner_place _ _ _ _ T2 Hw)|exact Hw].
      * intros c w Hw Hd. assert (c <> []) as Hc by apply (winner_place _ _ _ _ T2 Hw). pose proof (Hold c w Hc Hw) as Hw'. destruct (S2 c w Hw' Hd) as (x & H1 & H2). exists x. split; [exact H1|]. eapply Hls; eauto.
      * intros c Hc Hn Hu. rewrite Hhas in Hn. rewrite Hund in Hu. apply S3; [exact Hc|tauto|]. destruct Hu as [Hu|(y & r & E)]; [exact Hu|]. destruct c; discriminate.
      * intros c Hc Hn Hu. rewrite Hhas in Hn. rewrite Hund in Hu. apply S4; tauto.
    + rewrite <- Epl in *. constructor.
      * destruct (path_dec [] (place h)) as [E|_]; [rewrite Epl in E; discriminate|]. rewrite S0. destruct (is_above [] (place h)); reflexivity.
      * intros c w Hw Hd. destruct (path_dec c (place h)) as [->|Hc].
        -- destruct (winner_snoc _ _ _ _ _ T2 Hw) as [[_ ->]|[E _]]; [|contradiction]. unfold becomes. rewrite Hd. reflexivity.
        -- rewrite (S1 c w (Hold c w Hc Hw) Hd). destruct (is_above c (place h)); reflexivity.
      * intros c w Hw Hd. destruct (path_dec c (place h)) as [->|Hc].
        -- destruct (winner_snoc _ _ _ _ _ T2 Hw) as [[_ ->]|[E _]]; [|contradiction]. unfold becomes, leaf_shows. destruct (h_type h) eqn:Eh; try (eexists; split; reflexivity); [contradiction|].
           destruct (T4 a h [] eq_refl Eh) as (Hi & Hself & a1 & d & a2 & Ea & Hf & Hp & Ha2).
           assert (link_place h <> []) as Hlp. { rewrite <- Hp. apply (T3 d d); [rewrite Ea, <- app_assoc; apply in_elt|rewrite Ea, <- app_assoc; apply in_elt|]. unfold file_type in Hf. destruct (h_type d); try contradiction; discriminate. }
           assert (winner o a (link_place h) d) as Hwd by (eapply winner_of; eauto).
           destruct (S2 _ _ Hwd) as (x & Hx & Hxs). { unfold file_type in Hf. destruct (h_type d); try contradiction; discriminate. }
           assert (x = XFile d) as -> by (unfold leaf_shows in Hxs; unfold file_type in Hf; destruct (h_type d); try contradiction; exact Hxs).
           rewrite Hx. exists (XHard h d). split; [reflexivity|]. exists d. split; [reflexivity|]. split; [|exact Hf]. apply winner_snoc_other; [exact T2| |exact Hwd].
           inversion Hself; subst. congruence.
        -- pose proof (Hold c w Hc Hw) as Hw'. destruct (S2 c w Hw' Hd) as (x & Hx & Hxs). assert (is_above c (place h) = false) as ->.
           { destruct (is_above c (place h)) eqn:Ea; [|reflexivity]. apply above_spec in Ea. destruct (winner_place _ _ _ _ Hoka Hw') as [Hpw _]. rewrite <- Hpw in Ea. exfalso. apply (proj2 (T3 w h ltac:(apply in_app_iff; left; eapply winner_in; eauto) Hinh Hd)). exact Ea. }
           exists x. split; [exact Hx|]. eapply Hls; eauto.
      * intros c Hc Hn Hu. rewrite Hhas in Hn. rewrite Hund in Hu. destruct (path_dec c (place h)) as [E|_]; [tauto|]. destruct (is_above c (place h)) eqn:Ea.
        -- destruct (under_dec a c) as [H|H]; [rewrite (S3 c Hc ltac:(tauto) H); reflexivity|rewrite (S4 c Hc ltac:(tauto) H); reflexivity].
        -- apply S3; [exact Hc|tauto|]. destruct Hu as [Hu|Hu]; [exact Hu|]. apply above_spec in Hu. congruence.
      * intros c Hc Hn Hu. rewrite Hhas in Hn. rewrite Hund in Hu. destruct (path_dec c (place h)) as [E|_]; [tauto|]. destruct (is_above c (place h)) eqn:Ea; [apply above_spec in Ea; tauto|]. apply S4; tauto.
Qed.

(* ---- the tree ---- *)

Lemma tame_ok o arch : tame o arch -> entries_ok o arch.
Proof. intros Ht. apply Ht. Qed.
Lemma under_winner o arch c : entries_ok o arch -> (under arch c <-> exists c' h', winner o arch c' h' /\ above c c').
Proof.
  intros Hok. split.
  - intros (h & Hin & Ha). destruct (some_winner o arch (place h) h Hok Hin eq_refl) as (h' & Hw); [|exists (place h), h'; auto]. intros E. rewrite E in Ha. destruct Ha as (x & r & E2). destruct c; discriminate.
  - intros (c' & h' & Hw & Ha). exists h'. split; [eapply winner_in; eauto|]. destruct (winner_place _ _ _ _ Hok Hw) as [-> _]. exact Ha.
Qed.
Lemma has_winner o arch c : entries_ok o arch -> c <> [] -> (has arch c <-> exists h, winner o arch c h).
Proof.
  intros Hok Hc. split.
  - intros (h & Hin & Hp). eapply some_winner; eauto.
  - intros (h & Hw). exists h. split; [eapply winner_in; eauto|apply (winner_place _ _ _ _ Hok Hw)].
Qed.
Lemma leaf_top o arch c h : tame o arch -> winner o arch c h -> h_type h <> TDir -> ~ under arch c.
Proof.
  intros Ht Hw Hd (h' & Hin & Ha). destruct (winner_place _ _ _ _ (tame_ok _ _ Ht) Hw) as [Hp _]. rewrite <- Hp in Ha. apply (proj2 (tm_tree _ _ Ht h h' (winner_in _ _ _ _ Hw) Hin Hd)). exact Ha.
Qed.

Lemma leaf_found o arch c h : tame o arch -> winner o arch c h -> h_type h <> TDir -> tfind (tar_new o arch) c = Some (entry_of h).
Proof.
  intros Ht Hw Hd. destruct (winner_place _ _ _ _ (tame_ok _ _ Ht) Hw) as [_ Hc]. destruct (tar_lookup o arch c (tm_dotted _ _ Ht) Hc) as (_ & _ & L & _).
  specialize (L h Hw Hd). cbv zeta in L. assert (option_map view_of (tfind (tar_new o arch) c) = Some (VLeaf (entry_of h))) as E.
  { apply L. intros c' h' Hw' Ha. apply (leaf_top o arch c h Ht Hw Hd). apply (under_winner o arch c (tame_ok _ _ Ht)). eauto. }
  destruct (tfind (tar_new o arch) c) as [[]|]; cbn in E; try discriminate; congruence.
Qed.

Lemma tree_matches o arch c : tame o arch -> c <> [] -> matches (tar_new o arch) (extract arch c) (tfind (tar_new o arch) c).
Proof.
  intros Ht Hc. pose proof (tame_ok _ _ Ht) as Hok. destruct (extract_shows o arch Ht) as [S0 S1 S2 S3 S4]. destruct (tar_lookup o arch c (tm_dotted _ _ Ht) Hc) as (L1 & L2 & L3 & L4).
  destruct (has_dec arch c) as [Hh|Hh].
  - apply (has_winner o arch c Hok Hc) in Hh. destruct Hh as (h & Hw). destruct (h_type h) eqn:Eh.
    2: { rewrite (S1 c h Hw Eh). specialize (L1 h Hw Eh). cbn. destruct (tfind (tar_new o arch) c) as [[]|]; cbn in L1; try discriminate. congruence. }
    all: assert (h_type h <> TDir) as Hd by congruence; rewrite (leaf_found o arch c h Ht Hw Hd); destruct (S2 c h Hw Hd) as (x & -> & Hx); unfold leaf_shows in Hx; unfold entry_of; rewrite Eh in *; try (subst x; reflexivity).
    destruct Hx as (d & -> & Hwd & Hf). cbn. split; [reflexivity|]. rewrite (leaf_found o arch _ d Ht Hwd); unfold file_type in Hf; unfold entry_of; destruct (h_type d); try contradiction; congruence.
  - assert (forall h, ~ winner o arch c h) as Hnw by (intros h Hw; apply Hh, (has_winner o arch c Hok Hc); eauto). destruct (under_dec arch c) as [Hu|Hu].
    + rewrite (S3 c Hc Hh Hu). apply (under_winner o arch c Hok) in Hu. specialize (L2 ltac:(intros h Hw; destruct (Hnw h Hw)) Hu). cbn. destruct (tfind (tar_new o arch) c) as [[]|]; cbn in L2; try discriminate. congruence.
    + rewrite (S4 c Hc Hh Hu). assert (option_map view_of (tfind (tar_new o arch) c) = None) as E. { apply L4; [exact Hnw|]. intros c' h' Hw' Ha. apply Hu, (under_winner o arch c Hok). eauto. }
      destruct (tfind (tar_new o arch) c); [discriminate|exact I].
Qed.

Lemma found_sym o arch p h : tame o arch -> tfind (tar_new o arch) p = Some (NSym h) -> In h arch /\ h_type h = TSym.
Proof.
  intros Ht Hf. assert (p <> []) as Hp. { intros ->. destruct (tar_root o arch) as (hh & f & od & E & _). rewrite E in Hf. discriminate. }
  pose proof (tree_matches o arch p Ht Hp) as M. rewrite Hf in M. pose proof (tame_ok _ _ Ht) as Hok. destruct (extract_shows o arch Ht) as [S0 S1 S2 S3 S4].
  destruct (has_dec arch p) as [Hh|Hh].
  - apply (has_winner o arch p Hok Hp) in Hh. destruct Hh as (w & Hw). assert (h_type w = TDir \/ h_type w <> TDir) as [E|E] by (destruct (h_type w); (left; reflexivity) || (right; discriminate)).
    + rewrite (S1 p w Hw E) in M. destruct M.
    + destruct (S2 p w Hw E) as (x & Ex & Hx). rewrite Ex in M. unfold leaf_shows in Hx. destruct (h_type w) eqn:Ew; try (subst x; destruct M; fail); try contradiction; [subst x; cbn in M; subst w; split; [eapply winner_in; eauto|exact Ew]|].
      destruct Hx as (d & -> & _). destruct M.
  - destruct (under_dec arch p) as [Hu|Hu]; [rewrite (S3 p Hp Hh Hu) in M|rewrite (S4 p Hp Hh Hu) in M]; destruct M.
Qed.
Lemma found_hard o arch p h : tame o arch -> tfind (tar_new o arch) p = Some (NHard h) -> In h arch /\ h_type h = TLink /\ exists d, extract arch p = Some (XHard h d) /\ tfind (tar_new o arch) (link_place h) = Some (NFile d).
Proof.
  intros Ht Hf. assert (p <> []) as Hp. { intros ->. destruct (tar_root o arch) as (hh & f & od & E & _). rewrite E in Hf. discriminate. }
  pose proof (tree_matches o arch p Ht Hp) as M. rewrite Hf in M. pose proof (tame_ok _ _ Ht) as Hok. destruct (extract_shows o arch Ht) as [S0 S1 S2 S3 S4].
  destruct (has_dec arch p) as [Hh|Hh].
  - apply (has_winner o arch p Hok Hp) in Hh. destruct Hh as (w & Hw). assert (h_type w = TDir \/ h_type w <> TDir) as [E|E] by (destruct (h_type w); (left; reflexivity) || (right; discriminate)).
    + rewrite (S1 p w Hw E) in M. destruct M.
    + destruct (S2 p w Hw E) as (x & Ex & Hx). rewrite Ex in M. unfold leaf_shows in Hx. destruct (h_type w) eqn:Ew; try (subst x; destruct M; fail); try contradiction.
      destruct Hx as (d & -> & _). cbn in M. destruct M as [-> M]. split; [eapply winner_in; eauto|]. split; [exact Ew|]. exists d. auto.
  - destruct (under_dec arch p) as [Hu|Hu]; [rewrite (S3 p Hp Hh Hu) in M|rewrite (S4 p Hp Hh Hu) in M]; destruct M.
Qed.

Lemma is_dot_neq x : x <> [dot] <-> is_dot x = false.
Proof. unfold is_dot. split; intros H; [apply beq_false; exact H|]. intros ->. discriminate H. Qed.
Lemma is_dotdot_neq x : x <> [dot; dot] <-> is_dotdot x = false.
Proof. unfold is_dotdot. split; intros H; [apply beq_false; exact H|]. intros ->. discriminate H. Qed.
Lemma links_nodot h : Forall (fun c => is_dot c = false) (link_place h).
Proof. rewrite Forall_forall. intros x Hx. apply is_dot_neq. apply (normal_elem _ _ _ (elems_none (h_link h)) Hx). Qed.
Lemma rooted_clean n : rooted (clean n) = rooted n.
Proof. change (clean n) with (render (rooted n) (elems n)). apply rooted_render, elems_none. Qed.

Lemma tame_link o arch a h b : tame o arch -> arch = a ++ h :: b -> h_type h = TLink -> link_place h <> [] /\ rooted (h_link h) = false /\ Forall proper (link_place h).
Proof.
  intros Ht E Eh. destruct (tm_links _ _ Ht a h b E Eh) as ((Hr & Hp) & _ & a1 & d & a2 & Ea & Hf & Hpd & _). split; [|split; [exact Hr|]].
  - rewrite <- Hpd. assert (In d arch) as Hin by (rewrite E, Ea, <- app_assoc; apply in_elt). apply (tm_tree _ _ Ht d d Hin Hin). unfold file_type in Hf. destruct (h_type d); try contradiction; discriminate.
  - unfold link_place, elems. rewrite Hr. exact Hp.
Qed.
Lemma link_text o arch h : tame o arch -> In h arch -> h_type h = TLink -> text_comps (clean (h_link h)) = link_place h /\ link_place h <> [] /\ Forall proper (link_place h).
Proof.
  intros Ht Hin Eh. apply in_split in Hin. destruct Hin as (a & b & E). destruct (tame_link _ _ _ _ _ Ht E Eh) as (Hn & Hr & Hp). rewrite (link_comps h Hr). destruct (link_place h); [contradiction|auto].
Qed.
Lemma sym_text o arch h : tame o arch -> In h arch -> h_type h = TSym -> rooted (h_link h) = false -> text_comps (clean (h_link h)) = link_place h.
Proof.
  intros Ht Hin Eh Hr. destruct (tm_syms _ _ Ht h Hin Eh Hr) as (r & x & E & _). rewrite (link_comps h Hr), E. destruct r; reflexivity.
Qed.

Lemma tar_hard_plain o arch : tame o arch -> hard_plain (tar_new o arch).
Proof.
  intros Ht p h Hf. destruct (found_hard o arch p h Ht Hf) as (Hin & Eh & d & _ & Hd). destruct (link_text o arch h Ht Hin Eh) as (Et & Hn & Hp).
  split; [|rewrite Et; split; [|eauto]].
  - destruct (is_dot (clean (h_link h))) eqn:Ed; [|reflexivity]. exfalso. apply Hn. apply render_false_dot.
    + apply in_split in Hin. destruct Hin as (a & b & E). destruct (tame_link _ _ _ _ _ Ht E Eh) as (_ & Hr & _). rewrite <- Hr. apply elems_none.
    + apply in_split in Hin. destruct Hin as (a & b & E). destruct (tame_link _ _ _ _ _ Ht E Eh) as (_ & Hr & _). rewrite <- Ed. change (clean (h_link h)) with (render (rooted (h_link h)) (elems (h_link h))). rewrite Hr. reflexivity.
  - rewrite Forall_forall in *. intros x Hx. destruct (Hp x Hx) as (_ & H2 & H3 & _). split; [apply is_dot_neq; exact H2|apply is_dotdot_neq; exact H3].
Qed.
Lemma tar_sym_plain o arch : tame o arch -> sym_plain (tar_new o arch).
Proof.
  intros Ht p h Hf Hr. rewrite rooted_clean in Hr. destruct (found_sym o arch p h Ht Hf) as (Hin & Eh). rewrite (sym_text o arch h Ht Hin Eh Hr). destruct (tm_syms _ _ Ht h Hin Eh Hr) as (r & x & E & Hx).
  exists r, x. split; [exact E|]. pose proof (links_nodot h) as Hl. rewrite E in Hl. apply Forall_app in Hl. destruct Hl as [Hl1 Hl2]. inversion Hl2; subst. split; [assumption|]. split; [apply is_dotdot_neq; exact Hx|exact Hl1].
Qed.
Lemma tar_sym_nodot o arch : tame o arch -> sym_nodot (tar_new o arch).
Proof.
  intros Ht p h Hf Hr. rewrite rooted_clean in Hr. destruct (found_sym o arch p h Ht Hf) as (Hin & Eh). rewrite (sym_text o arch h Ht Hin Eh Hr). apply links_nodot.
Qed.

(* ---- walks ---- *)

Lemma snoc_ne (c : list (list byte)) x : c ++ [x] <> [].
Proof. destruct c; discriminate. Qed.
Lemma xwalk_walk o arch rt sub cur l n q : tame o arch -> Forall (fun c => c <> [dot]) l -> xwalk (extract arch) rt sub cur l n q -> walk (tar_new o arch) rt sub cur l n q.
Proof.
  intros Ht Hl H. induction H; try (inversion Hl; subst).
  - constructor.
  - apply WUp; auto.
  - pose proof (tree_matches o arch (cur ++ [c]) Ht (snoc_ne _ _)) as M. rewrite H0 in M. cbn in M. destruct (tfind (tar_new o arch) (cur ++ [c])) as [[]|] eqn:E; try contradiction.
    eapply WDir; [apply is_dot_neq; assumption|apply is_dotdot_neq; assumption|exact E|auto].
  - pose proof (tree_matches o arch (cur ++ [c]) Ht (snoc_ne _ _)) as M. rewrite H0 in M. cbn in M. destruct (tfind (tar_new o arch) (cur ++ [c])) as [[]|] eqn:E; try contradiction.
    eapply WFile; [apply is_dot_neq; assumption|apply is_dotdot_neq; assumption|exact E].
  - pose proof (tree_matches o arch (cur ++ [c]) Ht (snoc_ne _ _)) as M. rewrite H0 in M. cbn in M. destruct (tfind (tar_new o arch) (cur ++ [c])) as [[]|] eqn:E; try contradiction.
    eapply WHard; [apply is_dot_neq; assumption|apply is_dotdot_neq; assumption|exact E].
  - pose proof (tree_matches o arch (cur ++ [c]) Ht (snoc_ne _ _)) as M. rewrite H0 in M. cbn in M. destruct (tfind (tar_new o arch) (cur ++ [c])) as [[]|] eqn:E; try contradiction. subst h0.
    destruct (found_sym o arch _ h Ht E) as (Hin & Eh).
    eapply WSym; [apply is_dot_neq; assumption|apply is_dotdot_neq; assumption|exact E|rewrite rooted_clean; assumption|]. rewrite (sym_text o arch h Ht Hin Eh H1). apply IHxwalk. apply Forall_app. split; [|assumption].
    eapply Forall_impl; [|apply links_nodot]. intros x Hx. apply is_dot_neq. exact Hx.
Qed.
Lemma walk_xwalk o arch rt sub cur l n q : tame o arch -> Forall (fun c => c <> [dot]) l -> walk (tar_new o arch) rt sub cur l n q -> xwalk (extract arch) rt sub cur l n q.
Proof.
  intros Ht Hl H. induction H; try (inversion Hl; subst).
  - constructor.
  - contradiction.
  - apply XWUp; auto.
  - pose proof (tree_matches o arch (cur ++ [c]) Ht (snoc_ne _ _)) as M. rewrite H1 in M. destruct (extract arch (cur ++ [c])) as [[]|] eqn:E; try contradiction.
    eapply XWDir; [apply is_dotdot_neq; assumption|exact E|auto].
  - pose proof (tree_matches o arch (cur ++ [c]) Ht (snoc_ne _ _)) as M. rewrite H1 in M. destruct (extract arch (cur ++ [c])) as [[]|] eqn:E; try contradiction.
    eapply XWFile; [apply is_dotdot_neq; assumption|exact E].
  - pose proof (tree_matches o arch (cur ++ [c]) Ht (snoc_ne _ _)) as M. rewrite H1 in M. destruct (extract arch (cur ++ [c])) as [[]|] eqn:E; try contradiction.
    eapply XWHard; [apply is_dotdot_neq; assumption|exact E].
  - pose proof (tree_matches o arch (cur ++ [c]) Ht (snoc_ne _ _)) as M. rewrite H1 in M. destruct (extract arch (cur ++ [c])) as [[]|] eqn:E; try contradiction. cbn in M. subst h0.
    destruct (found_sym o arch _ h Ht H1) as (Hin & Eh). rewrite rooted_clean in H2.
    eapply XWSym; [apply is_dotdot_neq; assumption|exact E|assumption|]. rewrite (sym_text o arch h Ht Hin Eh H2) in *. apply IHwalk. apply Forall_app. split; [|assumption].
    eapply Forall_impl; [|apply links_nodot]. intros x Hx. apply is_dot_neq. exact Hx.
Qed.

(* The end of a walk is there, and is no symlink. *)
Lemma parent_dir t cur h f o : tfind t cur = Some (NDir h f o) -> cur <> [] -> exists h' f' o', tfind t (removelast cur) = Some (NDir h' f' o').
Proof.
  intros H Hn. destruct (exists_last Hn) as (r & x & ->). rewrite removelast_last. exact (tfind_prefix_dir t r x [] _ H).
Qed.
Lemma walk_end t rt sub cur l n q : walk t rt sub cur l n q -> (exists h f o, tfind t cur = Some (NDir h f o)) -> exists nd, tfind t q = Some nd /\ match nd with NSym _ => False | _ => True end.
Proof.
  intros H. induction H; intros (h0 & f0 & o0 & Hc); try (apply IHwalk; eauto; fail).
  - exists (NDir h0 f0 o0). auto.
  - apply IHwalk. eapply parent_dir; eauto.
  - exists (NFile h). auto.
  - exists (NHard h). auto.
Qed.
Lemma reads_of o arch q nd : tame o arch -> tfind (tar_new o arch) q = Some nd -> match nd with NSym _ => False | _ => True end -> reads (extract arch) q (read_of (tar_new o arch) nd).
Proof.
  intros Ht Hf Hn. destruct q as [|x q].
  - cbn in Hf. destruct (tar_root o arch) as (h & f & od & E & _). rewrite E in *. apply some_inj in Hf. subst nd. cbn. eauto.
  - pose proof (tree_matches o arch (x :: q) Ht ltac:(discriminate)) as M. rewrite Hf in M. unfold reads. destruct (extract arch (x :: q)) as [[]|]; destruct nd; try contradiction; cbn in M; cbn [read_of].
    + subst. eauto.
    + subst. reflexivity.
    + destruct M as [-> M]. destruct (found_hard o arch _ _ Ht Hf) as (Hin & Eh & _). destruct (link_text o arch _ Ht Hin Eh) as (-> & _). rewrite M. reflexivity.
Qed.

Lemma proper_valid name : Forall proper (split_sep name) -> valid_path name = true /\ name <> [dot] /\ Forall (fun c => c <> [dot]) (split_sep name).
Proof.
  intros Hp. split; [|split].
  - unfold valid_path. apply orb_true_iff. right. apply forallb_forall. intros x Hx. rewrite Forall_forall in Hp. destruct (Hp x Hx) as (H1 & H2 & H3 & _).
    apply is_dot_neq in H2. apply is_dotdot_neq in H3. destruct x; [contradiction|]. rewrite H2, H3. reflexivity.
  - intros ->. inversion Hp as [|? ? (_ & H & _)]. apply H. reflexivity.
  - eapply Forall_impl; [|exact Hp]. intros x (_ & H & _). exact H.
Qed.

Lemma sub_dir o arch sub : tame o arch -> sub = [] \/ (exists h, extract arch sub = Some (XDir h)) -> exists h f od, tfind (tar_new o arch) sub = Some (NDir h f od).
Proof.
  intros Ht [->|(h & E)]; [destruct (tar_root o arch) as (h & f & od & E & _); exists (Some h), f, od; cbn; rewrite E; reflexivity|].
  destruct sub as [|x sub]; [destruct (tar_root o arch) as (h' & f & od & E' & _); exists (Some h'), f, od; cbn; rewrite E'; reflexivity|].
  pose proof (tree_matches o arch (x :: sub) Ht ltac:(discriminate)) as M. rewrite E in M. cbn [matches] in M. destruct (tfind (tar_new o arch) (x :: sub)) as [[]|]; try contradiction. eauto.
Qed.

Lemma open_extracted o arch rt sub name : tame o arch -> sub = [] \/ (exists h, extract arch sub = Some (XDir h)) -> Forall proper (split_sep name) ->
  (forall n q, xwalk (extract arch) rt sub sub (split_sep name) n q -> n <= 40 ->
     exists r f0, reads (extract arch) q r /\ forall f, f0 <= f -> tar_open f (tar_new o arch) rt sub name = r) /\
  (forall f, (exists d i, tar_open f (tar_new o arch) rt sub name = OpFile d i) \/ (exists d i, tar_open f (tar_new o arch) rt sub name = OpDir d i) ->
     exists n q, xwalk (extract arch) rt sub sub (split_sep name) n q /\ n <= 40 /\ reads (extract arch) q (tar_open f (tar_new o arch) rt sub name)).
Proof.
  intros Ht Hsub Hp. destruct (proper_valid name Hp) as (Hv & Hd & Hl). destruct (open_agrees (tar_new o arch) rt sub name (tar_hard_plain o arch Ht) (tar_sym_plain o arch Ht) Hv Hd) as [A1 A2].
  pose proof (sub_dir o arch sub Ht Hsub) as Hsd. split.
  - intros n q Hw Hn. apply (xwalk_walk o arch) in Hw; [|exact Ht|exact Hl]. destruct (walk_end _ _ _ _ _ _ _ Hw Hsd) as (nd & Hf & Hns). destruct (A1 n q nd Hw Hn Hf) as (f0 & Hf0).
    exists (read_of (tar_new o arch) nd), f0. split; [apply reads_of; assumption|exact Hf0].
  - intros f Ho. destruct (A2 f Ho) as (n & q & nd & Hw & Hn & Hf & Hr). exists n, q. split; [apply (walk_xwalk o arch); assumption|]. split; [exact Hn|]. rewrite Hr.
    destruct (walk_end _ _ _ _ _ _ _ Hw Hsd) as (nd' & Hf' & Hns). assert (nd' = nd) as -> by congruence. apply reads_of; assumption.
Qed.

Lemma lstat_extracted o arch rt sub name dirs x n d h : tame o arch -> Forall proper (split_sep name) -> split_sep name = dirs ++ [x] ->
  xwalk (extract arch) rt sub sub dirs n d -> n <= 40 -> xhead (extract arch (d ++ [x])) = Some h ->
  exists f0, forall f, f0 <= f -> tar_lstat f (tar_new o arch) rt sub name = LsInfo h.
Proof.
  intros Ht Hp Es Hw Hn Hh. destruct (proper_valid name Hp) as (Hv & Hd & Hl). rewrite Es in Hl. apply Forall_app in Hl. destruct Hl as [Hl _].
  apply (xwalk_walk o arch) in Hw; [|exact Ht|exact Hl]. pose proof (tree_matches o arch (d ++ [x]) Ht (snoc_ne _ _)) as M.
  destruct (tfind (tar_new o arch) (d ++ [x])) as [nd|] eqn:Ef; [|destruct (extract arch (d ++ [x])) as [[]|]; cbn in Hh, M; congruence || contradiction].
  eapply (lstat_agrees (tar_new o arch) rt sub name dirs x n d nd h); eauto using tar_hard_plain, tar_sym_nodot.
  destruct (extract arch (d ++ [x])) as [[]|], nd; cbn in Hh, M |- *; try contradiction; try congruence. destruct M; congruence.
Qed.

(* ---- listings ---- *)

Lemma named_complete o arch : tame o arch -> all_named arch -> complete o arch.
Proof.
  intros Ht Ha c h c0 Hw Hab Hc0. pose proof (tame_ok _ _ Ht) as Hok. destruct (extract_shows o arch Ht) as [S0 S1 S2 S3 S4].
  assert (under arch c0) as Hu by (apply (under_winner o arch c0 Hok); eauto). destruct (has_dec arch c0) as [Hh|Hh]; [|destruct (Ha c0 Hc0); auto].
  apply (has_winner o arch c0 Hok Hc0) in Hh. destruct Hh as (w & Hw0). exists w. split; [exact Hw0|]. destruct (h_type w) eqn:Ew; try reflexivity; exfalso; apply (leaf_top o arch c0 w Ht Hw0); congruence || exact Hu.
Qed.
Lemma winner_head o arch c h : tame o arch -> all_named arch -> c <> [] -> (winner o arch c h <-> xhead (extract arch c) = Some h).
Proof.
  intros Ht Ha Hc. pose proof (tame_ok _ _ Ht) as Hok. destruct (extract_shows o arch Ht) as [S0 S1 S2 S3 S4].
  assert (forall w, winner o arch c w -> xhead (extract arch c) = Some w) as H1.
  { intros w Hw. assert (h_type w = TDir \/ h_type w <> TDir) as [E|E] by (destruct (h_type w); (left; reflexivity) || (right; discriminate)).
    - rewrite (S1 c w Hw E). reflexivity.
    - destruct (S2 c w Hw E) as (x & -> & Hx). unfold leaf_shows in Hx. destruct (h_type w); try contradiction; try (subst x; reflexivity). destruct Hx as (d & -> & _). reflexivity. }
  split; [apply H1|]. intros E. destruct (has_dec arch c) as [Hh|Hh].
  - apply (has_winner o arch c Hok Hc) in Hh. destruct Hh as (w & Hw). pose proof (H1 w Hw). assert (h = w) as -> by congruence. exact Hw.
  - destruct (under_dec arch c) as [Hu|Hu]; [rewrite (S3 c Hc Hh Hu) in E|rewrite (S4 c Hc Hh Hu) in E]; discriminate.
Qed.
Lemma listing_extracted o arch c : tame o arch -> all_named arch -> c = [] \/ (exists h, extract arch c = Some (XDir h)) ->
  exists h files ordered hs, tfind (tar_new o arch) c = Some (NDir h files ordered) /\ list_dir (NDir h files ordered) = Some hs /\ NoDup (map place hs) /\
    forall h', In h' hs <-> exists n, xhead (extract arch (c ++ [n])) = Some h'.
Proof.
  intros Ht Ha Hc. destruct (sub_dir o arch c Ht Hc) as (h & f & od & Hf). destruct (tar_listing o arch (tm_dotted _ _ Ht) (named_complete o arch Ht Ha) c h f od Hf) as (hs & H1 & H2 & H3).
  exists h, f, od, hs. split; [exact Hf|]. split; [exact H1|]. 
  assert (forall h', In h' hs <-> exists n, xhead (extract arch (c ++ [n])) = Some h') as H4.
  { intros h'. rewrite H3. split; intros (n & Hn); exists n; apply (winner_head o arch (c ++ [n]) h' Ht Ha (snoc_ne _ _)); exact Hn. }
  split; [|exact H4].
  assert (map key_of hs = map (render false) (map place hs)) as E.
  { rewrite map_map. apply map_ext_in. intros x Hx. apply H3 in Hx. destruct Hx as (n & Hw). apply winner_in in Hw. pose proof (tame_ok _ _ Ht) as Hok. unfold entries_ok in Hok. rewrite Forall_forall in Hok. destruct (Hok x Hw) as [Hr _].
    unfold key_of, place. change (clean (h_name x)) with (render (rooted (h_name x)) (elems (h_name x))). rewrite Hr. reflexivity. }
  rewrite E in H2. apply NoDup_map_inv in H2. exact H2.
Qed.
