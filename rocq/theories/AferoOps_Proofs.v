(* Each call of aferofs/synth on the paths of the tree. *)
From Coq Require Import Permutation.
From Verif Require Import Common CommonLemmas ContentRange_Model PathLex_Model PathLex_Proofs Afero_Model Afero_Spec Afero_Proofs.
Open Scope nat_scope.

Lemma below_dec (p q : list name) : below p q \/ ~ below p q.
Proof.
  unfold below. revert q; induction p as [|c r IH]; intros q; [left; now exists q|]. destruct q as [|b q]; [right; intros [t H]; discriminate|].
  destruct (list_eq_dec N.eq_dec b c) as [->|Hn].
  - destruct (IH q) as [[t ->]|Hb]; [left; now exists t|right]. intros [t H]. injection H as ->. apply Hb. now exists t.
  - right. intros [t H]. injection H as -> _. contradiction.
Qed.
Lemma below_refl (p : list name) : below p p.
Proof. exists []. now rewrite app_nil_r. Qed.

(* ---- a change in one directory, over the whole tree ---- *)

Lemma add_in root p c x d r : unique root -> node_at root p = Some d -> dirish d ->
  entry_at (update root p (add_child c x)) ((p ++ [c]) ++ r) = entry_at x r.
Proof.
  intros Hu Hn Hd. rewrite !entry_is, <- app_assoc. cbn [app]. rewrite (node_update_in _ _ _ _ _ Hn). rewrite add_here; [reflexivity|eapply unique_at; eauto|assumption].
Qed.
Lemma add_out root p c x q : ~ below (p ++ [c]) q -> entry_at (update root p (add_child c x)) q = entry_at root q.
Proof.
  intros Hb. destruct (below_dec p q) as [[r ->]|Hp]; [|now apply entry_update_out].
  destruct (node_at root p) as [d|] eqn:E; [|now rewrite update_none].
  rewrite !entry_is, (node_update_in _ _ _ _ _ E), node_app, E. destruct r as [|b t]; [cbn [node_at option_map]; now rewrite kind_add|].
  rewrite add_other; [reflexivity|]. intros ->. apply Hb. exists t. now rewrite <- app_assoc.
Qed.
Lemma remove_in root p c d r : unique root -> node_at root p = Some d -> entry_at (update root p (remove_child c)) ((p ++ [c]) ++ r) = None.
Proof.
  intros Hu Hn. rewrite !entry_is, <- app_assoc. cbn [app]. rewrite (node_update_in _ _ _ _ _ Hn). rewrite remove_here; [reflexivity|eapply unique_at; eauto].
Qed.
Lemma remove_out root p c q : ~ below (p ++ [c]) q -> entry_at (update root p (remove_child c)) q = entry_at root q.
Proof.
  intros Hb. destruct (below_dec p q) as [[r ->]|Hp]; [|now apply entry_update_out].
  destruct (node_at root p) as [d|] eqn:E; [|now rewrite update_none].
  rewrite !entry_is, (node_update_in _ _ _ _ _ E), node_app, E. destruct r as [|b t]; [cbn [node_at option_map]; now rewrite kind_remove|].
  rewrite remove_other; [reflexivity|]. intros ->. apply Hb. exists t. now rewrite <- app_assoc.
Qed.

(* ---- the invariant ---- *)

Definition sound (s : afs) : Prop := unique (a_root s) /\ dirish (a_root s).
Lemma dirish_add c x d : dirish d -> dirish (add_child c x d).
Proof. intros (m & es & ->). cbn. unfold dirish; eauto. Qed.
Lemma dirish_remove c d : dirish d -> dirish (remove_child c d).
Proof. intros (m & es & ->). cbn. unfold dirish; eauto. Qed.
Lemma dirish_mode m d : dirish d -> dirish (set_mode m d).
Proof. intros (a & es & ->). cbn. unfold dirish; eauto. Qed.
Lemma dirish_update d p f : dirish d -> (p = [] -> dirish (f d)) -> dirish (update d p f).
Proof.
  intros (m & es & ->) H. destruct p as [|c r]; [now apply H|]. cbn [update]. destruct (assoc es c); unfold dirish; eauto.
Qed.
Lemma sound_root s r : unique r -> dirish r -> sound (set_root s r).
Proof. split; assumption. Qed.
Lemma sound_log s l : sound s -> sound (log_close s l).
Proof. intros H; exact H. Qed.
Lemma sound_add_view s v : sound s -> sound (add_view s v).
Proof. intros H; exact H. Qed.
Lemma sound_views s v : sound s -> sound (set_views s v).
Proof. intros H; exact H. Qed.

Lemma upd_sound s p f : sound s -> (forall x, node_at (a_root s) p = Some x -> unique x -> unique (f x)) -> (forall x, dirish x -> dirish (f x)) ->
  sound (set_root s (update (a_root s) p f)).
Proof.
  intros [Hu Hd] H1 H2. apply sound_root; [apply unique_update; [assumption|]; intros x Hx; apply H1; [assumption|eapply unique_at; eauto]|].
  apply dirish_update; auto.
Qed.

Lemma chmod_sound s p m : sound s -> sound (fst (chmod s p m)).
Proof.
  intros H. unfold chmod. destruct (find s p); [exact H|]. apply upd_sound; [assumption|intros x _; apply unique_mode|apply dirish_mode].
Qed.
Lemma mkdir_sound s p m : sound s -> sound (fst (mkdir s p m)).
Proof.
  intros H. unfold mkdir. destruct (find_writable_dir s (dir p)) as [e|d]; [exact H|]. destruct (is_dot (base p)); [exact H|].
  destruct (child d (base p)); [exact H|]. destruct (negb (has_perm d 1)); [exact H|]. destruct (negb (has_perm d 2)); [exact H|].
  cbn [fst]. apply upd_sound; [assumption|intros x _ Hx; apply unique_add; [assumption|apply unique_empty]|intros x; apply dirish_add].
Qed.

Lemma unique_child_add m d c : unique d -> unique (match child d c with Some x => x | None => Dir m [] end).
Proof. intros H. destruct (child d c) eqn:E; [eapply unique_child; eauto|apply unique_empty]. Qed.
Lemma mk_all_unique m cs : forall d, unique d -> unique (fst (mk_all m d cs)).
Proof.
  induction cs as [|c r IH]; intros d Hu; cbn [mk_all]; [assumption|].
  pose proof (unique_child_add m d c Hu) as Hx. set (x := match child d c with Some x => x | None => Dir m [] end) in *.
  assert (unique (match child d c with Some _ => d | None => add_child c x d end)) as H1 by (destruct (child d c); [assumption|now apply unique_add]).
  set (d1 := match child d c with Some _ => d | None => add_child c x d end) in *.
  destruct (searchable (Some x)); [assumption|]. specialize (IH x Hx). destruct (mk_all m x r) as [x' e]. cbn [fst] in *.
  apply unique_update; [assumption|]. intros; assumption.
Qed.
Lemma mk_all_dirish m cs d : dirish d -> dirish (fst (mk_all m d cs)).
Proof.
  intros Hd. destruct cs as [|c r]; cbn [mk_all]; [assumption|].
  set (x := match child d c with Some x => x | None => Dir m [] end) in *.
  assert (dirish (match child d c with Some _ => d | None => add_child c x d end)) as H1 by (destruct (child d c); [assumption|now apply dirish_add]).
  set (d1 := match child d c with Some _ => d | None => add_child c x d end) in *.
  destruct (searchable (Some x)); [assumption|]. destruct (mk_all m x r) as [x' e]. cbn [fst] in *.
  apply dirish_update; [assumption|discriminate].
Qed.
Lemma mkdir_all_sound s p m : sound s -> sound (fst (mkdir_all s p m)).
Proof.
  intros H. unfold mkdir_all. destruct (validate p); [exact H|]. destruct (is_dot p); [exact H|]. destruct (searchable (Some (a_root s))); [exact H|].
  pose proof (mk_all_unique (dir_mode s m) (comps p) (a_root s) (proj1 H)) as A. pose proof (mk_all_dirish (dir_mode s m) (comps p) (a_root s) (proj2 H)) as B.
  destruct (mk_all (dir_mode s m) (a_root s) (comps p)) as [r e]. apply sound_root; assumption.
Qed.
Lemma open_sound s p q m : sound s -> sound (fst (open_file s p q m)).
Proof.
  intros H. unfold open_file. destruct (find_parent s p) as [e|[pp d]]; [exact H|]. destruct (is_dot (base p)); [exact H|].
  destruct (child d (base p)) as [x|].
  - destruct (o_excl q); [exact H|]. destruct (negb (has_perm x (flag_perm (o_acc q)))); [exact H|].
    destruct (is_dir x && (flag_writable (o_acc q) || o_trunc q)); [exact H|]. destruct (o_trunc q); [|exact H].
    destruct x as [a i|a es]; [|exact H]. destruct (nth_error (a_views s) i) as [v|]; [|exact H]. destruct (v_ro v); [exact H|]. exact H.
  - destruct (negb (o_create q)); [exact H|]. destruct (negb (has_perm d 3)); [exact H|]. destruct (negb (a_alloc s)); [exact H|].
    cbn [fst]. apply upd_sound; [exact H|intros x _ Hx; apply unique_add; [assumption|constructor]|intros x; apply dirish_add].
Qed.
Lemma remove_from_sound s pp d c : sound s -> sound (fst (remove_from s pp d c)).
Proof.
  intros H. unfold remove_from. destruct (is_dot c); [exact H|]. destruct (negb (has_perm d 3)); [exact H|]. destruct (child d c) as [x|]; [|exact H].
  destruct (is_dir x && (0 <? count x)); [exact H|]. cbn [fst]. apply sound_log, upd_sound; [exact H|intros y _; apply unique_remove|intros y; apply dirish_remove].
Qed.
Lemma remove_sound s p : sound s -> sound (fst (remove s p)).
Proof. intros H. unfold remove. destruct (find_parent s p) as [e|[pp d]]; [exact H|now apply remove_from_sound]. Qed.

(* ---- RemoveAll over a directory ---- *)

Section Ents.
Variable pg : node -> node * list nat * option aerr.
Fixpoint purge_ents (es : list (name * node)) : list (name * node) * list nat * option aerr :=
  match es with
  | [] => ([], [], None)
  | (c, x) :: r =>
      if is_dir x && (0 <? count x) then
        let '(x', cl, e) := pg x in
        match e with
        | Some e => ((c, x') :: r, cl, Some e)
        | None => let '(r', cl', e') := purge_ents r in ((c, x') :: r', cl ++ cl', e')
        end
      else let '(r', cl', e') := purge_ents r in (r', closes x ++ cl', e')
  end.
End Ents.
Lemma purge_dir m es : purge (Dir m es) =
  if negb (has_perm (Dir m es) 3) then (Dir m es, [], Some EAcces)
  else let '(es', cl, e) := purge_ents purge es in (Dir m es', cl, e).
Proof. reflexivity. Qed.

Lemma node_nested (P : node -> Prop) : (forall m v, P (File m v)) -> (forall m es, Forall (fun e => P (snd e)) es -> P (Dir m es)) -> forall d, P d.
Proof.
  intros Hf Hd. fix IH 1. intros [m v|m es]; [apply Hf|]. apply Hd. induction es as [|[c x] r IHr]; constructor; [apply IH|exact IHr].
Qed.

Definition purged (d d' : node) (cl : list nat) (e : option aerr) : Prop :=
  kind d' = kind d /\ (unique d -> unique d') /\
  (unique d -> forall q, entry_at d' q = entry_at d q \/ entry_at d' q = None) /\
  (is_dir d = true -> e = None -> forall q m v, entry_at d' q <> Some (FileEnt m v)) /\
  Permutation (views_in d) (cl ++ views_in d').
Definition purged_ents (es es' : list (name * node)) (cl : list nat) (e : option aerr) : Prop :=
  (forall c, In c (map fst es') -> In c (map fst es)) /\
  (NoDup (map fst es) -> NoDup (map fst es')) /\
  (forall c x', In (c, x') es' -> exists x, In (c, x) es /\ ((unique x -> unique x') /\ (unique x -> forall q, entry_at x' q = entry_at x q \/ entry_at x' q = None))) /\
  (e = None -> forall c x', In (c, x') es' -> forall q m v, entry_at x' q <> Some (FileEnt m v)) /\
  Permutation (ents_views es) (cl ++ ents_views es').

Lemma purge_ents_spec es : Forall (fun e => forall d' cl r, purge (snd e) = (d', cl, r) -> purged (snd e) d' cl r) es ->
  forall es' cl e, purge_ents purge es = (es', cl, e) -> purged_ents es es' cl e.
Proof.
  induction 1 as [|[c x] r Hx Hr IH]; intros es' cl e; cbn [purge_ents].
  - intros H. injection H as <- <- <-. split; [auto|]. split; [auto|]. split; [intros c x' []|]. split; [intros _ c x' []|reflexivity].
  - destruct (is_dir x && (0 <? count x)) eqn:Ed.
    + destruct (purge x) as [[x' cl1] e1] eqn:Ep. cbn [snd] in Hx. specialize (Hx _ _ _ Ep). destruct Hx as (K & U & O & F & V).
      apply andb_true_iff in Ed. destruct Ed as [Ed _].
      destruct e1 as [e1|].
      * intros H. injection H as <- <- <-. split; [cbn; tauto|]. split; [cbn; tauto|]. split; [|split; [discriminate|]].
        -- intros b y [E|Hi]; [injection E as <- <-; exists x; split; [now left|auto]|]. exists y. split; [now right|]. split; [auto|]. intros _ q. now left.
        -- cbn. rewrite V, app_assoc. reflexivity.
      * destruct (purge_ents purge r) as [[r' cl2] e2] eqn:Er. intros H. injection H as <- <- <-.
        destruct (IH _ _ _ eq_refl) as (A & B & C & D & E). split; [|split; [|split; [|split]]].
        -- cbn. intros b [->|Hi]; auto.
        -- cbn. intros Hn. inversion Hn as [|? ? H1 H2]; subst. constructor; [intros Hi; apply H1; auto|auto].
        -- intros b y [Ey|Hi]; [injection Ey as <- <-; exists x; split; [now left|auto]|]. destruct (C b y Hi) as (z & Hz & Hz2). exists z. split; [now right|assumption].
        -- intros He b y [Ey|Hi]; [injection Ey as <- <-; auto|eauto].
        -- cbn. unfold ents_views in E. rewrite V, E. rewrite <- !app_assoc. apply Permutation_app_head. rewrite !app_assoc. apply Permutation_app_tail, Permutation_app_comm.
    + destruct (purge_ents purge r) as [[r' cl2] e2] eqn:Er. intros H. injection H as <- <- <-.
      destruct (IH _ _ _ eq_refl) as (A & B & C & D & E). split; [|split; [|split; [|split]]]; auto.
      * cbn. intros b Hi. auto.
      * cbn. intros Hn. inversion Hn; auto.
      * intros b y Hi. destruct (C b y Hi) as (z & Hz & Hz2). exists z. split; [now right|assumption].
      * cbn. unfold ents_views in E. change (closes x) with (views_in x). rewrite E, app_assoc. reflexivity.
Qed.
Lemma in_assoc es c x : NoDup (map fst es) -> In (c, x) es -> assoc es c = Some x.
Proof.
  induction es as [|[k y] r IH]; cbn; [tauto|]. intros Hn [E|Hi]; inversion Hn as [|? ? H1 H2]; subst.
  - injection E as -> ->. now rewrite eqb_refl'.
  - rewrite eqb_false; [auto|]. intros ->. apply H1. apply in_map_iff. exists (c, x). auto.
Qed.
Lemma purge_spec d : forall d' cl e, purge d = (d', cl, e) -> purged d d' cl e.
Proof.
  induction d as [m v|m es IH] using node_nested; intros d' cl e.
  - cbn. intros H. injection H as <- <- <-. split; [reflexivity|]. split; [auto|]. split; [auto|]. split; [discriminate|reflexivity].
  - rewrite purge_dir. destruct (negb (has_perm (Dir m es) 3)).
    { intros H. injection H as <- <- <-. split; [reflexivity|]. split; [auto|]. split; [auto|]. split; [discriminate|reflexivity]. }
    destruct (purge_ents purge es) as [[es' cl'] e'] eqn:Ep. intros H. injection H as <- <- <-.
    destruct (purge_ents_spec es IH _ _ _ Ep) as (A & B & C & D & E). split; [reflexivity|]. split; [|split; [|split]].
    + intros Hu. inversion Hu as [|? ? Hn Hc]; subst. constructor; [auto|]. intros c y Hi. destruct (C c y Hi) as (z & Hz & Uz & _). eauto.
    + intros Hu q. inversion Hu as [|? ? Hn Hc]; subst. destruct q as [|c q]; [now left|]. rewrite !entry_is. cbn [node_at child].
      destruct (assoc es' c) as [y|] eqn:Ey; [|now right]. apply assoc_in in Ey. destruct (C c y Ey) as (z & Hz & _ & Oz).
      rewrite (in_assoc es c z Hn Hz). rewrite <- !entry_is. apply Oz. eauto.
    + intros _ He q a v. destruct q as [|c q]; [discriminate|]. rewrite entry_is. cbn [node_at child]. destruct (assoc es' c) as [y|] eqn:Ey; [|discriminate].
      rewrite <- entry_is. eapply D; [assumption|]. apply assoc_in. exact Ey.
    + exact E.
Qed.

Lemma remove_all_sound s p : sound s -> sound (fst (remove_all s p)).
Proof.
  intros H. unfold remove_all. destruct (validate p); [exact H|]. destruct (is_dot p); [exact H|].
  pose proof (remove_sound s p H) as H1. destruct (remove s p) as [s1 e1]. cbn [fst] in H1.
  assert (sound (fst (match find_parent s1 p with
            | inl e => (s1, Some e)
            | inr (pp, d) =>
                match remove_from s1 pp d (base p) with
                | (s2, None) | (s2, Some ENoEnt) | (s2, Some EClosedWith) => (s2, None)
                | (s2, Some ENotEmpty) =>
                    match child d (base p) with
                    | None => (s2, None)
                    | Some x =>
                        let '(x', cl, e) := purge x in
                        (log_close (set_root s2 (update (a_root s2) (pp ++ [base p]) (fun _ => x'))) cl, e)
                    end
                | (s2, e) => (s2, e)
                end
            end))) as Hk; [|destruct e1 as [[]|]; assumption].
  destruct (find_parent s1 p) as [e|[pp d]] eqn:Ef; [exact H1|]. pose proof (remove_from_sound s1 pp d (base p) H1) as H2.
  destruct (remove_from s1 pp d (base p)) as [s2 e2] eqn:Er. cbn [fst] in H2. destruct e2 as [[]|]; try exact H2.
  destruct (child d (base p)) as [x|] eqn:Ex; [|exact H2]. destruct (purge x) as [[x' cl] e] eqn:Ep. cbn [fst].
  assert (s2 = s1) as ->.
  { unfold remove_from in Er. destruct (is_dot (base p)); [discriminate|]. destruct (negb (has_perm d 3)); [discriminate|]. rewrite Ex in Er.
    destruct (is_dir x && (0 <? count x)); [now injection Er|]. destruct (close_fails s1 x); discriminate. }
  destruct (validate p) eqn:Ev; [unfold find_parent in Ef; rewrite Ev in Ef; discriminate|].
  destruct (validate_spell _ Ev) as (l & Hl & ->). destruct (snoc_cases l) as [->|(q & c & ->)].
  { exfalso. apply find_parent_root in Ef. injection Ef as -> ->. unfold remove_from in Er. change (is_dot (base (spell []))) with true in Er. discriminate. }
  apply find_parent_spec in Ef; [|assumption]. cbn [fst snd] in Ef. destruct Ef as (_ & _ & -> & Hn). rewrite base_spell in * by assumption.
  destruct H1 as [Hu Hd]. assert (node_at (a_root s1) (q ++ [c]) = Some x) as Hx by (rewrite node_app, Hn; cbn; now rewrite Ex).
  apply sound_log, sound_root.
  - apply unique_update; [assumption|]. intros y Hy. assert (y = x) as -> by congruence. apply (purge_spec _ _ _ _ Ep). eapply unique_at; eauto.
  - apply dirish_update; [assumption|]. intros E. now apply snoc_not_nil in E.
Qed.

Lemma rename_sound s o n : sound s -> sound (fst (rename s o n)).
Proof.
  intros H. unfold rename. destruct (validate o); [exact H|]. destruct (validate n); [exact H|]. destruct (bytes_eqb o n); [exact H|].
  destruct (is_dot o || is_dot n); [exact H|]. destruct (inside o n); [exact H|].
  destruct (find_dirent s o) as [e|[[op d] [x|]]] eqn:Eo; [exact H| |exact H]. destruct (find_dirent s n) as [e|[[np d'] y]]; [exact H|].
  destruct (is_dir x && negb (has_perm x 2)); [exact H|]. destruct (bad_target x y); [exact H|]. cbn [fst].
  assert (unique x) as Hx.
  { unfold find_dirent in Eo. destruct (find_parent s o) as [e|[pp z]] eqn:Ef; [discriminate|]. destruct (negb (has_perm z 2)); [discriminate|].
    injection Eo as -> -> Ex. destruct (validate o) eqn:Ev; [unfold find_parent in Ef; rewrite Ev in Ef; discriminate|].
    destruct (validate_spell _ Ev) as (l & Hl & ->). destruct (snoc_cases l) as [->|(q & c & ->)].
    - apply find_parent_root in Ef. injection Ef as -> ->. eapply unique_child; [apply H|exact Ex].
    - apply find_parent_spec in Ef; [|assumption]. cbn [fst snd] in Ef. destruct Ef as (_ & _ & -> & Hn).
      eapply unique_child; [eapply unique_at; [apply H|exact Hn]|exact Ex]. }
  pose proof (upd_sound s op (remove_child (base o)) H (fun y _ => unique_remove (base o) y) (fun y => dirish_remove (base o) y)) as H1.
  exact (upd_sound _ np (add_child (base o) x) H1 (fun y _ Hy => unique_add (base o) x y Hy Hx) (fun y => dirish_add (base o) x y)).
Qed.
Lemma add_file_sound s p v : sound s -> sound (fst (add_file s p v)).
Proof.
  intros H. unfold add_file. destruct (validate p); [exact H|].
  destruct (match v_mode v with Some m => negb (N.eqb (N.land m m_dir) 0) | None => false end); [exact H|].
  destruct (last (split_sep p) []) as [|b0 b]; [exact H|].
  pose proof (mkdir_all_sound (add_view s v) (dir p) m_perm H) as H1. destruct (mkdir_all (add_view s v) (dir p) m_perm) as [s1 [e|]]; [exact H1|]. cbn [fst] in H1.
  destruct (find s1 (dir p)) as [e|d]; [exact H1|]. destruct (searchable (Some d)); [exact H1|]. destruct (negb (has_perm d 2)); [exact H1|].
  cbn [fst]. apply upd_sound; [destruct (child d (b0 :: b)); exact H1|intros x _ Hx; apply unique_add; [assumption|constructor]|intros x; apply dirish_add].
Qed.
Lemma realloc_sound s p : sound s -> sound (fst (reallocate s p)).
Proof.
  intros H. unfold reallocate. destruct (find s p) as [e|[m i|m es]]; [exact H| |exact H]. destruct (nth_error (a_views s) i) as [v|]; [|exact H].
  match goal with |- context [add_file s p ?v] => pose proof (add_file_sound s p v H) as H1; destruct (add_file s p v) as [s1 [e|]] end; [exact H1|].
  cbn [fst] in *. apply sound_log, upd_sound; [exact H1|intros x _; apply unique_mode|intros x; apply dirish_mode].
Qed.
Lemma step_sound s o : sound s -> sound (astep s o).
Proof.
  destruct o; cbn [astep]; intros H.
  - now apply chmod_sound. - now apply mkdir_sound. - now apply mkdir_all_sound. - now apply open_sound. - now apply remove_sound.
  - now apply remove_all_sound. - now apply rename_sound. - now apply add_file_sound. - now apply realloc_sound.
Qed.
Lemma run_sound l s : sound s -> sound (arun s l).
Proof. revert s; induction l as [|o l IH]; intros s H; [exact H|]. apply (IH (astep s o)). now apply step_sound. Qed.
Lemma new_sound u a : sound (new_fs u a).
Proof. split; [apply unique_empty|unfold dirish; cbn; eauto]. Qed.
Lemma reach_sound s : reachable s -> sound s.
Proof. intros (u & a & l & ->). apply run_sound, new_sound. Qed.
