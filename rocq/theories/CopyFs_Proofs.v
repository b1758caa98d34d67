(* Proofs about tree copies. *)
From Verif Require Import Common CommonLemmas ContentRange_Model ContentRange_Proofs PathLex_Model PathLex_Proofs
  TempName_Model TempName_Proofs HeadTail_Model HeadTail_Spec HeadTail_Proofs CopyFs_Model CopyFs_Spec.
Open Scope nat_scope.

(* ---- destination paths ---- *)

Lemma normal_app_proper root l p : normal root l -> Forall proper p -> normal root (l ++ p).
Proof.
  intros Hn Hp. revert l Hn. induction Hp as [|c p Hc Hp IH]; intros l Hn; [rewrite app_nil_r; exact Hn|].
  change (c :: p) with ([c] ++ p). rewrite app_assoc. apply IH. apply normal_snoc; assumption.
Qed.

Lemma root_elems_normal root : normal (rooted root) (root_elems root).
Proof. apply clean_normal. Qed.

Lemma join2_proper root s p : (s = join_sep p /\ p <> [] \/ s = [dot] /\ p = []) -> Forall proper p ->
  join2 root s = render (rooted root) (root_elems root ++ p).
Proof.
  intros Hs Hp.
  assert (exists l, split_sep s = l /\ (l = p \/ l = [[dot]] /\ p = [])) as (l & Hl & Hlp).
  { destruct Hs as [[-> Hne]|[-> ->]].
    - exists p. split; [apply split_join; [exact Hne|apply proper_sepfree; exact Hp]|left; reflexivity].
    - exists [[dot]]. split; [reflexivity|right; auto]. }
  assert (forall st, fold_left (clean_step (rooted root)) l st = rev p ++ st) as Hf.
  { intros st. destruct Hlp as [->|[-> ->]]; [apply fold_proper; exact Hp|]. reflexivity. }
  assert (s <> []) as Hsn.
  { intros ->. cbn in Hl. subst l. destruct Hlp as [<-|[E _]]; [|discriminate E].
    inversion Hp as [|? ? Hx _]; subst. destruct Hx as [Hx _]. contradiction. }
  destruct root as [|b root].
  - unfold join2. destruct s as [|b s]; [contradiction|]. unfold clean, root_elems.
    assert (rooted (b :: s) = false) as ->.
    { destruct Hs as [[E Hne]|[E _]]; [|injection E as -> ->; reflexivity].
      destruct p as [|c p]; [contradiction|]. inversion Hp as [|? ? Hc _]; subst.
      destruct c as [|x c]; [destruct Hc as [Hc _]; contradiction|].
      assert (b = x) as -> by (destruct p; cbn in E; congruence).
      cbn. apply N.eqb_neq. intros ->. destruct Hc as (_ & _ & _ & Hc). apply Hc. left; reflexivity. }
    rewrite Hl. unfold clean_comps. cbn [rooted] in Hf. rewrite Hf. rewrite app_nil_r, rev_involutive. reflexivity.
  - unfold join2, clean, root_elems. rewrite split_app_gen, Hl.
    assert (rooted ((b :: root) ++ sep :: s) = rooted (b :: root)) as -> by reflexivity.
    unfold clean_comps. rewrite fold_left_app, Hf, rev_app_distr, rev_involutive. reflexivity.
Qed.

Lemma dst_path_render root p : Forall proper p -> dst_path root p = render (rooted root) (root_elems root ++ p).
Proof.
  intros Hp. unfold dst_path. apply join2_proper; [|exact Hp]. unfold walk_path.
  destruct p; [right; auto|left; split; [reflexivity|discriminate]].
Qed.

Lemma dst_path_inj root p q : Forall proper p -> Forall proper q -> dst_path root p = dst_path root q -> p = q.
Proof.
  intros Hp Hq E. rewrite !dst_path_render in E by assumption.
  apply render_inj in E; [|apply normal_app_proper; [apply root_elems_normal|assumption]..].
  apply app_inv_head in E. exact E.
Qed.

(* ---- trees ---- *)

Lemma snode_ind' (P : snode -> Prop) :
  (forall m ch, Forall (fun x => P (snd x)) ch -> P (SDir m ch)) ->
  (forall m b, P (SFile m b)) -> (forall m t, P (SLink m t)) -> (forall m, P (SOther m)) -> forall n, P n.
Proof.
  intros HD HF HL HO. fix IH 1. intros [m ch|m b|m t|m]; [|apply HF|apply HL|apply HO].
  apply HD. induction ch as [|[c n] ch IHch]; [constructor|]. constructor; [apply IH|exact IHch].
Qed.

Lemma wf_tree_dir m ch : wf_tree (SDir m ch) <-> NoDup (map fst ch) /\ Forall (fun x => proper (fst x) /\ wf_tree (snd x)) ch.
Proof.
  cbn [wf_tree]. split; intros [H1 H2]; (split; [exact H1|]); clear H1.
  - induction ch as [|[c n] ch IH]; [constructor|]. destruct H2 as (Ha & Hb & Hc). constructor; [cbn; auto|]. apply IH. exact Hc.
  - induction ch as [|[c n] ch IH]; [exact I|]. inversion H2 as [|? ? [Ha Hb] Hc]; subst. cbn in Ha, Hb. split; [exact Ha|]. split; [exact Hb|]. apply IH. exact Hc.
Qed.

Lemma find_child_in c ch n : find_child c ch = Some n -> In (c, n) ch.
Proof.
  induction ch as [|[x n0] ch IH]; cbn [find_child]; [discriminate|].
  destruct (bytes_eqb x c) eqn:E; [|intros H; right; apply IH; exact H].
  apply bytes_eqb_eq in E. subst. intros H. injection H as ->. left. reflexivity.
Qed.

Lemma node_at_proper n : wf_tree n -> forall p m, node_at n p = Some m -> Forall proper p.
Proof.
  induction n as [md ch IH|md b|md t|md] using snode_ind'; intros Hwf p m H; destruct p as [|c p]; try (constructor); try discriminate.
  - apply wf_tree_dir in Hwf. destruct Hwf as [_ Hwf]. cbn [node_at] in H. destruct (find_child c ch) eqn:E; [|discriminate].
    apply find_child_in in E. rewrite Forall_forall in Hwf. apply (Hwf _ E).
  - apply wf_tree_dir in Hwf. destruct Hwf as [_ Hwf]. cbn [node_at] in H. destruct (find_child c ch) as [n'|] eqn:E; [|discriminate].
    apply find_child_in in E. rewrite Forall_forall in Hwf, IH. apply (IH _ E (proj2 (Hwf _ E)) _ _ H).
Qed.

(* ---- one entry ---- *)

Lemma mkdir_frame e w p r w' : d_mkdir e w p = (r, w') -> (forall q, q <> p -> w' q = w q).
Proof.
  unfold d_mkdir. destruct (ce_fails e CpMkdir p); [intros H; injection H as <- <-; reflexivity|].
  destruct (w p); [intros H; injection H as <- <-; reflexivity|].
  destruct (is_dir_ent w (dir p)); intros H; injection H as <- <-; [|reflexivity]. intros q Hq. apply name_set_other. exact Hq.
Qed.

Lemma chmod_frame e w p m r w' : d_chmod e w p m = (r, w') -> (forall q, q <> p -> w' q = w q).
Proof.
  unfold d_chmod. destruct (ce_fails e CpChmod p); [intros H; injection H as <- <-; reflexivity|].
  destruct (w p) as [[|b|]|]; intros H; injection H as <- <-; try reflexivity; intros q Hq; apply name_set_other; exact Hq.
Qed.

Lemma create_frame e w p m r w' : d_create e w p m = (r, w') -> (forall q, q <> p -> w' q = w q).
Proof.
  unfold d_create. destruct (ce_fails e CpOpenDst p); [intros H; injection H as <- <-; reflexivity|].
  destruct (w p) as [[|b m0|]|]; try (intros H; injection H as <- <-; try reflexivity; intros q Hq; apply name_set_other; exact Hq).
  destruct (is_dir_ent w (dir p)); intros H; injection H as <- <-; try reflexivity; intros q Hq; apply name_set_other; exact Hq.
Qed.

Lemma write_frame w p d q : q <> p -> d_write w p d q = w q.
Proof. unfold d_write. intros Hq. destruct (w p) as [[|b m|]|]; try reflexivity. apply name_set_other. exact Hq. Qed.

Lemma symlink_frame e w p t r w' : d_symlink e w p t = (r, w') -> (forall q, q <> p -> w' q = w q).
Proof.
  unfold d_symlink. destruct (ce_fails e CpSymlink p); [intros H; injection H as <- <-; reflexivity|].
  destruct (w p); [intros H; injection H as <- <-; reflexivity|].
  destruct (is_dir_ent w (dir p)); intros H; injection H as <- <-; [|reflexivity]. intros q Hq. apply name_set_other. exact Hq.
Qed.

Lemma copy_entry_frame e w p n r w' : copy_entry e w p n = (r, w') -> forall q, q <> p -> w' q = w q.
Proof.
  destruct n as [m ch|m b|m t|m]; cbn [copy_entry]; intros H q Hq.
  - destruct (d_mkdir e w p) as [r1 w1] eqn:E1. pose proof (mkdir_frame _ _ _ _ _ E1 q Hq) as F1.
    destruct r1; [|injection H as <- <-; exact F1]. rewrite (chmod_frame _ _ _ _ _ _ H q Hq). exact F1.
  - destruct (ce_fails e CpOpenSrc p); [injection H as <- <-; reflexivity|].
    destruct (d_create e w p (ce_mask e m)) as [r1 w1] eqn:E1. pose proof (create_frame _ _ _ _ _ _ E1 q Hq) as F1.
    destruct r1; [|injection H as <- <-; exact F1].
    destruct (ce_short e p); injection H as <- <-; rewrite write_frame by exact Hq; exact F1.
  - destruct (ce_links e); [|injection H as <- <-; reflexivity].
    destruct (ce_fails e CpReadLink p); [injection H as <- <-; reflexivity|]. exact (symlink_frame _ _ _ _ _ _ H q Hq).
  - injection H as <- <-. reflexivity.
Qed.

Lemma copy_entry_ok e w p n w' : copy_entry e w p n = (COk, w') ->
  (forall m ch, n = SDir m ch -> w p = None \/ exists m0, w p = Some (DDir m0)) -> copied e (w p) n (w' p).
Proof.
  destruct n as [m ch|m b|m t|m]; cbn [copy_entry copied]; intros H Hd.
  - destruct (d_mkdir e w p) as [r1 w1] eqn:E1. destruct r1; [|discriminate].
    assert (exists m1, w1 p = Some (DDir m1)) as (m1 & Hw1).
    { unfold d_mkdir in E1. destruct (ce_fails e CpMkdir p); [discriminate|].
      destruct (Hd m ch eq_refl) as [Hn|(m0 & Hn)]; rewrite Hn in E1.
      - destruct (is_dir_ent w (dir p)); [|discriminate]. injection E1 as <-. exists 511%N. apply name_set_same.
      - injection E1 as <-. exists m0. exact Hn. }
    unfold d_chmod in H. destruct (ce_fails e CpChmod p); [discriminate|]. rewrite Hw1 in H. injection H as <-. apply name_set_same.
  - destruct (ce_fails e CpOpenSrc p); [discriminate|].
    destruct (d_create e w p (ce_mask e m)) as [r1 w1] eqn:E1. destruct r1; [|discriminate].
    destruct (ce_short e p); [discriminate|]. injection H as <-.
    assert (w1 p = Some (DFile [] (match w p with Some (DFile _ m0) => m0 | _ => ce_mask e m end))) as Hw1.
    { unfold d_create in E1. destruct (ce_fails e CpOpenDst p); [discriminate|].
      destruct (w p) as [[|b0 m0|]|]; try discriminate.
      - injection E1 as <-. apply name_set_same.
      - destruct (is_dir_ent w (dir p)); [|discriminate]. injection E1 as <-. apply name_set_same. }
    unfold d_write. rewrite Hw1. apply name_set_same.
  - destruct (ce_links e); [|injection H as <-; reflexivity].
    destruct (ce_fails e CpReadLink p); [discriminate|]. unfold d_symlink in H.
    destruct (ce_fails e CpSymlink p); [discriminate|]. destruct (w p); [discriminate|].
    destruct (is_dir_ent w (dir p)); [|discriminate]. injection H as <-. apply name_set_same.
  - injection H as <-. reflexivity.
Qed.

(* ---- CopyAll ---- *)

Definition copy_children (e : cenv) (root : list byte) (p : list (list byte)) :=
  fix go (ch : list (list byte * snode)) (k : nat) (w : world) {struct ch} : cres * world :=
    match ch, k with
    | (name, n) :: ch, S k =>
        let '(r, w1) := copy_tree e root n (p ++ [name]) w in
        match r with CErr => (CErr, w1) | COk => go ch k w1 end
    | _, _ => (COk, w)
    end.

Lemma copy_children_eq e root p ch k w : copy_children e root p ch k w =
  match ch, k with
  | (name, n) :: ch, S k =>
      let '(r, w1) := copy_tree e root n (p ++ [name]) w in
      match r with CErr => (CErr, w1) | COk => copy_children e root p ch k w1 end
  | _, _ => (COk, w)
  end.
Proof. destruct ch as [|[name n] ch]; reflexivity. Qed.

Lemma copy_tree_eq e root n p w : copy_tree e root n p w =
  if ce_fails e CpStat (dst_path root p) then (CErr, w)
  else
    let '(r, w1) := copy_entry e w (dst_path root p) n in
    match r with
    | CErr => (CErr, w1)
    | COk =>
        match n with
        | SDir _ ch =>
            match (match ce_readdir e (dst_path root p) with
                   | None => Some (length ch)
                   | Some (k, ignored) => if ignored then Some k else None
                   end) with
            | None => (CErr, w1)
            | Some k => copy_children e root p ch k w1
            end
        | _ => (COk, w1)
        end
    end.
Proof. destruct n; reflexivity. Qed.

Lemma app_cons_assoc {A} (p : list A) c s : (p ++ [c]) ++ s = p ++ c :: s.
Proof. rewrite <- app_assoc. reflexivity. Qed.

Definition is_leaf (n : snode) : bool := match n with SDir _ _ => false | _ => true end.

Lemma copy_leaf_spec e root n p w r w' : is_leaf n = true ->
  (if ce_fails e CpStat (dst_path root p) then (CErr, w)
   else
    let '(r, w1) := copy_entry e w (dst_path root p) n in
    match r with CErr => (CErr, w1) | COk => (COk, w1) end) = (r, w') ->
  (forall q, (forall s m, node_at n s = Some m -> q <> dst_path root (p ++ s)) -> w' q = w q) /\
  (r = COk -> never_ignored e ->
   (forall s m ch, node_at n s = Some (SDir m ch) -> w (dst_path root (p ++ s)) = None \/ exists m0, w (dst_path root (p ++ s)) = Some (DDir m0)) ->
   forall s m, node_at n s = Some m -> copied e (w (dst_path root (p ++ s))) m (w' (dst_path root (p ++ s)))).
Proof.
  intros Hl H. destruct (ce_fails e CpStat (dst_path root p)); [injection H as <- <-; split; [reflexivity|discriminate]|].
  destruct (copy_entry e w (dst_path root p) n) as [r1 w1] eqn:E1.
  assert (w' = w1 /\ r = r1) as [-> ->] by (destruct r1; injection H as <- <-; auto). split.
  - intros q Hq. apply (copy_entry_frame _ _ _ _ _ _ E1). specialize (Hq [] _ eq_refl). rewrite app_nil_r in Hq. exact Hq.
  - intros -> Hig Hd s m Hs. destruct s as [|c s]; [|destruct n; discriminate]. injection Hs as <-. rewrite app_nil_r. apply copy_entry_ok; [exact E1|].
    intros m ch ->. discriminate.
Qed.

Lemma copy_tree_spec e root n : forall p w r w', wf_tree n -> Forall proper p -> copy_tree e root n p w = (r, w') ->
  (forall q, (forall s m, node_at n s = Some m -> q <> dst_path root (p ++ s)) -> w' q = w q) /\
  (r = COk -> never_ignored e ->
   (forall s m ch, node_at n s = Some (SDir m ch) -> w (dst_path root (p ++ s)) = None \/ exists m0, w (dst_path root (p ++ s)) = Some (DDir m0)) ->
   forall s m, node_at n s = Some m -> copied e (w (dst_path root (p ++ s))) m (w' (dst_path root (p ++ s)))).
Proof.
  induction n as [md ch IH|md b|md t|md] using snode_ind'; intros p w r w' Hwf Hp H; rewrite copy_tree_eq in H.
  2: { eapply copy_leaf_spec; [reflexivity|exact H]. }
  2: { eapply copy_leaf_spec; [reflexivity|exact H]. }
  2: { eapply copy_leaf_spec; [reflexivity|exact H]. }
  destruct (ce_fails e CpStat (dst_path root p)); [injection H as <- <-; split; [reflexivity|discriminate]|].
  destruct (copy_entry e w (dst_path root p) (SDir md ch)) as [r1 w1] eqn:E1.
  assert (forall q, (forall s m, node_at (SDir md ch) s = Some m -> q <> dst_path root (p ++ s)) -> w1 q = w q) as F1.
  { intros q Hq. apply (copy_entry_frame _ _ _ _ _ _ E1). specialize (Hq [] _ eq_refl). rewrite app_nil_r in Hq. exact Hq. }
  destruct r1; [|injection H as <- <-; split; [exact F1|discriminate]].
  apply wf_tree_dir in Hwf. destruct Hwf as [Hnd Hwf].
  (* the children *)
  assert (forall l k w2 r w', Forall (fun x => In x ch) l -> NoDup (map fst l) -> copy_children e root p l k w2 = (r, w') ->
    (forall q, (forall c n s m, In (c, n) l -> node_at n s = Some m -> q <> dst_path root (p ++ c :: s)) -> w' q = w2 q) /\
    (r = COk -> never_ignored e -> length l <= k ->
     (forall c n s m ch, In (c, n) l -> node_at n s = Some (SDir m ch) -> w2 (dst_path root (p ++ c :: s)) = None \/ exists m0, w2 (dst_path root (p ++ c :: s)) = Some (DDir m0)) ->
     forall c n s m, In (c, n) l -> node_at n s = Some m -> copied e (w2 (dst_path root (p ++ c :: s))) m (w' (dst_path root (p ++ c :: s))))) as Hch.
  { clear H r w' E1 F1. induction l as [|[c n] l IHl]; intros k w2 r w' Hin Hnl H; rewrite copy_children_eq in H.
    - injection H as <- <-. split; [reflexivity|]. intros _ _ _ _ c n s m [].
    - destruct k as [|k]; [injection H as <- <-; split; [reflexivity|]; intros _ _ Hk; cbn in Hk; lia|].
      inversion Hin as [|? ? Hi Hin']; subst. inversion Hnl as [|? ? Hni Hnl']; subst.
      rewrite Forall_forall in Hwf, IH. pose proof (Hwf _ Hi) as [Hc Hn]. cbn [fst snd] in Hc, Hn.
      destruct (copy_tree e root n (p ++ [c]) w2) as [rc wc] eqn:Ec.
      assert (Forall proper (p ++ [c])) as Hpc by (apply Forall_app; split; [exact Hp|]; constructor; [exact Hc|constructor]).
      destruct (IH _ Hi (p ++ [c]) w2 rc wc Hn Hpc Ec) as [Fc Sc].
      assert (forall q, (forall s m, node_at n s = Some m -> q <> dst_path root (p ++ c :: s)) -> wc q = w2 q) as Fc'.
      { intros q Hq. apply Fc. intros s m Hs. rewrite app_cons_assoc. apply (Hq s m Hs). }
      destruct rc; [|injection H as <- <-; split; [intros q Hq; apply Fc'; intros s m Hs; apply (Hq c n s m (or_introl eq_refl) Hs)|discriminate]].
      destruct (IHl k wc r w' Hin' Hnl' H) as [Fl Sl].
      assert (forall c' n' s m, In (c', n') l -> node_at n' s = Some m -> wc (dst_path root (p ++ c' :: s)) = w2 (dst_path root (p ++ c' :: s))) as Hother.
      { intros c' n' s m Hi' Hs. apply Fc'. intros s0 m0 Hs0 E.
        assert (In (c', n') ch) as Hi2 by (rewrite Forall_forall in Hin'; apply Hin'; exact Hi').
        pose proof (Hwf _ Hi2) as [Hc' Hn']. cbn [fst snd] in Hc', Hn'.
        apply dst_path_inj in E; [apply app_inv_head in E; injection E as -> ->|..].
        - apply Hni. apply in_map_iff. exists (c, n'). auto.
        - apply Forall_app. split; [exact Hp|]. constructor; [exact Hc'|]. exact (node_at_proper _ Hn' _ _ Hs).
        - apply Forall_app. split; [exact Hp|]. constructor; [exact Hc|]. exact (node_at_proper _ Hn _ _ Hs0). }
      assert (forall s m, node_at n s = Some m -> w' (dst_path root (p ++ c :: s)) = wc (dst_path root (p ++ c :: s))) as Hmine.
      { intros s m Hs. apply Fl. intros c' n' s0 m0 Hi' Hs0 E.
        assert (In (c', n') ch) as Hi2 by (rewrite Forall_forall in Hin'; apply Hin'; exact Hi').
        pose proof (Hwf _ Hi2) as [Hc' Hn']. cbn [fst snd] in Hc', Hn'.
        apply dst_path_inj in E; [apply app_inv_head in E; injection E as -> ->|..].
        - apply Hni. apply in_map_iff. exists (c', n'). auto.
        - apply Forall_app. split; [exact Hp|]. constructor; [exact Hc|]. exact (node_at_proper _ Hn _ _ Hs).
        - apply Forall_app. split; [exact Hp|]. constructor; [exact Hc'|]. exact (node_at_proper _ Hn' _ _ Hs0). }
      split.
      + intros q Hq. rewrite Fl by (intros c' n' s m Hi'; apply Hq; right; exact Hi'). apply Fc'. intros s m Hs. apply (Hq c n s m (or_introl eq_refl) Hs).
      + intros -> Hig Hk Hd c' n' s m [E|Hi'] Hs.
        * injection E as <- <-. rewrite (Hmine s m Hs). rewrite <- app_cons_assoc. apply (Sc eq_refl Hig); [|exact Hs].
          intros s0 m0 ch0 Hs0. rewrite app_cons_assoc. apply (Hd c n s0 m0 ch0 (or_introl eq_refl) Hs0).
        * rewrite <- (Hother c' n' s m Hi' Hs). apply (Sl eq_refl Hig) with (n := n'); [cbn in Hk; lia| |exact Hi'|exact Hs].
          intros c2 n2 s2 m2 ch2 Hi2 Hs2. rewrite (Hother c2 n2 s2 _ Hi2 Hs2). apply (Hd c2 n2 s2 m2 ch2 (or_intror Hi2) Hs2). }
  assert (Forall (fun x => In x ch) ch) as Hself by (apply Forall_forall; auto).
  assert (forall c n, In (c, n) ch -> find_child c ch = Some n) as Hfc.
  { intros c n Hi. clear -Hnd Hi. induction ch as [|[x n0] ch IHc]; [destruct Hi|]. cbn [find_child map fst] in *.
    inversion Hnd as [|? ? Hni Hnd']; subst. destruct Hi as [E|Hi].
    - injection E as -> ->. assert (bytes_eqb c c = true) as -> by (apply bytes_eqb_eq; reflexivity). reflexivity.
    - destruct (bytes_eqb x c) eqn:E; [|apply IHc; assumption]. apply bytes_eqb_eq in E. subst x. exfalso. apply Hni.
      apply in_map_iff. exists (c, n). auto. }
  destruct (ce_readdir e (dst_path root p)) as [[k ig]|] eqn:Erd.
  - destruct ig; [|injection H as <- <-; split; [exact F1|discriminate]].
    destruct (Hch ch k w1 r w' Hself Hnd H) as [Fc Sc]. split.
    + intros q Hq. rewrite Fc; [apply F1; exact Hq|]. intros c n s m Hi Hs. apply (Hq (c :: s) m). cbn [node_at]. rewrite (Hfc c n Hi). exact Hs.
    + intros _ Hig. exfalso. exact (Hig _ _ Erd).
  - destruct (Hch ch (length ch) w1 r w' Hself Hnd H) as [Fc Sc]. split.
    + intros q Hq. rewrite Fc; [apply F1; exact Hq|]. intros c n s m Hi Hs. apply (Hq (c :: s) m). cbn [node_at]. rewrite (Hfc c n Hi). exact Hs.
    + intros -> Hig Hd.
      assert (forall c n s m, In (c, n) ch -> node_at n s = Some m -> w1 (dst_path root (p ++ c :: s)) = w (dst_path root (p ++ c :: s))) as H1.
      { intros c n s m Hi Hs. apply (copy_entry_frame _ _ _ _ _ _ E1). rewrite Forall_forall in Hwf. pose proof (Hwf _ Hi) as [Hc Hn]. cbn [fst snd] in Hc, Hn.
        intros E. rewrite <- (app_nil_r p) in E at 2. apply dst_path_inj in E; [apply app_inv_head in E; discriminate E|..].
        - apply Forall_app. split; [exact Hp|]. constructor; [exact Hc|]. exact (node_at_proper _ Hn _ _ Hs).
        - rewrite app_nil_r. exact Hp. }
      assert (forall c n s m ch0, In (c, n) ch -> node_at n s = Some (SDir m ch0) ->
        w1 (dst_path root (p ++ c :: s)) = None \/ exists m0, w1 (dst_path root (p ++ c :: s)) = Some (DDir m0)) as Hd1.
      { intros c n s m ch0 Hi Hs. rewrite (H1 c n s _ Hi Hs). apply (Hd (c :: s) m ch0). cbn [node_at]. rewrite (Hfc c n Hi). exact Hs. }
      specialize (Sc eq_refl Hig (le_n _) Hd1).
      intros s m Hs. destruct s as [|c s].
      * injection Hs as <-. rewrite app_nil_r. rewrite Fc.
        -- apply copy_entry_ok; [exact E1|]. intros m ch0 E. injection E as <- <-. specialize (Hd [] md ch eq_refl). rewrite app_nil_r in Hd. exact Hd.
        -- intros c n s m Hi Hs E. rewrite Forall_forall in Hwf. pose proof (Hwf _ Hi) as [Hc Hn]. cbn [fst snd] in Hc, Hn.
           rewrite <- (app_nil_r p) in E at 1. apply dst_path_inj in E; [apply app_inv_head in E; discriminate E|..].
           ++ rewrite app_nil_r. exact Hp.
           ++ apply Forall_app. split; [exact Hp|]. constructor; [exact Hc|]. exact (node_at_proper _ Hn _ _ Hs).
      * cbn [node_at] in Hs. destruct (find_child c ch) as [n|] eqn:Ef; [|discriminate]. apply find_child_in in Ef.
        rewrite <- (H1 c n s m Ef Hs). apply (Sc c n s m Ef Hs).
Qed.

Lemma copy_all_frame e root n w r w' : wf_tree n -> copy_all e root n w = (r, w') ->
  forall q, (forall p m, node_at n p = Some m -> q <> dst_path root p) -> w' q = w q.
Proof. intros Hwf H. exact (proj1 (copy_tree_spec e root n [] w r w' Hwf (Forall_nil _) H)). Qed.

Lemma copy_all_ok e root n w w' : wf_tree n -> never_ignored e -> dirs_free root n w -> copy_all e root n w = (COk, w') ->
  forall p m, node_at n p = Some m -> copied e (w (dst_path root p)) m (w' (dst_path root p)).
Proof. intros Hwf Hig Hd H. exact (proj2 (copy_tree_spec e root n [] w COk w' Hwf (Forall_nil _) H) eq_refl Hig Hd). Qed.

(* ---- CopyPath ---- *)

Lemma src_stat_some src path n : clean path = path -> src_stat src path = Some n ->
  exists c, Forall proper c /\ path = walk_path c /\ node_at src c = Some n.
Proof.
  intros Hc. unfold src_stat. destruct (bytes_eqb path [dot]) eqn:Ed.
  - apply bytes_eqb_eq in Ed. subst. intros H. injection H as ->. exists []. split; [constructor|]. split; reflexivity.
  - destruct (is_local path && bytes_eqb (clean path) path) eqn:E; [|discriminate]. apply andb_true_iff in E. destruct E as [El _]. intros H.
    exists (split_sep path). apply is_local_comps in El. destruct El as (_ & Hr & Hp).
    assert (split_sep path = clean_comps false (split_sep path)) as Es.
    { rewrite <- Hc at 1. unfold clean. rewrite Hr. rewrite split_render by (apply clean_comps_normal, split_sepfree).
      destruct (clean_comps false (split_sep path)) eqn:E; [|reflexivity].
      exfalso. assert (path = [dot]) as E2 by (rewrite <- Hc; unfold clean; rewrite Hr, E; reflexivity).
      rewrite E2 in Ed. discriminate Ed. }
    split; [rewrite Es; exact Hp|]. split; [|exact H]. unfold walk_path. destruct (split_sep path) eqn:E2; [destruct (split_nonempty path E2)|].
    rewrite <- E2. symmetry. apply join_split.
Qed.

Lemma walk_path_clean c : Forall proper c -> walk_path c = render false c.
Proof. reflexivity. Qed.

Lemma dir_dst root c : rooted root = false -> Forall proper (root_elems root) -> Forall proper c ->
  dir (dst_path root c) = render false (removelast (root_elems root ++ c)).
Proof.
  intros Hr Hrc Hc. rewrite dst_path_render by exact Hc. rewrite Hr.
  assert (Forall proper (root_elems root ++ c)) as Hp by (apply Forall_app; auto).
  destruct (root_elems root ++ c) as [|x l] eqn:E using rev_ind; [reflexivity|].
  rewrite removelast_last. apply Forall_app in Hp. destruct Hp as [Hl Hx]. inversion Hx; subst. apply dir_child; [|assumption].
  exists 0, l. split; [reflexivity|]. split; [exact Hl|discriminate].
Qed.

Lemma heads_render l : Forall proper l -> l <> [] -> heads (render false l) = map (fun k => render false (firstn k l)) (seq 1 (length l)).
Proof.
  intros Hp Hn. assert (normal false l) as Hnl by (exists 0, l; split; [reflexivity|]; split; [exact Hp|discriminate]).
  unfold heads, comps_of, head_path, comps_of. rewrite (rooted_render false l Hnl), (comps_render false l Hnl).
  destruct l; [contradiction|]. reflexivity.
Qed.

Lemma is_dot_render l : Forall proper l -> is_dot (render false l) = true -> l = [].
Proof.
  intros Hp H. apply is_dot_true in H. destruct l as [|x l]; [reflexivity|]. exfalso.
  assert (normal false (x :: l)) as Hnl by (exists 0, (x :: l); split; [reflexivity|]; split; [exact Hp|discriminate]).
  pose proof (comps_render false _ Hnl) as Hcr. rewrite H in Hcr. discriminate Hcr.
Qed.

Lemma removelast_firstn' {A} (l : list A) : removelast l = firstn (length l - 1) l.
Proof.
  induction l as [|x l IH] using rev_ind; [reflexivity|]. rewrite removelast_last, app_length. cbn [length].
  replace (length l + 1 - 1) with (length l) by lia. rewrite firstn_app, firstn_all, Nat.sub_diag. cbn. rewrite app_nil_r. reflexivity.
Qed.

(* What gather_paths returns. *)
Lemma gather_spec e src root paths : rooted root = false -> Forall proper (root_elems root) -> forall ss ds,
  gather_paths e src root paths = Some (ss, ds) ->
  (forall path n, In (path, n) ss -> In path (map clean paths) /\ clean path = path /\ src_stat src path = Some n) /\
  (map fst ss = map clean paths) /\
  (forall d, In d ds -> exists c path n, In (path, n) ss /\ path = walk_path c /\ Forall proper c /\
     exists k, 1 <= k <= length (root_elems root ++ c) - 1 /\ d = render false (firstn k (root_elems root ++ c))) /\
  (forall c path n, In (path, n) ss -> path = walk_path c -> Forall proper c -> forall k, 1 <= k <= length (root_elems root ++ c) - 1 ->
     In (render false (firstn k (root_elems root ++ c))) ds).
Proof.
  intros Hr Hrc. induction paths as [|path paths IH]; intros ss ds H; cbn [gather_paths] in H.
  - injection H as <- <-. split; [intros ? ? []|]. split; [reflexivity|]. split; [intros ? []|intros ? ? ? []].
  - cbv zeta in H. destruct (ce_fails e CpStat (clean path)); [discriminate|].
    destruct (src_stat src (clean path)) as [n|] eqn:Es; [|discriminate].
    destruct (gather_paths e src root paths) as [[ss0 ds0]|] eqn:Eg.
    2: { destruct (if is_dot (dir (join2 root (clean path))) then Some [] else path_from_head [] (dir (join2 root (clean path)))); discriminate. }
    destruct (IH _ _ eq_refl) as (I1 & I2 & I3 & I4).
    destruct (src_stat_some src (clean path) n (clean_idem path) Es) as (c & Hc & Ec & Hn).
    assert (join2 root (clean path) = dst_path root c) as Ej by (rewrite Ec; reflexivity).
    rewrite Ej, (dir_dst root c Hr Hrc Hc) in H.
    set (full := root_elems root ++ c) in *.
    assert (Forall proper full) as Hfull by (apply Forall_app; auto).
    assert (Forall proper (removelast full)) as Hrl by (rewrite removelast_firstn'; apply Forall_firstn; exact Hfull).
    assert ((if is_dot (render false (removelast full)) then Some [] else path_from_head [] (render false (removelast full))) =
      Some (map (fun k => render false (firstn k full)) (seq 1 (length full - 1)))) as Eds.
    { destruct (is_dot (render false (removelast full))) eqn:Ed.
      - apply is_dot_render in Ed; [|exact Hrl]. assert (length full - 1 = 0) as ->; [|reflexivity].
        rewrite removelast_firstn' in Ed. apply (f_equal (@length _)) in Ed. rewrite firstn_length in Ed. cbn in Ed. lia.
      - rewrite path_from_head_spec. rewrite map_id. rewrite heads_render; [|exact Hrl|intros E; rewrite E in Ed; discriminate Ed].
        rewrite removelast_firstn'. rewrite firstn_length, Nat.min_l by lia. f_equal. apply map_ext_in. intros k Hk. apply in_seq in Hk.
        rewrite firstn_firstn, Nat.min_l by lia. reflexivity. }
    rewrite Eds in H. injection H as <- <-.
    split; [|split; [|split]].
    + intros p0 n0 [E|Hi]; [injection E as <- <-; split; [left; reflexivity|]; split; [apply clean_idem|exact Es]|].
      destruct (I1 _ _ Hi) as (A & B & C). split; [right; exact A|auto].
    + cbn [map fst]. rewrite I2. reflexivity.
    + intros d Hd. apply in_app_or in Hd. destruct Hd as [Hd|Hd].
      * apply in_map_iff in Hd. destruct Hd as (k & <- & Hk). apply in_seq in Hk. exists c, (clean path), n. split; [left; reflexivity|].
        split; [exact Ec|]. split; [exact Hc|]. exists k. fold full. split; [lia|reflexivity].
      * destruct (I3 d Hd) as (c0 & p0 & n0 & Hi & Hrest). exists c0, p0, n0. split; [right; exact Hi|exact Hrest].
    + intros c0 p0 n0 [E|Hi] Ep Hc0 k Hk.
      * injection E as <- <-. assert (c0 = c) as ->.
        { assert (render false c0 = render false c) as E2 by (change (walk_path c0 = walk_path c); congruence).
          apply (render_inj false) in E2; [exact E2|..]; (exists 0; eexists; split; [reflexivity|]; split; [assumption|discriminate]). }
        fold full in Hk |- *. apply in_or_app. left. apply in_map_iff. exists k. split; [reflexivity|]. apply in_seq. lia.
      * apply in_or_app. right. apply (I4 c0 p0 n0 Hi Ep Hc0 k Hk).
Qed.

Lemma insert_str_in x y l : In x (insert_str y l) <-> x = y \/ In x l.
Proof.
  induction l as [|z l IH]; cbn [insert_str]; [cbn; intuition|].
  destruct (bytes_eqb y z) eqn:E; [apply bytes_eqb_eq in E; subst; cbn; intuition|].
  destruct (str_ltb y z); cbn [In]; [intuition|]. rewrite IH. intuition.
Qed.

Lemma sorted_set_in x l : In x (sorted_set l) <-> In x l.
Proof. induction l as [|y l IH]; [reflexivity|]. cbn [sorted_set fold_right]. rewrite insert_str_in. fold (sorted_set l). rewrite IH. cbn. intuition. Qed.

Lemma make_dirs_frame e src root ds : forall w r w', make_dirs e src root ds w = (r, w') ->
  forall q, ~ In q ds -> w' q = w q.
Proof.
  induction ds as [|d ds IH]; intros w r w' H q Hq; cbn [make_dirs] in H; [injection H as <- <-; reflexivity|].
  assert (q <> d /\ ~ In q ds) as [Hd Hn] by (split; intros E; apply Hq; [left; congruence|right; exact E]).
  destruct (is_dot d); [apply (IH _ _ _ H _ Hn)|].
  destruct (d_mkdir e w d) as [r1 w1] eqn:E1. pose proof (mkdir_frame _ _ _ _ _ E1 q Hd) as F1.
  destruct r1; [|injection H as <- <-; exact F1].
  destruct (rel_path root d) as [rel|]; [|rewrite (IH _ _ _ H _ Hn); exact F1].
  destruct (is_dot rel); [rewrite (IH _ _ _ H _ Hn); exact F1|].
  destruct (src_stat src rel) as [n|]; [|injection H as <- <-; exact F1].
  destruct (d_chmod e w1 d (ce_mask e (smode n))) as [r2 w2] eqn:E2. pose proof (chmod_frame _ _ _ _ _ _ E2 q Hd) as F2.
  destruct r2; [rewrite (IH _ _ _ H _ Hn)|injection H as <- <-]; rewrite F2; exact F1.
Qed.

Definition free_ent (o : option dent) : Prop := o = None \/ exists m, o = Some (DDir m).

Lemma make_dirs_free e src root ds : forall w r w', make_dirs e src root ds w = (r, w') ->
  forall q, free_ent (w q) -> free_ent (w' q).
Proof.
  assert (forall w d r w1, d_mkdir e w d = (r, w1) -> forall q, free_ent (w q) -> free_ent (w1 q)) as Hmk.
  { intros w d r w1 H q Hq. unfold d_mkdir in H. destruct (ce_fails e CpMkdir d); [injection H as <- <-; exact Hq|].
    destruct (w d); [injection H as <- <-; exact Hq|]. destruct (is_dir_ent w (dir d)); injection H as <- <-; [|exact Hq].
    unfold name_set. destruct (bytes_eqb q d); [right; eexists; reflexivity|exact Hq]. }
  assert (forall w d m r w1, d_chmod e w d m = (r, w1) -> forall q, free_ent (w q) -> free_ent (w1 q)) as Hch.
  { intros w d m r w1 H q Hq. unfold d_chmod in H. destruct (ce_fails e CpChmod d); [injection H as <- <-; exact Hq|].
    destruct (w d) as [[m0|b m0|]|] eqn:E; injection H as <- <-; try exact Hq; unfold name_set;
      (destruct (bytes_eqb q d) eqn:Eq; [|exact Hq]); [right; eexists; reflexivity|].
    apply bytes_eqb_eq in Eq. subst q. rewrite E in Hq. destruct Hq as [Hq|(m1 & Hq)]; discriminate. }
  induction ds as [|d ds IH]; intros w r w' H q Hq; cbn [make_dirs] in H; [injection H as <- <-; exact Hq|].
  destruct (is_dot d); [apply (IH _ _ _ H _ Hq)|].
  destruct (d_mkdir e w d) as [r1 w1] eqn:E1. pose proof (Hmk _ _ _ _ E1 q Hq) as F1.
  destruct r1; [|injection H as <- <-; exact F1].
  destruct (rel_path root d) as [rel|]; [|exact (IH _ _ _ H _ F1)].
  destruct (is_dot rel); [exact (IH _ _ _ H _ F1)|].
  destruct (src_stat src rel) as [n|]; [|injection H as <- <-; exact F1].
  destruct (d_chmod e w1 d (ce_mask e (smode n))) as [r2 w2] eqn:E2. pose proof (Hch _ _ _ _ _ E2 q F1) as F2.
  destruct r2; [exact (IH _ _ _ H _ F2)|injection H as <- <-; exact F2].
Qed.

Lemma make_dirs_fails e src root ds d rel : In d ds -> is_dot d = false -> rel_path root d = Some rel -> is_dot rel = false ->
  src_stat src rel = None -> forall w, fst (make_dirs e src root ds w) = CErr.
Proof.
  intros Hin Hd Hrel Hdr Hs. induction ds as [|x ds IH]; [destruct Hin|]. intros w. cbn [make_dirs].
  destruct Hin as [->|Hin].
  - rewrite Hd. destruct (d_mkdir e w d) as [[|] w1]; [|reflexivity]. rewrite Hrel, Hdr, Hs. reflexivity.
  - specialize (IH Hin). destruct (is_dot x); [apply IH|]. destruct (d_mkdir e w x) as [[|] w1]; [|reflexivity].
    destruct (rel_path root x) as [rel'|]; [|apply IH]. destruct (is_dot rel'); [apply IH|].
    destruct (src_stat src rel') as [n|]; [|reflexivity]. destruct (d_chmod e w1 x (ce_mask e (smode n))) as [[|] w2]; [apply IH|reflexivity].
Qed.

Lemma copy_sources_frame e root ss : forall w r w', copy_sources e root ss w = (r, w') ->
  forall q, (forall path n, In (path, n) ss -> q <> join2 root path) -> w' q = w q.
Proof.
  induction ss as [|[path n] ss IH]; intros w r w' H q Hq; cbn [copy_sources] in H; [injection H as <- <-; reflexivity|].
  destruct (copy_entry e w (join2 root path) n) as [r1 w1] eqn:E1.
  pose proof (copy_entry_frame _ _ _ _ _ _ E1 q (Hq _ _ (or_introl eq_refl))) as F1.
  destruct r1; [|injection H as <- <-; exact F1].
  rewrite (IH _ _ _ H q) by (intros p0 n0 Hi; apply (Hq p0 n0); right; exact Hi). exact F1.
Qed.

Lemma copied_holds e old n new : copied e old n new -> holds e n new.
Proof.
  destruct n; cbn; [auto| |intros H E; rewrite E in H; exact H|auto]. intros ->. eexists; reflexivity.
Qed.

Lemma copy_sources_ok e root src ss : forall w w',
  (forall path n, In (path, n) ss -> clean path = path /\ src_stat src path = Some n) ->
  (forall path m ch, In (path, SDir m ch) ss -> free_ent (w (join2 root path))) ->
  copy_sources e root ss w = (COk, w') ->
  forall path n, In (path, n) ss -> holds e n (w' (join2 root path)).
Proof.
  induction ss as [|[path n] ss IH]; intros w w' Hs Hf H p0 n0 Hi; cbn [copy_sources] in H; [destruct Hi|].
  destruct (copy_entry e w (join2 root path) n) as [r1 w1] eqn:E1. destruct r1; [|discriminate].
  assert (copied e (w (join2 root path)) n (w1 (join2 root path))) as Hc.
  { apply copy_entry_ok; [exact E1|]. intros m ch ->. exact (Hf path m ch (or_introl eq_refl)). }
  assert (forall a b na nb, In (a, na) ((path, n) :: ss) -> In (b, nb) ((path, n) :: ss) -> join2 root a = join2 root b -> na = nb) as Huniq.
  { intros a b na nb Ha Hb E. destruct (Hs _ _ Ha) as [Ca Sa]. destruct (Hs _ _ Hb) as [Cb Sb].
    destruct (src_stat_some _ _ _ Ca Sa) as (ca & Pa & -> & _). destruct (src_stat_some _ _ _ Cb Sb) as (cb & Pb & -> & _).
    apply (dst_path_inj root ca cb Pa Pb) in E. subst. congruence. }
  destruct (in_dec (list_eq_dec N.eq_dec) (join2 root p0) (map (fun x => join2 root (fst x)) ss)) as [Hin|Hnin].
  - apply in_map_iff in Hin. destruct Hin as ([p1 n1] & Ej & Hi1). cbn [fst] in Ej.
    assert (n1 = n0) as -> by (apply (Huniq p1 p0 n1 n0 (or_intror Hi1) Hi Ej)).
    rewrite <- Ej. apply (IH w1 w' ) with (path := p1); [intros; apply Hs; right; assumption| |exact H|exact Hi1].
    intros p2 m2 ch2 Hi2. destruct (list_eq_dec N.eq_dec (join2 root p2) (join2 root path)) as [E|E].
    + assert (SDir m2 ch2 = n) as <- by (apply (Huniq p2 path _ _ (or_intror Hi2) (or_introl eq_refl) E)).
      cbn in Hc. rewrite E, Hc. right. eexists; reflexivity.
    + rewrite (copy_entry_frame _ _ _ _ _ _ E1 _ E). apply (Hf p2 m2 ch2). right. exact Hi2.
  - destruct Hi as [E|Hi]; [|exfalso; apply Hnin; apply in_map_iff; exists (p0, n0); auto].
    injection E as <- <-. rewrite (copy_sources_frame _ _ _ _ _ _ H).
    + apply copied_holds with (1 := Hc).
    + intros p1 n1 Hi1 E. apply Hnin. apply in_map_iff. exists (p1, n1). auto.
Qed.

Lemma root_facts root : is_local root = true -> rooted (clean root) = false /\ Forall proper (root_elems (clean root)) /\ root_elems (clean root) = root_elems root.
Proof.
  intros H. apply is_local_comps in H. destruct H as (_ & Hr & Hp). rewrite rooted_clean. split; [exact Hr|].
  assert (root_elems (clean root) = root_elems root) as E.
  { unfold root_elems. rewrite rooted_clean. unfold clean. apply comps_render. apply clean_normal. }
  split; [|exact E]. rewrite E. unfold root_elems. rewrite Hr. exact Hp.
Qed.

Lemma copy_path_frame e src root paths w r w' : is_local root = true -> copy_path e src root paths w = (r, w') ->
  forall q, (forall path c, In path paths -> clean path = walk_path c -> Forall proper c -> ~ at_or_above root c q /\ q <> dst_path root c) -> w' q = w q.
Proof.
  intros Hl H q Hq. destruct (root_facts root Hl) as (Hr & Hrc & Ere). unfold copy_path in H. cbv zeta in H. rewrite Hr in H.
  destruct (gather_paths e src (clean root) paths) as [[ss ds]|] eqn:Eg; [|injection H as <- <-; reflexivity].
  destruct (gather_spec e src (clean root) paths Hr Hrc _ _ Eg) as (G1 & G2 & G3 & G4).
  assert (forall path n, In (path, n) ss -> exists p0 c, In p0 paths /\ clean p0 = walk_path c /\ Forall proper c /\ path = walk_path c) as Hss.
  { intros path n Hi. destruct (G1 _ _ Hi) as (A & B & C). apply in_map_iff in A. destruct A as (p0 & E & Hi0).
    destruct (src_stat_some _ _ _ B C) as (c & Hc & E2 & _). exists p0, c. split; [exact Hi0|]. split; [congruence|]. auto. }
  assert (~ In q (sorted_set ds)) as Hnd.
  { intros Hi. apply (proj1 (sorted_set_in q ds)) in Hi. destruct (G3 q Hi) as (c & path & n & Hi2 & Ep & Hc & k & Hk & Eq).
    destruct (Hss _ _ Hi2) as (p0 & c0 & Hi0 & E0 & Hc0 & E1).
    destruct (Hq p0 c Hi0) as [Ha _]; [congruence|exact Hc|]. apply Ha. exists k. split; [lia|]. rewrite <- Ere. exact Eq. }
  destruct (make_dirs e src (clean root) (sorted_set ds) w) as [r1 w1] eqn:E1.
  pose proof (make_dirs_frame _ _ _ _ _ _ _ E1 q Hnd) as F1.
  destruct r1; [|injection H as <- <-; exact F1].
  rewrite (copy_sources_frame _ _ _ _ _ _ H q); [exact F1|]. intros path n Hi E.
  destruct (Hss _ _ Hi) as (p0 & c0 & Hi0 & E0 & Hc0 & E2). destruct (Hq p0 c0 Hi0 E0 Hc0) as [_ Hb]. apply Hb.
  rewrite E, E2. change (dst_path (clean root) c0 = dst_path root c0). rewrite !dst_path_render by exact Hc0. rewrite Ere, rooted_clean. reflexivity.
Qed.

Lemma copy_path_ok e src root paths w w' : is_local root = true -> copy_path e src root paths w = (COk, w') ->
  (forall path c m ch, In path paths -> clean path = walk_path c -> Forall proper c -> node_at src c = Some (SDir m ch) ->
     w (dst_path root c) = None \/ exists m0, w (dst_path root c) = Some (DDir m0)) ->
  forall path, In path paths -> exists c n, Forall proper c /\ clean path = walk_path c /\ node_at src c = Some n /\ holds e n (w' (dst_path root c)).
Proof.
  intros Hl H Hd path Hi. destruct (root_facts root Hl) as (Hr & Hrc & Ere). unfold copy_path in H. cbv zeta in H. rewrite Hr in H.
  destruct (gather_paths e src (clean root) paths) as [[ss ds]|] eqn:Eg; [|discriminate].
  destruct (gather_spec e src (clean root) paths Hr Hrc _ _ Eg) as (G1 & G2 & _ & _).
  destruct (make_dirs e src (clean root) (sorted_set ds) w) as [r1 w1] eqn:E1. destruct r1; [|discriminate].
  assert (In (clean path) (map fst ss)) as Hi1 by (rewrite G2; apply in_map; exact Hi).
  apply in_map_iff in Hi1. destruct Hi1 as ([p1 n] & E & Hi1). cbn [fst] in E. subst p1.
  destruct (G1 _ _ Hi1) as (_ & B & C). destruct (src_stat_some _ _ _ B C) as (c & Hc & E2 & Hn).
  exists c, n. split; [exact Hc|]. split; [exact E2|]. split; [exact Hn|].
  assert (forall c, Forall proper c -> dst_path root c = dst_path (clean root) c) as Edp.
  { intros c0 Hc0. rewrite !dst_path_render by exact Hc0. rewrite Ere, rooted_clean. reflexivity. }
  rewrite (Edp c Hc). unfold dst_path. rewrite <- E2.
  apply (copy_sources_ok e (clean root) src ss w1 w'); [intros p0 n0 Hi0; apply (G1 _ _ Hi0)| |exact H|exact Hi1].
  intros p0 m ch Hi0. apply (make_dirs_free _ _ _ _ _ _ _ E1).
  destruct (G1 _ _ Hi0) as (A0 & B0 & C0). destruct (src_stat_some _ _ _ B0 C0) as (c0 & Hc0 & E0 & Hn0).
  apply in_map_iff in A0. destruct A0 as (p2 & Ep2 & Hi2).
  rewrite E0. change (free_ent (w (dst_path (clean root) c0))). rewrite <- (Edp c0 Hc0). apply (Hd p2 c0 m ch Hi2); [congruence|exact Hc0|exact Hn0].
Qed.

Lemma drop_common_nil x l : drop_common (x :: l) [x] = (l, []).
Proof.
  cbn [drop_common]. assert (bytes_eqb x x = true) as -> by (apply bytes_eqb_eq; reflexivity). destruct l; reflexivity.
Qed.

Lemma ups_not_local k : is_local (join_sep (repeat [dot; dot] (S k))) = false.
Proof.
  unfold is_local. rewrite split_join; [|discriminate|].
  - rewrite clean_comps_fix; [cbn [repeat is_dotdot bytes_eqb]; apply andb_false_r|].
    exists (S k), []. rewrite app_nil_r. split; [reflexivity|]. split; [constructor|discriminate].
  - apply Forall_forall. intros x Hx. apply repeat_spec in Hx. subst. apply dotdot_sepfree.
Qed.

(* A destination root of two or more elements cannot be used. *)
Lemma copy_path_nested_root e src root paths w : is_local root = true -> 2 <= length (root_elems root) -> paths <> [] ->
  fst (copy_path e src root paths w) = CErr.
Proof.
  intros Hl Hlen Hp. destruct (root_facts root Hl) as (Hr & Hrc & Ere). unfold copy_path. cbv zeta. rewrite Hr.
  destruct (gather_paths e src (clean root) paths) as [[ss ds]|] eqn:Eg; [|reflexivity].
  destruct (gather_spec e src (clean root) paths Hr Hrc _ _ Eg) as (G1 & G2 & _ & G4).
  destruct ss as [|[path n] ss]; [destruct paths; [contradiction|discriminate G2]|].
  destruct (G1 path n (or_introl eq_refl)) as (_ & B & C). destruct (src_stat_some _ _ _ B C) as (c & Hc & E2 & Hn).
  rewrite <- Ere in Hlen. destruct (root_elems (clean root)) as [|x [|y l]] eqn:Erc; [cbn in Hlen; lia|cbn in Hlen; lia|].
  assert (In (render false [x]) ds) as Hin.
  { change [x] with (firstn 1 ((x :: y :: l) ++ c)). apply (G4 c path n (or_introl eq_refl) E2 Hc 1). cbn [app length]. lia. }
  inversion Hrc as [|? ? Hx Hrc']; subst.
  assert (fst (make_dirs e src (clean root) (sorted_set ds) w) = CErr) as Hf.
  { apply (make_dirs_fails e src (clean root) (sorted_set ds) (render false [x]) (join_sep (repeat [dot; dot] (S (length l))))).
    - apply sorted_set_in. exact Hin.
    - destruct (is_dot (render false [x])) eqn:Ed; [|reflexivity]. apply is_dot_render in Ed; [discriminate|]. constructor; [exact Hx|constructor].
    - unfold rel_path, rel_comps. assert (elems (clean root) = x :: y :: l) as ->.
      { unfold elems. assert (clean root = render false (x :: y :: l)) as Ecr.
        { rewrite Ere. unfold clean, root_elems. apply is_local_comps in Hl. destruct Hl as (_ & Hrr & _). rewrite Hrr. reflexivity. }
        rewrite Ecr. destruct (is_dot (render false (x :: y :: l))) eqn:Ed; [apply is_dot_render in Ed; [discriminate|constructor; assumption]|].
        rewrite split_render; [reflexivity|]. exists 0, (x :: y :: l). split; [reflexivity|]. split; [constructor; assumption|discriminate]. }
      assert (elems (render false [x]) = [x]) as ->.
      { unfold elems. destruct (is_dot (render false [x])) eqn:Ed; [apply is_dot_render in Ed; [discriminate|constructor; [exact Hx|constructor]]|].
        cbn [render join_sep]. apply split_sep_free. apply Hx. }
      rewrite drop_common_nil. assert (existsb is_dotdot (y :: l) = false) as ->.
      { destruct (existsb is_dotdot (y :: l)) eqn:Ex; [|reflexivity]. apply existsb_exists in Ex. destruct Ex as (z & Hz & Ez).
        rewrite Forall_forall in Hrc'. destruct (proper_tests z (Hrc' z Hz)) as (_ & _ & E3). congruence. }
      cbn [option_map]. rewrite app_nil_r. reflexivity.
    - reflexivity || (destruct l; reflexivity).
    - unfold src_stat. rewrite ups_not_local. destruct (bytes_eqb (join_sep (repeat [dot; dot] (S (length l)))) [dot]) eqn:Eb; [|reflexivity].
      apply bytes_eqb_eq in Eb. destruct l; discriminate Eb. }
  destruct (make_dirs e src (clean root) (sorted_set ds) w) as [r1 w1]. cbn [fst] in Hf. subst r1. reflexivity.
Qed.

Lemma render_local l : Forall proper l -> is_local (render false l) = true.
Proof.
  intros Hp. apply is_local_comps. assert (normal false l) as Hn by (exists 0, l; split; [reflexivity|]; split; [exact Hp|discriminate]).
  split; [|split].
  - intros E. destruct l as [|x l]; [discriminate|]. pose proof (comps_render false _ Hn) as Hcr. rewrite E in Hcr. discriminate.
  - apply (rooted_render false l Hn).
  - pose proof (comps_render false l Hn) as Hcr. rewrite Hcr. exact Hp.
Qed.

Lemma dst_local root c q : is_local root = true -> Forall proper c -> at_or_above root c q \/ q = dst_path root c -> is_local q = true.
Proof.
  intros Hl Hc H. destruct (root_facts root Hl) as (Hr & Hrc & Ere). rewrite Ere in Hrc. rewrite rooted_clean in Hr.
  assert (Forall proper (root_elems root ++ c)) as Hp by (apply Forall_app; auto).
  destruct H as [(k & _ & ->)| ->]; [apply render_local, Forall_firstn, Hp|]. rewrite dst_path_render by exact Hc. rewrite Hr. apply render_local, Hp.
Qed.

Lemma letter_proper c : (97 <= c)%N -> proper [c].
Proof.
  intros Hc. split; [discriminate|]. split; [intros E; injection E as ->; vm_compute in Hc; apply Hc; reflexivity|]. split; [discriminate|].
  intros [E|[]]. subst. vm_compute in Hc. apply Hc; reflexivity.
Qed.
