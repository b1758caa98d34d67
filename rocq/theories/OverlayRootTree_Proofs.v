(* Where the top's file system takes the names the overlay's entry points hand it. *)
From Verif Require Import Common CommonLemmas ContentRange_Model ContentRange_Proofs PathLex_Model PathLex_Proofs
  Resolve_Model Resolve_Spec Resolve_Proofs Resolve_Kernel OverlayRoot_Model OverlayRoot_Spec OverlayRoot_Proofs.
From Verif Require Masks_Model.
Open Scope nat_scope.

Lemma clear_firstn t l k : clear t l -> clear t (firstn k l).
Proof. intros H j tgt. rewrite firstn_firstn. apply H. Qed.
Lemma clear_removelast t l : clear t l -> clear t (removelast l).
Proof. intros H. rewrite removelast_firstn_len. apply clear_firstn. exact H. Qed.

Lemma shown_not_link k : (shown k = MDir \/ shown k = MFile) -> forall tgt, k <> KLink tgt.
Proof. intros H tgt ->. cbn in H. destruct H; discriminate. Qed.

Lemma clear_solid t m b : shows_top t m -> Forall proper b -> clear t b ->
  forall l, Forall proper l -> solid m b l -> clear t (b ++ l).
Proof.
  intros Hs Hb Hc l. induction l as [|c l IH] using rev_ind; intros Hl Hsol; [rewrite app_nil_r; exact Hc|].
  apply Forall_app in Hl. destruct Hl as [Hl Hcp]. inversion Hcp as [|? ? Hc1 _]; subst.
  assert (clear t (b ++ l)) as Hbl.
  { apply IH; [exact Hl|]. intros k Hk. specialize (Hsol k). rewrite app_length in Hsol. cbn [length] in Hsol.
    rewrite firstn_app in Hsol. replace (k - length l) with 0 in Hsol by lia. cbn [firstn] in Hsol. rewrite app_nil_r in Hsol. apply Hsol. lia. }
  intros k tgt. rewrite app_assoc. destruct (Nat.le_gt_cases k (length (b ++ l))) as [Hk|Hk].
  - rewrite firstn_app. replace (k - length (b ++ l)) with 0 by lia. cbn [firstn]. rewrite app_nil_r. apply Hbl.
  - rewrite firstn_all2 by (rewrite !app_length in *; cbn [length]; lia). intros Ht.
    destruct (Hs ((b ++ l) ++ [c]) (KLink tgt)) as [E|(x & _ & E)]; [| | exact Ht | |].
    + apply Forall_app. split; [apply Forall_app; split; assumption|exact Hcp].
    + rewrite removelast_app by discriminate. cbn [removelast]. rewrite app_nil_r. exact Hbl.
    + specialize (Hsol (length (l ++ [c]))). rewrite firstn_all in Hsol. rewrite <- app_assoc in E.
      destruct Hsol as [E2|E2]; [rewrite app_length; cbn; lia| |]; rewrite E in E2; discriminate.
    + specialize (Hsol (length (l ++ [c]))). rewrite firstn_all in Hsol. rewrite <- app_assoc in E.
      destruct Hsol as [E2|E2]; [rewrite app_length; cbn; lia| |]; rewrite E in E2; discriminate.
Qed.

(* The last element is no link where the view shows something else, or nothing. *)
Lemma clear_snoc t m l : shows_top t m -> Forall proper l -> clear t (removelast l) ->
  (forall tgt, m (join_sep l) <> MLink tgt) -> (m (join_sep l) = MDir \/ m (join_sep l) = MFile \/ m (join_sep l) = MErr enoent) -> clear t l.
Proof.
  intros Hs Hl Hc Hn Hk k tgt. destruct (Nat.lt_ge_cases k (length l)) as [H|H].
  - specialize (Hc k tgt). rewrite removelast_firstn_len, firstn_firstn in Hc. replace (Nat.min k (pred (length l))) with k in Hc by lia. exact Hc.
  - rewrite firstn_all2 by exact H. intros Ht. destruct (Hs l (KLink tgt) Hl Hc Ht) as [E|(x & Hx & E)].
    + exact (Hn _ E).
    + rewrite E in Hk. destruct Hk as [Hk|[Hk|Hk]]; congruence.
Qed.

(* A walk that meets no link ends where it says. *)
Lemma kw_plain t fl : forall rest d n r, Forall proper rest ->
  (forall k tgt, 1 <= k <= length rest -> (fl = false -> k < length rest) -> t (d ++ firstn k rest) <> Some (KLink tgt)) ->
  kw t fl d rest n r -> n = 0 /\ r = d ++ rest.
Proof.
  induction rest as [|c rest IH]; intros d n r Hp Hn H.
  - inversion H; subst. rewrite app_nil_r. auto.
  - inversion Hp as [|? ? Hc Hr]; subst. inversion H; subst.
    + destruct (proper_not_dot _ Hc eq_refl).
    + destruct (proper_not_up _ Hc eq_refl).
    + destruct (IH (d ++ [c]) n r Hr) as [-> ->]; [|assumption|rewrite <- app_assoc; auto].
      intros k tgt Hk Hf. rewrite <- app_assoc. cbn [app]. apply (Hn (S k) tgt); cbn [length]; [lia|]. intros E. specialize (Hf E). lia.
    + auto.
    + auto.
    + exfalso. match goal with H0 : t (d ++ [c]) = Some (KLink ?x) |- _ => apply (Hn 1 x) in H0; [exact H0| |] end.
      * cbn [length]. lia.
      * intros ->. cbn [length]. destruct rest; [|cbn [length]; lia].
        match goal with H0 : _ \/ _ |- _ => destruct H0 as [H0|H0]; [contradiction H0; reflexivity|discriminate H0] end.
Qed.

Lemma kc_plain t : forall rest d r, Forall proper rest ->
  (forall k tgt, 1 <= k <= length rest -> t (d ++ firstn k rest) <> Some (KLink tgt)) -> kc t d rest r -> r = d ++ rest.
Proof.
  induction rest as [|c rest IH]; intros d r Hp Hn H; [inversion H|].
  inversion Hp as [|? ? Hc Hr]; subst. inversion H; subst.
  - reflexivity.
  - reflexivity.
  - destruct (proper_not_dot _ Hc eq_refl).
  - destruct (proper_not_up _ Hc eq_refl).
  - rewrite (IH (d ++ [c]) r Hr); [rewrite <- app_assoc; reflexivity| |assumption].
    intros k tgt Hk. rewrite <- app_assoc. cbn [app]. apply (Hn (S k) tgt). cbn [length]. lia.
  - exfalso. match goal with H0 : t (d ++ [c]) = Some (KLink ?x) |- _ => apply (Hn 1 x) in H0; [exact H0|] end. cbn [length]. lia.
Qed.

Lemma content_proper : proper [109; 101; 114; 103; 101; 100]%N.
Proof. split; [discriminate|split; [discriminate|split; [discriminate|intros H; cbn in H; repeat (destruct H as [H|H]; [discriminate H|]); exact H]]]. Qed.

Lemma clear_prefix t l k tgt : clear t l -> 1 <= k -> t ([] ++ firstn k (at_top l)) <> Some (KLink tgt).
Proof. intros H Hk. destruct k as [|k]; [lia|]. cbn [app firstn at_top]. exact (H k tgt). Qed.

Lemma at_top_proper l : Forall proper l -> Forall proper (at_top l).
Proof. intros H. constructor; [apply content_proper|exact H]. Qed.

Lemma kw_clear t l fl n r : Forall proper l -> clear t l -> kw t fl [] (at_top l) n r -> n = 0 /\ r = at_top l.
Proof.
  intros Hp Hc H. exact (kw_plain t fl (at_top l) [] n r (at_top_proper l Hp) (fun k tgt Hk _ => clear_prefix t l k tgt Hc (proj1 Hk)) H).
Qed.

Lemma kw_clear_last t l n r : Forall proper l -> l <> [] -> clear t (removelast l) -> kw t false [] (at_top l) n r -> n = 0 /\ r = at_top l.
Proof.
  intros Hp Hne Hc H. apply (kw_plain t false (at_top l) [] n r (at_top_proper l Hp)); [|exact H].
  intros k tgt Hk Hf. specialize (Hf eq_refl). unfold at_top in Hf. cbn [length] in Hf. destruct k as [|k]; [lia|]. cbn [app firstn at_top].
  specialize (Hc k tgt). rewrite removelast_firstn_len, firstn_firstn in Hc. replace (Nat.min k (pred (length l))) with k in Hc by lia. exact Hc.
Qed.

Lemma kc_clear t l r : Forall proper l -> clear t l -> kc t [] (at_top l) r -> r = at_top l.
Proof.
  intros Hp Hc H. exact (kc_plain t (at_top l) [] r (at_top_proper l Hp) (fun k tgt Hk => clear_prefix t l k tgt Hc (proj1 Hk)) H).
Qed.

Lemma top_path_join l : Forall proper l -> top_path (join_sep l) = at_top l.
Proof.
  intros H. unfold top_path, at_top, content. f_equal. destruct l as [|c l]; [reflexivity|].
  destruct (join_sep (c :: l)) as [|x y] eqn:E; [apply join_nil_iff in E; [discriminate|exact H]|]. rewrite <- E.
  apply split_join; [discriminate|apply proper_sepfree; exact H].
Qed.

(* ---- the calls that end at the name they resolved ---- *)
Lemma resolve_lands t m b name full : shows_top t m -> Forall proper b -> clear t b ->
  ov_resolve (join_sep b) m name false = NOk full ->
  exists l, Forall proper l /\ full = join_sep (b ++ l) /\ clear t (b ++ l).
Proof.
  intros Hs Hb Hc H. destruct (ov_resolve_spec b m name false full Hb H) as (l & Hl & -> & Hsol & _).
  exists l. split; [exact Hl|]. split; [reflexivity|]. apply (clear_solid t m b); assumption.
Qed.

Lemma removelast_app_r {A} (b l : list A) : l <> [] -> removelast (b ++ l) = b ++ removelast l.
Proof. apply removelast_app. Qed.

Lemma resolve_lands_last t m b name full : shows_top t m -> Forall proper b -> clear t b ->
  ov_resolve (join_sep b) m name true = NOk full ->
  exists l, Forall proper l /\ full = join_sep (b ++ l) /\ clear t (b ++ removelast l) /\ (l = [] -> clean name = [dot]).
Proof.
  intros Hs Hb Hc H. destruct (ov_resolve_spec b m name true full Hb H) as (l & Hl & -> & Hsol & Hne).
  exists l. split; [exact Hl|]. split; [reflexivity|]. split.
  - apply (clear_solid t m b); try assumption. destruct l as [|c l]; [constructor|].
    rewrite (app_removelast_last [] (l := c :: l)) in Hl by discriminate. apply Forall_app in Hl. apply Hl.
  - intros E. destruct (bytes_eqb (clean name) [dot]) eqn:Ed; [apply bytes_eqb_eq; exact Ed|].
    exfalso. apply (Hne eq_refl); [|exact E]. intros Ec. rewrite Ec in Ed. discriminate.
Qed.

Lemma last_lands t m b name full : shows_top t m -> Forall proper b -> clear t b ->
  ov_resolve (join_sep b) m name true = NOk full -> forall n r, kw t false [] (top_path full) n r ->
  n = 0 /\ exists l, Forall proper l /\ full = join_sep (b ++ l) /\ r = at_top (b ++ l).
Proof.
  intros Hs Hb Hc H n r Hk. destruct (resolve_lands_last t m b name full Hs Hb Hc H) as (l & Hl & -> & Hcl & Hd).
  assert (Forall proper (b ++ l)) as Hbl by (apply Forall_app; split; assumption).
  rewrite top_path_join in Hk by exact Hbl.
  assert (n = 0 /\ r = at_top (b ++ l)) as [-> ->].
  { destruct l as [|c l].
    - rewrite app_nil_r in *. exact (kw_clear t b false n r Hb Hc Hk).
    - apply (kw_clear_last t (b ++ c :: l)); [exact Hbl|destruct b; discriminate| |exact Hk].
      rewrite removelast_app by discriminate. exact Hcl. }
  split; [reflexivity|]. exists l. auto.
Qed.

Lemma calls_land t m b q full : shows_top t m -> Forall proper b -> clear t b -> plain_call q ->
  In (NOk full) (names_of (join_sep b) m q) -> forall n r, kw t (follows_last q) [] (top_path full) n r ->
  n = 0 /\ exists l, Forall proper l /\ full = join_sep (b ++ l) /\ r = at_top (b ++ l).
Proof.
  intros Hs Hb Hc Hq Hin n r Hk.
  assert (forall name skip, ov_resolve (join_sep b) m name skip = NOk full -> follows_last q = negb skip ->
    n = 0 /\ exists l, Forall proper l /\ full = join_sep (b ++ l) /\ r = at_top (b ++ l)) as Hgo.
  { intros name skip H Hf. rewrite Hf in Hk. destruct skip; cbn [negb] in Hk; [exact (last_lands t m b name full Hs Hb Hc H n r Hk)|].
    destruct (resolve_lands t m b name full Hs Hb Hc H) as (l & Hl & -> & Hcl).
    assert (Forall proper (b ++ l)) as Hbl by (apply Forall_app; split; assumption).
    rewrite top_path_join in Hk by exact Hbl. destruct (kw_clear t (b ++ l) true n r Hbl Hcl Hk) as [-> ->].
    split; [reflexivity|]. exists l. auto. }
  assert (forall name, structural (join_sep b) m name = NOk full -> ov_resolve (join_sep b) m name true = NOk full) as Hst.
  { intros name. unfold structural. destruct (names_self name); [discriminate|]. destruct (ov_resolve (join_sep b) m name true) as [[|x y]| |]; try discriminate. auto. }
  assert (forall name skip, locate (join_sep b) m name skip = NOk full -> ov_resolve (join_sep b) m name skip = NOk full) as Hlo.
  { intros name skip. unfold locate. destruct (ov_resolve (join_sep b) m name skip) as [x| |]; try discriminate. destruct (m x); try discriminate; auto. }
  destruct q; cbn [names_of In plain_call] in *; try contradiction;
    repeat (destruct Hin as [Hin|Hin]; [first [ eapply Hgo; [exact Hin|reflexivity] | eapply Hgo; [apply Hlo; exact Hin|reflexivity]
                                              | eapply Hgo; [apply Hst; exact Hin|reflexivity] ]|]); destruct Hin.
Qed.

Lemma open_write_lands t m b name cr ex full fresh : shows_top t m -> Forall proper b -> clear t b ->
  open_write (join_sep b) m name cr ex = WOpen full fresh -> (forall tgt, m full <> MLink tgt) ->
  exists l, Forall proper l /\ full = join_sep (b ++ l) /\ clear t (b ++ l).
Proof.
  intros Hs Hb Hc H Hn. unfold open_write in H. destruct (write_name (join_sep b) m name cr) as [f|e|] eqn:Ew; try discriminate.
  assert (f = full /\ (m full = MDir \/ m full = MFile \/ m full = MErr enoent)) as [-> Hk].
  { destruct (m f) as [c| | |tgt] eqn:Em; try discriminate.
    - destruct (Nat.eqb_spec c enoent) as [->|]; cbn [negb] in H; [|discriminate]. destruct (negb cr); [discriminate|].
      destruct (m (parent_name f)); try discriminate. injection H as <- _. auto.
    - destruct (cr && ex); [discriminate|]. injection H as <- _. auto.
    - destruct (cr && ex); [discriminate|]. injection H as <- _. exfalso. exact (Hn _ Em). }
  unfold write_name in Ew. destruct (ov_resolve (join_sep b) m name false) as [f|e|] eqn:Er; try discriminate.
  - injection Ew as ->. exact (resolve_lands t m b name full Hs Hb Hc Er).
  - destruct (cr && not_exist e); [|discriminate].
    destruct (resolve_lands_last t m b name full Hs Hb Hc Ew) as (l & Hl & -> & Hcl & _). exists l. split; [exact Hl|]. split; [reflexivity|].
    assert (Forall proper (b ++ l)) as Hbl by (apply Forall_app; split; assumption).
    destruct l as [|c l]; [rewrite app_nil_r; exact Hc|].
    apply (clear_snoc t m); [exact Hs|exact Hbl| |exact Hn|exact Hk]. rewrite removelast_app by discriminate. exact Hcl.
Qed.

Lemma open_write_ends t m b name cr ex full fresh : shows_top t m -> Forall proper b -> clear t b ->
  open_write (join_sep b) m name cr ex = WOpen full fresh -> (forall tgt, m full <> MLink tgt) ->
  exists l, Forall proper l /\ full = join_sep (b ++ l) /\ (forall r, kc t [] (top_path full) r -> r = at_top (b ++ l)) /\
    (forall n r, kw t true [] (top_path full) n r -> n = 0 /\ r = at_top (b ++ l)).
Proof.
  intros Hs Hb Hc H Hn. destruct (open_write_lands t m b name cr ex full fresh Hs Hb Hc H Hn) as (l & Hl & -> & Hcl).
  exists l. split; [exact Hl|]. split; [reflexivity|].
  assert (Forall proper (b ++ l)) as Hbl by (apply Forall_app; split; assumption). rewrite top_path_join by exact Hbl.
  split; [intros r; exact (kc_clear t (b ++ l) r Hbl Hcl)|]. intros n r. exact (kw_clear t (b ++ l) true n r Hbl Hcl).
Qed.

(* A symlink is opened only by a create that does not insist on making the file. *)
Lemma open_write_link m b name cr ex full fresh tgt : Forall proper b ->
  open_write (join_sep b) m name cr ex = WOpen full fresh -> m full = MLink tgt -> m (join_sep b) <> MLink tgt ->
  cr = true /\ ex = false /\ exists e, ov_resolve (join_sep b) m name false = NErr e /\ not_exist e = true.
Proof.
  intros Hb H Hm Hbase. unfold open_write in H. destruct (write_name (join_sep b) m name cr) as [f|e|] eqn:Ew; try discriminate.
  assert (f = full) as ->.
  { destruct (m f) as [c| | |tgt']; try discriminate.
    - destruct (negb (c =? enoent)); [discriminate|]. destruct (negb cr); [discriminate|]. destruct (m (parent_name f)); try discriminate. congruence.
    - destruct (cr && ex); [discriminate|]. congruence.
    - destruct (cr && ex); [discriminate|]. congruence. }
  rewrite Hm in H. unfold write_name in Ew. destruct (ov_resolve (join_sep b) m name false) as [f|e|] eqn:Er; try discriminate.
  - exfalso. injection Ew as ->. destruct (ov_resolve_spec b m name false full Hb Er) as (l & Hl & -> & Hsol & _).
    destruct l as [|c l]; [rewrite app_nil_r in Hm; contradiction|].
    specialize (Hsol (length (c :: l)) ltac:(cbn; lia)). rewrite firstn_all in Hsol. destruct Hsol as [E|E]; rewrite E in Hm; discriminate.
  - destruct (cr && not_exist e) eqn:E; [|discriminate]. apply andb_true_iff in E. destruct E as [-> E].
    destruct ex; [discriminate|]. split; [reflexivity|]. split; [reflexivity|]. exists e. auto.
Qed.

(* ---- MkdirAll ---- *)
(* What the loop would make of a view that stands still. *)
Fixpoint to_make (m : merged) (names : list (list byte)) : list (list byte) * option rerr :=
  match names with
  | [] => ([], None)
  | n :: r =>
      match m n with
      | MDir => to_make m r
      | MErr c => if Nat.eqb c enoent then (names, None) else ([], Some (ErrSys c))
      | _ => ([], Some (ErrSys enotdir))
      end
  end.
Definition under_name (n x : list byte) : Prop := exists y, x = n ++ sep :: y.
Fixpoint chain (names : list (list byte)) : Prop := match names with [] => True | n :: r => Forall (under_name n) r /\ chain r end.

Lemma made_dir_below n m x : under_name n x -> made_dir n m x = MErr enoent.
Proof.
  intros (y & ->). unfold made_dir. destruct (bytes_eqb (n ++ sep :: y) n) eqn:E.
  - apply bytes_eqb_eq in E. apply (f_equal (@length _)) in E. rewrite app_length in E. cbn [length] in E. lia.
  - replace (firstn (S (length n)) (n ++ sep :: y)) with (n ++ [sep]).
    + replace (bytes_eqb (n ++ [sep]) (n ++ [sep])) with true by (symmetry; apply bytes_eqb_eq; reflexivity). reflexivity.
    + replace (n ++ sep :: y) with ((n ++ [sep]) ++ y) by (rewrite <- app_assoc; reflexivity). rewrite firstn_app, firstn_all2 by (rewrite app_length; cbn; lia).
      rewrite app_length. cbn [length]. replace (S (length n) - (length n + 1)) with 0 by lia. cbn [firstn]. rewrite app_nil_r. reflexivity.
Qed.

Lemma mk_loop_made m names : forall fails made e, chain names -> mk_loop m fails names = (made, e) ->
  exists rest, fst (to_make m names) = made ++ rest /\
    match e with
    | None => rest = [] /\ snd (to_make m names) = None
    | Some x => (made = [] /\ rest = [] /\ snd (to_make m names) = Some x) \/ (rest <> [] /\ snd (to_make m names) = None /\ nth_error fails (length made) = Some (Some x))
    end.
Proof.
  revert m. induction names as [|n r IH]; intros m fails made e Hch H; cbn [mk_loop to_make] in *.
  - injection H as <- <-. exists []. auto.
  - destruct Hch as [Hu Hch]. destruct (m n) as [c| | |tgt] eqn:Em.
    + destruct (Nat.eqb c enoent).
      * destruct fails as [|[x|] fails]; cbn [hd tl] in H.
        -- destruct (mk_loop (made_dir n m) [] r) as [mk e'] eqn:El. injection H as <- <-.
           destruct (IH _ _ _ _ Hch El) as (rest & H1 & H2). cbn [fst snd].
           assert (to_make (made_dir n m) r = (r, None)) as Er.
           { destruct r as [|y r]; [reflexivity|]. cbn [to_make]. inversion Hu; subst. rewrite made_dir_below by assumption. reflexivity. }
           rewrite Er in H1, H2. cbn [fst snd] in H1, H2. exists rest. split; [rewrite H1; reflexivity|]. destruct e' as [x|].
           ++ destruct H2 as [(_ & _ & E)|(_ & _ & E)]; [discriminate|]. destruct (length mk); discriminate E.
           ++ split; [apply H2|reflexivity].
        -- injection H as <- <-. exists (n :: r). split; [reflexivity|]. right. split; [discriminate|]. split; reflexivity.
        -- destruct (mk_loop (made_dir n m) fails r) as [mk e'] eqn:El. injection H as <- <-.
           destruct (IH _ _ _ _ Hch El) as (rest & H1 & H2). cbn [fst snd].
           assert (to_make (made_dir n m) r = (r, None)) as Er.
           { destruct r as [|y r]; [reflexivity|]. cbn [to_make]. inversion Hu; subst. rewrite made_dir_below by assumption. reflexivity. }
           rewrite Er in H1, H2. cbn [fst snd] in H1, H2. exists rest. split; [rewrite H1; reflexivity|]. destruct e' as [x|].
           ++ destruct H2 as [(_ & _ & E)|(Hr & _ & E)]; [discriminate|]. right. split; [exact Hr|]. split; [reflexivity|exact E].
           ++ split; [apply H2|reflexivity].
      * injection H as <- <-. exists []. split; [reflexivity|]. left. auto.
    + exact (IH m fails made e Hch H).
    + injection H as <- <-. exists []. split; [reflexivity|]. left. auto.
    + injection H as <- <-. exists []. split; [reflexivity|]. left. auto.
Qed.

Lemma mk_loop_ok m names fails made : chain names -> mk_loop m fails names = (made, None) -> to_make m names = (made, None).
Proof.
  intros Hch H. destruct (mk_loop_made m names fails made None Hch H) as (rest & H1 & -> & H2). rewrite app_nil_r in H1.
  destruct (to_make m names) as [a b]. cbn [fst snd] in *. congruence.
Qed.

Lemma mk_loop_quiet m names fails : chain names -> (forall x, ~ In (Some x) fails) -> mk_loop m fails names = to_make m names.
Proof.
  intros Hch Hq. destruct (mk_loop m fails names) as [made e] eqn:El. destruct (mk_loop_made m names fails made e Hch El) as (rest & H1 & H2).
  destruct (to_make m names) as [a b]. cbn [fst snd] in *. destruct e as [x|].
  - destruct H2 as [(-> & -> & ->)|(_ & _ & E)]; [subst a; reflexivity|]. apply nth_error_In in E. elim (Hq x E).
  - destruct H2 as [-> ->]. rewrite app_nil_r in H1. subst a. reflexivity.
Qed.

Lemma to_make_ok m names : forall made, to_make m names = (made, None) ->
  exists pre, names = pre ++ made /\ (forall x, In x pre -> m x = MDir) /\ (forall d rest, made = d :: rest -> m d = MErr enoent).
Proof.
  induction names as [|n names IH]; intros made H; cbn [to_make] in H.
  - injection H as <-. exists []. split; [reflexivity|]. split; [intros x []|discriminate].
  - destruct (m n) as [c| | |tgt] eqn:Em; try discriminate.
    + destruct (Nat.eqb_spec c enoent) as [->|]; [|discriminate]. injection H as <-. exists []. split; [reflexivity|].
      split; [intros x []|]. intros d rest E. injection E as <- _. exact Em.
    + destruct (IH made H) as (pre & -> & H1 & H2). exists (n :: pre). split; [reflexivity|]. split; [|exact H2].
      intros x [<-|Hx]; [exact Em|exact (H1 x Hx)].
Qed.

Lemma to_make_bad m names : forall made e, to_make m names = (made, Some e) ->
  made = [] /\ exists pre x post, names = pre ++ x :: post /\ (forall y, In y pre -> m y = MDir) /\
    match m x with MErr c => c <> enoent /\ e = ErrSys c | MDir => False | _ => e = ErrSys enotdir end.
Proof.
  induction names as [|n names IH]; intros made e H; cbn [to_make] in H; [discriminate|].
  destruct (m n) as [c| | |tgt] eqn:Em.
  - destruct (Nat.eqb_spec c enoent) as [->|Hc]; [discriminate|]. injection H as <- <-. split; [reflexivity|].
    exists [], n, names. split; [reflexivity|]. split; [intros y []|]. rewrite Em. auto.
  - destruct (IH made e H) as (-> & pre & x & post & -> & H1 & H2). split; [reflexivity|]. exists (n :: pre), x, post.
    split; [reflexivity|]. split; [|exact H2]. intros y [<-|Hy]; [exact Em|exact (H1 y Hy)].
  - injection H as <- <-. split; [reflexivity|]. exists [], n, names. split; [reflexivity|]. split; [intros y []|]. rewrite Em. reflexivity.
  - injection H as <- <-. split; [reflexivity|]. exists [], n, names. split; [reflexivity|]. split; [intros y []|]. rewrite Em. reflexivity.
Qed.

Lemma ancestry_join l : Forall proper l -> ancestry (join_sep l) = map (fun k => join_sep (firstn k l)) (seq 1 (length l)).
Proof.
  intros H. unfold ancestry. destruct l as [|c l]; [reflexivity|].
  destruct (join_sep (c :: l)) as [|x y] eqn:E; [apply join_nil_iff in E; [discriminate|exact H]|]. rewrite <- E.
  rewrite split_join by (try discriminate; apply proper_sepfree; exact H). reflexivity.
Qed.

Lemma join_under l k k' : Forall proper l -> 1 <= k -> k < k' <= length l -> under_name (join_sep (firstn k l)) (join_sep (firstn k' l)).
Proof.
  intros Hl Hk Hk'. exists (join_sep (firstn (k' - k) (skipn k l))). rewrite <- join_app.
  - f_equal. rewrite <- (firstn_skipn k (firstn k' l)). rewrite firstn_firstn, Nat.min_l by lia. f_equal. rewrite skipn_firstn_comm. reflexivity.
  - intros E. apply (f_equal (@length _)) in E. rewrite firstn_length in E. cbn [length] in E. lia.
  - intros E. apply (f_equal (@length _)) in E. rewrite firstn_length, skipn_length in E. cbn [length] in E. lia.
Qed.

Lemma chain_seq l n : Forall proper l -> forall s, 1 <= s -> s + n <= S (length l) -> chain (map (fun k => join_sep (firstn k l)) (seq s n)).
Proof.
  intros Hl. induction n as [|n IH]; intros s Hs Hn; [exact I|]. cbn [seq map chain]. split; [|apply IH; lia].
  apply Forall_forall. intros x Hx. apply in_map_iff in Hx. destruct Hx as (k & <- & Hk). apply in_seq in Hk. apply join_under; [exact Hl|lia|lia].
Qed.

Lemma map_seq_split {A} (f : nat -> A) n : forall s pre made, map f (seq s n) = pre ++ made ->
  length pre <= n /\ pre = map f (seq s (length pre)) /\ made = map f (seq (s + length pre) (n - length pre)).
Proof.
  induction n as [|n IH]; intros s pre made H.
  - symmetry in H. apply app_eq_nil in H. destruct H as [-> ->]. auto.
  - destruct pre as [|x pre].
    + cbn [app length] in *. rewrite Nat.add_0_r. split; [lia|]. split; [reflexivity|]. subst made. reflexivity.
    + cbn [seq map app] in H. injection H as <- H. destruct (IH (S s) pre made H) as (H1 & H2 & H3). cbn [length seq map].
      split; [lia|]. split; [f_equal; exact H2|]. rewrite H3. f_equal. f_equal; lia.
Qed.

(* What MkdirAll makes: all the missing directories down to the name, and nothing else. *)
Lemma mkdir_all_ok b m fails name made : Forall proper b -> mkdir_all (join_sep b) m fails name = (made, None) ->
  exists l j, Forall proper l /\ mkdir_all_name (join_sep b) m name = NOk (join_sep (b ++ l)) /\ j <= length (b ++ l) /\
    made = map (fun k => join_sep (firstn k (b ++ l))) (seq (S j) (length (b ++ l) - j)) /\
    mdirs m (firstn j (b ++ l)) /\ (j < length (b ++ l) -> m (join_sep (firstn (S j) (b ++ l))) = MErr enoent).
Proof.
  intros Hb H. unfold mkdir_all in H. destruct (mkdir_all_name (join_sep b) m name) as [full|e|] eqn:En; [|discriminate|discriminate].
  destruct (mkdir_all_name_within b m name full Hb En) as (l & Hl & ->).
  assert (Forall proper (b ++ l)) as Hbl by (apply Forall_app; split; assumption).
  rewrite ancestry_join in H by exact Hbl. apply mk_loop_ok in H; [|apply chain_seq; [exact Hbl|lia|lia]]. destruct (to_make_ok m _ made H) as (pre & E & H1 & H2).
  destruct (map_seq_split _ _ _ _ _ E) as (Hj & Hpre & Hmade). exists l, (length pre). split; [exact Hl|]. split; [reflexivity|].
  split; [exact Hj|]. split; [exact Hmade|]. split.
  - intros k Hk. rewrite firstn_firstn. rewrite firstn_length in Hk. replace (Nat.min k (length pre)) with k by lia.
    apply H1. rewrite Hpre. apply in_map_iff. exists k. split; [reflexivity|]. apply in_seq. lia.
  - intros Hlt. replace (length (b ++ l) - length pre) with (S (length (b ++ l) - length pre - 1)) in Hmade by lia.
    exact (H2 _ _ Hmade).
Qed.

Lemma mkdir_all_missing b m fails name made e : Forall proper b -> mkdir_all (join_sep b) m fails name = (made, e) -> made <> [] ->
  exists l j, Forall proper l /\ j < length (b ++ l) /\
    made = map (fun k => join_sep (firstn k (b ++ l))) (seq (S j) (length made)) /\ j + length made <= length (b ++ l) /\
    mdirs m (firstn j (b ++ l)) /\ m (join_sep (firstn (S j) (b ++ l))) = MErr enoent.
Proof.
  intros Hb H Hmade. unfold mkdir_all in H. destruct (mkdir_all_name (join_sep b) m name) as [full|e'|] eqn:En; [|congruence|congruence].
  destruct (mkdir_all_name_within b m name full Hb En) as (l & Hl & ->).
  assert (Forall proper (b ++ l)) as Hbl by (apply Forall_app; split; assumption).
  rewrite ancestry_join in H by exact Hbl. apply mk_loop_made in H; [|apply chain_seq; [exact Hbl|lia|lia]].
  destruct H as (rest & H1 & H2). destruct (to_make m _) as [all e2] eqn:Et. cbn [fst snd] in *.
  assert (e2 = None) as ->. { destruct e as [x|]; [destruct H2 as [(E & _)|(_ & E & _)]; [contradiction|exact E]|apply H2]. }
  destruct (to_make_ok m _ all Et) as (pre & E & H3 & H4). destruct (map_seq_split _ _ _ _ _ E) as (Hj & Hpre & Hall).
  assert (length all = length (b ++ l) - length pre) as Hla by (rewrite Hall, map_length, seq_length; reflexivity).
  assert (length all = length made + length rest) as Hlm by (rewrite H1; apply app_length).
  assert (0 < length made) as Hpos by (destruct made; [contradiction|cbn; lia]).
  exists l, (length pre). split; [exact Hl|]. split; [lia|]. split; [|split; [lia|split]].
  - rewrite H1 in Hall. symmetry in Hall. destruct (map_seq_split _ _ _ _ _ Hall) as (_ & E2 & _). exact E2.
  - intros k Hk. rewrite firstn_firstn. rewrite firstn_length in Hk. replace (Nat.min k (length pre)) with k by lia.
    apply H3. rewrite Hpre. apply in_map_iff. exists k. split; [reflexivity|]. apply in_seq. lia.
  - replace (length (b ++ l) - length pre) with (S (length (b ++ l) - length pre - 1)) in Hall by lia. exact (H4 _ _ Hall).
Qed.

Lemma tree_prefix t : tree_ok t -> forall r d, t (d ++ r) <> None -> r <> [] -> t d = Some KDir.
Proof.
  intros [_ H] r. induction r as [|c r IH] using rev_ind; intros d Hd Hn; [contradiction|].
  rewrite app_assoc in Hd. pose proof (H _ _ Hd) as H1. destruct r as [|x r]; [rewrite app_nil_r in H1; exact H1|].
  apply IH; [congruence|discriminate].
Qed.

(* Every directory made stands on directories of the top, and nothing of the top is in its
   place. *)
Lemma mkdir_all_lands t m b fails name made e : shows_top t m -> tree_ok t -> Forall proper b -> clear t [] ->
  mkdir_all (join_sep b) m fails name = (made, e) ->
  forall d, In d made -> exists l, Forall proper l /\ d = join_sep l /\ t (at_top l) = None /\ clear t l.
Proof.
  intros Hs Hok Hb Hc H d Hin. assert (made <> []) as Hne by (intros ->; exact Hin).
  destruct (mkdir_all_missing b m fails name made e Hb H Hne) as (l & j & Hl & Hj & Hm & Hlen & Hd & Hmiss).
  set (w := b ++ l) in *. assert (Forall proper w) as Hw by (apply Forall_app; split; assumption). clearbody w.
  assert (forall k, Forall proper (firstn k w)) as Hf.
  { intros k. rewrite <- (firstn_skipn k w) in Hw. apply Forall_app in Hw. apply Hw. }
  assert (clear t (firstn j w)) as Hcj.
  { apply (clear_solid t m [] Hs (Forall_nil _) Hc); [apply Hf|]. intros k Hk. left. cbn [app]. exact (Hd k Hk). }
  assert (removelast (firstn (S j) w) = firstn j w) as Er by (rewrite removelast_firstn by exact Hj; reflexivity).
  assert (t (at_top (firstn (S j) w)) = None) as Hnone.
  { destruct (t (at_top (firstn (S j) w))) as [k|] eqn:E; [|reflexivity].
    destruct (Hs (firstn (S j) w) k (Hf _)) as [X|(c & Hcc & X)]; [rewrite Er; exact Hcj|exact E| |].
    - rewrite Hmiss in X. destruct k; discriminate X.
    - rewrite Hmiss in X. congruence. }
  assert (forall k, S j <= k -> t (at_top (firstn k w)) = None) as Hall.
  { intros k Hk. destruct (t (at_top (firstn k w))) eqn:E; [|reflexivity]. exfalso.
    replace (firstn k w) with (firstn (S j) w ++ skipn (S j) (firstn k w)) in E
      by (rewrite <- (firstn_skipn (S j) (firstn k w)) at 2; rewrite firstn_firstn, Nat.min_l by lia; reflexivity).
    destruct (skipn (S j) (firstn k w)) as [|x y] eqn:Es; [rewrite app_nil_r in E; congruence|].
    change (at_top (firstn (S j) w ++ x :: y)) with (at_top (firstn (S j) w) ++ x :: y) in E.
    assert (t (at_top (firstn (S j) w)) = Some KDir) as X by (apply (tree_prefix t Hok (x :: y)); [congruence|discriminate]). congruence. }
  rewrite Hm in Hin. apply in_map_iff in Hin. destruct Hin as (k & <- & Hk). apply in_seq in Hk.
  exists (firstn k w). split; [apply Hf|]. split; [reflexivity|]. split; [apply Hall; lia|].
  intros i tgt. rewrite firstn_firstn. destruct (Nat.le_gt_cases (Nat.min i k) j) as [Hle|Hgt].
  - specialize (Hcj (Nat.min i k) tgt). rewrite firstn_firstn, Nat.min_l in Hcj by exact Hle. exact Hcj.
  - rewrite Hall by lia. discriminate.
Qed.

(* ---- names with no links in them resolve to themselves ---- *)
Lemma rp_dirs fs fuel cur : forall todo don, (forall k, 1 <= k <= length todo -> lstat fs (join_sep (don ++ firstn k todo)) = LOther) ->
  rp_loop fs fuel cur don todo = ROk (join_sep (don ++ todo)) cur.
Proof.
  induction todo as [|c todo IH]; intros don H; rewrite rp_loop_eq; [rewrite app_nil_r; reflexivity|]. cbv zeta.
  pose proof (H 1 ltac:(cbn; lia)) as H1. cbn [firstn] in H1. rewrite H1. rewrite IH; [rewrite <- app_assoc; reflexivity|].
  intros k Hk. rewrite <- app_assoc. apply (H (S k)). cbn [length]. lia.
Qed.

Lemma rp_missing fs fuel cur e : forall todo don j, j < length todo ->
  (forall k, 1 <= k <= j -> lstat fs (join_sep (don ++ firstn k todo)) = LOther) -> lstat fs (join_sep (don ++ firstn (S j) todo)) = LErr e ->
  exists p, rp_loop fs fuel cur don todo = RFail p (ErrSys e).
Proof.
  induction todo as [|c todo IH]; intros don j Hj H Hm; [cbn in Hj; lia|]. rewrite rp_loop_eq. cbv zeta. destruct j as [|j].
  - cbn [firstn] in Hm. rewrite Hm. eexists. reflexivity.
  - pose proof (H 1 ltac:(lia)) as H1. cbn [firstn] in H1. rewrite H1. apply (IH (don ++ [c]) j).
    + cbn [length] in Hj. lia.
    + intros k Hk. rewrite <- app_assoc. apply (H (S k)). lia.
    + rewrite <- app_assoc. exact Hm.
Qed.

Lemma lstat_join b m l k : Forall proper b -> Forall proper l -> 1 <= k <= length l ->
  lstat (resolver (join_sep b) m) (join_sep (firstn k l)) =
  match m (join_sep (b ++ firstn k l)) with MErr c => LErr c | MLink _ => LLink | _ => LOther end.
Proof.
  intros Hb Hl Hk. assert (Forall proper (firstn k l)) as Hp by (rewrite <- (firstn_skipn k l) in Hl; apply Forall_app in Hl; apply Hl).
  assert (firstn k l <> []) as Hne by (destruct l, k; cbn in *; try lia; discriminate).
  cbn [lstat resolver]. unfold ov_lstat. rewrite (local_name b (join_sep (firstn k l)) Hb (good_local _ (conj Hne (or_introl Hp)))).
  rewrite join_pdot_comps by (try exact Hne; left; exact Hp). rewrite strip_proper by exact Hp.
  destruct (m (join_sep (b ++ firstn k l))); reflexivity.
Qed.

Lemma clean_join l : Forall proper l -> l <> [] -> clean (join_sep l) = join_sep l /\ is_local (join_sep l) = true /\ bytes_eqb (join_sep l) [dot] = false.
Proof.
  intros Hp Hn. assert (join_sep l = render false l) as E by (destruct l; [contradiction|reflexivity]). split; [|split].
  - rewrite E. apply clean_render. apply proper_normal. exact Hp.
  - apply good_local. split; [exact Hn|left; exact Hp].
  - destruct (bytes_eqb (join_sep l) [dot]) eqn:Ed; [|reflexivity]. apply bytes_eqb_eq in Ed. rewrite E in Ed.
    apply (render_inj false l []) in Ed; [contradiction|apply proper_normal; exact Hp|apply normal_nil].
Qed.

Lemma removelast_proper l : Forall proper l -> Forall proper (removelast l).
Proof. intros H. rewrite removelast_firstn_len. rewrite <- (firstn_skipn (pred (length l)) l) in H. apply Forall_app in H. apply H. Qed.

Lemma firstn_removelast {A} (l : list A) k : k < length l -> firstn k (removelast l) = firstn k l.
Proof. intros H. rewrite removelast_firstn_len, firstn_firstn. f_equal. lia. Qed.

Lemma removelast_len {A} (l : list A) : length (removelast l) = pred (length l).
Proof. rewrite removelast_firstn_len, firstn_length. lia. Qed.

Lemma resolve_dirs b m l : Forall proper b -> Forall proper l -> l <> [] ->
  (forall k, 1 <= k < length l -> m (join_sep (b ++ firstn k l)) = MDir) ->
  ov_resolve (join_sep b) m (join_sep l) true = NOk (join_sep (b ++ l)).
Proof.
  intros Hb Hl Hn Hd. destruct (clean_join l Hl Hn) as (Hc & Hloc & Hdot).
  unfold ov_resolve, resolve_path. cbv zeta. rewrite Hc, Hloc, Hdot. cbn [negb].
  rewrite split_join by (try exact Hn; apply proper_sepfree; exact Hl).
  assert (ov_name (join_sep b) (join_sep l) = Some (join_sep (b ++ l))) as Hname.
  { rewrite local_name by assumption. rewrite join_pdot_comps by (try exact Hn; left; exact Hl). rewrite strip_proper by exact Hl. reflexivity. }
  destruct (removelast l) as [|x d] eqn:Er; [rewrite Hname; reflexivity|].
  rewrite rp_dirs.
  - change ([] ++ x :: d) with (x :: d). rewrite <- Er. rewrite join_snoc by (rewrite Er; discriminate). rewrite <- app_removelast_last by exact Hn. rewrite Hname. reflexivity.
  - intros k Hk. cbn [app]. rewrite <- Er in Hk |- *. rewrite removelast_len in Hk. rewrite firstn_removelast by lia.
    rewrite lstat_join by (try assumption; lia). rewrite Hd by lia. reflexivity.
Qed.

Lemma resolve_missing b m l j : Forall proper b -> Forall proper l -> S j < length l ->
  (forall k, 1 <= k <= j -> m (join_sep (b ++ firstn k l)) = MDir) -> m (join_sep (b ++ firstn (S j) l)) = MErr enoent ->
  ov_resolve (join_sep b) m (join_sep l) true = NErr (ErrSys enoent).
Proof.
  intros Hb Hl Hj Hd Hm. assert (l <> []) as Hn by (destruct l; [cbn in Hj; lia|discriminate]).
  destruct (clean_join l Hl Hn) as (Hc & Hloc & Hdot).
  unfold ov_resolve, resolve_path. cbv zeta. rewrite Hc, Hloc, Hdot. cbn [negb].
  rewrite split_join by (try exact Hn; apply proper_sepfree; exact Hl).
  destruct (removelast l) as [|x d] eqn:Er; [apply (f_equal (@length _)) in Er; rewrite removelast_len in Er; cbn in Er; lia|].
  rewrite <- Er. destruct (rp_missing (resolver (join_sep b) m) max_links 0 enoent (removelast l) [] j) as [p E].
  - rewrite removelast_len. lia.
  - intros k Hk. cbn [app]. rewrite firstn_removelast by lia. rewrite lstat_join by (try assumption; lia). rewrite Hd by lia. reflexivity.
  - cbn [app]. rewrite firstn_removelast by lia. rewrite lstat_join by (try assumption; lia). rewrite Hm. reflexivity.
  - rewrite E. reflexivity.
Qed.

Lemma proper_firstn l k : Forall proper l -> Forall proper (firstn k l).
Proof. intros H. rewrite <- (firstn_skipn k l) in H. apply Forall_app in H. apply H. Qed.
Lemma proper_skipn l k : Forall proper l -> Forall proper (skipn k l).
Proof. intros H. rewrite <- (firstn_skipn k l) in H. apply Forall_app in H. apply H. Qed.

Lemma child_rest b l k : Forall proper b -> Forall proper l ->
  child_name (join_sep (b ++ firstn k l)) (join_sep (skipn k l)) = join_sep (b ++ l).
Proof.
  intros Hb Hl. assert (Forall proper (b ++ firstn k l)) as Hp by (apply Forall_app; split; [exact Hb|apply proper_firstn; exact Hl]).
  destruct (skipn k l) as [|c r] eqn:E.
  - assert (firstn k l = l) as -> by (rewrite <- (firstn_skipn k l) at 2; rewrite E, app_nil_r; reflexivity).
    unfold Masks_Model.child_name. cbn [join_sep]. destruct (join_sep (b ++ l)); reflexivity.
  - rewrite child_join; [|exact Hp|rewrite <- E; apply proper_skipn; exact Hl|discriminate].
    rewrite <- app_assoc, <- E, firstn_skipn. reflexivity.
Qed.

Lemma peel_dirs b m l j : Forall proper b -> Forall proper l -> j < length l ->
  (forall k, 1 <= k <= j -> m (join_sep (b ++ firstn k l)) = MDir) ->
  (forall k, j < k < length l -> m (join_sep (b ++ firstn k l)) = MErr enoent) ->
  forall i, S j + i <= length l -> peel (join_sep b) m (rev (firstn (S j + i) l)) (join_sep (skipn (S j + i) l)) = NOk (join_sep (b ++ l)).
Proof.
  intros Hb Hl Hj Hd Hm i. induction i as [|i IH]; intros Hi.
  - rewrite Nat.add_0_r. assert (rev (firstn (S j) l) <> []) as Hn.
    { intros E. apply (f_equal (@length _)) in E. rewrite rev_length, firstn_length in E. cbn [length] in E. lia. }
    destruct (rev (firstn (S j) l)) as [|c up] eqn:E; [contradiction|]. cbn [peel]. rewrite <- E, rev_involutive.
    rewrite resolve_dirs; [rewrite child_rest by assumption; reflexivity|exact Hb|apply proper_firstn; exact Hl| |].
    + intros E2. apply Hn. rewrite <- E, E2. reflexivity.
    + intros k Hk. rewrite firstn_length in Hk. rewrite firstn_firstn. replace (Nat.min k (S j)) with k by lia. apply Hd. lia.
  - replace (S j + S i) with (S (S j + i)) in * by lia.
    destruct (nth_error l (S j + i)) as [c|] eqn:En; [|apply nth_error_None in En; lia].
    assert (firstn (S (S j + i)) l = firstn (S j + i) l ++ [c]) as Ef.
    { clear - En. revert En. generalize (S j + i). intros n. revert l. induction n as [|n IH]; intros [|x l] H; cbn in H; try discriminate.
      - injection H as ->. reflexivity.
      - change (firstn (S (S n)) (x :: l)) with (x :: firstn (S n) l). rewrite (IH l H). reflexivity. }
    assert (skipn (S j + i) l = c :: skipn (S (S j + i)) l) as Es.
    { clear - En. revert En. generalize (S j + i). intros n. revert l. induction n as [|n IH]; intros [|x l] H; cbn in H; try discriminate.
      - injection H as ->. reflexivity.
      - cbn [skipn]. exact (IH l H). }
    rewrite Ef, rev_app_distr. change (rev [c] ++ rev (firstn (S j + i) l)) with (c :: rev (firstn (S j + i) l)). cbn [peel].
    change (rev (c :: rev (firstn (S j + i) l))) with (rev (rev (firstn (S j + i) l)) ++ [c]). rewrite rev_involutive, <- Ef.
    rewrite (resolve_missing b m _ j); [|exact Hb|apply proper_firstn; exact Hl| | |].
    + change (not_exist (ErrSys enoent)) with true. cbv iota. destruct (rev (firstn (S j + i) l)) as [|x up] eqn:Er.
      { apply (f_equal (@length _)) in Er. rewrite rev_length, firstn_length in Er. cbn [length] in Er. lia. }
      replace (child_name c (join_sep (skipn (S (S j + i)) l))) with (join_sep (skipn (S j + i) l)).
      * rewrite IH by lia. reflexivity.
      * assert (Forall proper (skipn (S j + i) l)) as Hs by (apply proper_skipn; exact Hl). rewrite Es in Hs |- *.
        destruct (skipn (S (S j + i)) l) as [|y ys].
        -- unfold Masks_Model.child_name. cbn [join_sep]. destruct c; reflexivity.
        -- inversion Hs; subst. symmetry. apply (child_join [c] (y :: ys)); [constructor; [assumption|constructor]|assumption|discriminate].
    + rewrite firstn_length. lia.
    + intros k Hk. rewrite firstn_firstn. replace (Nat.min k (S (S j + i))) with k by lia. apply Hd. exact Hk.
    + rewrite firstn_firstn. replace (Nat.min (S j) (S (S j + i))) with (S j) by lia. apply Hm. lia.
Qed.

Lemma to_make_pre m made : forall pre, (forall x, In x pre -> m x = MDir) -> (forall d rest, made = d :: rest -> m d = MErr enoent) ->
  to_make m (pre ++ made) = (made, None).
Proof.
  induction pre as [|x pre IH]; intros H1 H2.
  - cbn [app]. destruct made as [|d rest]; [reflexivity|]. cbn [to_make]. rewrite (H2 d rest eq_refl), Nat.eqb_refl. reflexivity.
  - cbn [app to_make]. rewrite (H1 x (or_introl eq_refl)). apply IH; [|exact H2]. intros y Hy. apply H1. right. exact Hy.
Qed.

Lemma mkdir_all_name_dirs b m name l j : Forall proper b -> Forall proper l -> l <> [] -> clean name = join_sep l -> j <= length l ->
  (forall k, 1 <= k <= j -> m (join_sep (b ++ firstn k l)) = MDir) ->
  (forall k, j < k <= length l -> m (join_sep (b ++ firstn k l)) = MErr enoent) ->
  mkdir_all_name (join_sep b) m name = NOk (join_sep (b ++ l)).
Proof.
  intros Hb Hl Hn Hc Hj Hd Hm. destruct (clean_join l Hl Hn) as (_ & Hloc & Hdot).
  unfold mkdir_all_name. cbv zeta. rewrite Hc, Hloc, Hdot. cbn [negb]. rewrite split_join by (try exact Hn; apply proper_sepfree; exact Hl).
  assert (0 < length l) as Hlen by (destruct l; [contradiction|cbn; lia]).
  pose proof (peel_dirs b m l (Nat.min j (pred (length l))) Hb Hl ltac:(lia) (fun k Hk => Hd k ltac:(lia)) (fun k Hk => Hm k ltac:(lia))
    (length l - S (Nat.min j (pred (length l)))) ltac:(lia)) as H.
  replace (S (Nat.min j (pred (length l))) + (length l - S (Nat.min j (pred (length l))))) with (length l) in H by lia.
  rewrite firstn_all, skipn_all in H. exact H.
Qed.

Lemma mkdir_all_dirs b m fails name l j : (forall x, ~ In (Some x) fails) -> Forall proper b -> Forall proper l -> l <> [] -> clean name = join_sep l -> j <= length l -> mdirs m b ->
  (forall k, 1 <= k <= j -> m (join_sep (b ++ firstn k l)) = MDir) ->
  (forall k, j < k <= length l -> m (join_sep (b ++ firstn k l)) = MErr enoent) ->
  mkdir_all (join_sep b) m fails name = (map (fun k => join_sep (b ++ firstn k l)) (seq (S j) (length l - j)), None).
Proof.
  intros Hq Hb Hl Hn Hc Hj Hbd Hd Hm. unfold mkdir_all. rewrite (mkdir_all_name_dirs b m name l j) by assumption.
  assert (Forall proper (b ++ l)) as Hbl by (apply Forall_app; split; assumption).
  rewrite ancestry_join by exact Hbl. rewrite (mk_loop_quiet m _ fails (chain_seq (b ++ l) (length (b ++ l)) Hbl 1 ltac:(lia) ltac:(lia)) Hq). rewrite app_length.
  replace (length b + length l) with ((length b + j) + (length l - j)) by lia. rewrite seq_app, map_app.
  replace (map (fun k => join_sep (firstn k (b ++ l))) (seq (1 + (length b + j)) (length l - j)))
    with (map (fun k => join_sep (b ++ firstn k l)) (seq (S j) (length l - j))).
  - apply to_make_pre.
    + intros x Hx. apply in_map_iff in Hx. destruct Hx as (k & <- & Hk). apply in_seq in Hk. rewrite firstn_app.
      destruct (Nat.le_gt_cases k (length b)) as [Hkb|Hkb].
      * replace (k - length b) with 0 by lia. cbn [firstn]. rewrite app_nil_r. apply Hbd. lia.
      * rewrite firstn_all2 by lia. apply Hd. lia.
    + intros d rest E. destruct (length l - j) as [|n] eqn:En; [discriminate|]. cbn [seq map] in E. injection E as <- _. apply (Hm (S j)). lia.
  - replace (1 + (length b + j)) with (length b + S j) by lia. generalize (S j) as s. generalize (length l - j) as n.
    induction n as [|n IH]; intros s; [reflexivity|]. cbn [seq map]. f_equal.
    + rewrite firstn_app, (firstn_all2 (n := length b + s) b) by lia. replace (length b + s - length b) with s by lia. reflexivity.
    + rewrite IH. replace (length b + S s) with (S (length b + s)) by lia. reflexivity.
Qed.

(* ---- an overlay with only its top ---- *)
Lemma look_plain t k : tree_ok t -> forall fuel rest d, Forall proper rest -> t (d ++ rest) = Some k ->
  look t fuel d rest = shown k \/ look t fuel d rest = MErr 40.
Proof.
  intros Hok fuel. induction fuel as [|fuel IH]; intros rest d Hp Ht; [right; reflexivity|]. cbn [look]. destruct rest as [|c rest].
  - rewrite app_nil_r in Ht. rewrite Ht. auto.
  - inversion Hp as [|? ? Hc Hr]; subst. destruct (proper_tests c Hc) as (_ & -> & ->). destruct rest as [|c' rest].
    + rewrite Ht. auto.
    + replace (d ++ c :: c' :: rest) with ((d ++ [c]) ++ c' :: rest) in Ht by (rewrite <- app_assoc; reflexivity).
      rewrite (tree_prefix t Hok (c' :: rest) (d ++ [c])) by (try discriminate; congruence). apply IH; assumption.
Qed.

Lemma top_only_shows t : tree_ok t -> shows_top t (top_only t).
Proof.
  intros Hok l k Hl _ Ht. unfold top_only.
  replace (at_top (match join_sep l with [] => [] | _ => split_sep (join_sep l) end)) with (at_top l).
  - destruct (look_plain t k Hok (N.to_nat 300) (at_top l) [] (at_top_proper l Hl) Ht) as [E|E]; rewrite E; [left; reflexivity|].
    right. exists 40. split; [discriminate|reflexivity].
  - pose proof (top_path_join l Hl) as E. unfold top_path, content in E. unfold at_top in *. symmetry. exact E.
Qed.

Lemma mkdir_all_refused b m fails name made x : Forall proper b -> mkdir_all (join_sep b) m fails name = (made, Some x) ->
  made = [] \/ nth_error fails (length made) = Some (Some x).
Proof.
  intros Hb. unfold mkdir_all. destruct (mkdir_all_name (join_sep b) m name) as [full|e'|] eqn:En; [|intros H; injection H as <- _; auto|intros H; injection H as <- _; auto].
  destruct (mkdir_all_name_within b m name full Hb En) as (l & Hl & ->).
  assert (Forall proper (b ++ l)) as Hbl by (apply Forall_app; split; assumption).
  rewrite ancestry_join by exact Hbl. intros H. apply mk_loop_made in H; [|apply chain_seq; [exact Hbl|lia|lia]].
  destruct H as (rest & _ & [(E & _)|(_ & _ & E)]); auto.
Qed.
