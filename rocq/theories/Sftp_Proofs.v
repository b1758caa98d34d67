From Verif Require Import Common CommonLemmas ContentRange_Model ContentRange_Proofs PathLex_Model PathLex_Proofs Sftp_Model Sftp_Spec.
Open Scope nat_scope.

(* ---- names ---- *)
Lemma steps_fold l : forall st, Forall (fun c => is_dotdot c = false) st ->
  match steps st l with
  | Some r => fold_left (clean_step false) l st = rev r
  | None => exists x, fold_left (clean_step false) l st = x ++ [[dot; dot]]
  end.
Proof.
  induction l as [|c l IH]; intros st Hst; cbn [steps fold_left]; [rewrite rev_involutive; reflexivity|].
  unfold clean_step at 2 4. destruct (is_empty c || is_dot c); [apply IH; exact Hst|].
  destruct (is_dotdot c) eqn:D; [|apply IH; constructor; assumption].
  destruct st as [|top st].
  - apply is_dotdot_true in D. subst c. clear IH Hst.
    assert (G : forall l x, exists y, fold_left (clean_step false) l (x ++ [[dot; dot]]) = y ++ [[dot; dot]]).
    { clear l. induction l as [|c l IH]; intros x; cbn [fold_left]; [eauto|].
      unfold clean_step at 2. destruct (is_empty c || is_dot c); [apply IH|].
      destruct (is_dotdot c) eqn:D.
      - apply is_dotdot_true in D. subst c. destruct x as [|t x].
        + cbn [app]. change (is_dotdot [dot; dot]) with true. cbn iota. apply (IH [[dot; dot]]).
        + cbn [app]. destruct (is_dotdot t); [apply (IH ([dot; dot] :: t :: x))|apply IH].
      - apply (IH (c :: x)). }
    apply (G l []).
  - inversion Hst as [|? ? Ht Hs]; subst. rewrite Ht. apply IH. exact Hs.
Qed.
Lemma steps_proper l : Forall sepfree l -> forall st r, Forall proper st -> steps st l = Some r -> Forall proper r.
Proof.
  induction 1 as [|c l Hc Hl IH]; intros st r Hst E; cbn [steps] in E.
  - apply some_inj in E. subst r. apply Forall_rev. exact Hst.
  - destruct (is_empty c) eqn:E1; [apply (IH _ _ Hst E)|]. destruct (is_dot c) eqn:E2; [apply (IH _ _ Hst E)|]. cbn [orb] in E.
    destruct (is_dotdot c) eqn:E3.
    + destruct st as [|t st]; [discriminate|]. inversion Hst; subst. apply (IH _ _ ltac:(eassumption) E).
    + apply (IH (c :: st) r); [|exact E]. constructor; [|exact Hst].
      split; [intros ->; discriminate|]. split; [intros ->; discriminate|]. split; [intros ->; discriminate|exact Hc].
Qed.
Lemma relative_proper name l : relative name = Some l -> Forall proper l.
Proof.
  unfold relative. destruct (rooted name); [discriminate|]. apply (steps_proper _ (split_sepfree name)). constructor.
Qed.
Lemma local_slash_proper l : l <> [] -> Forall proper l -> is_local_slash (join_sep l) = true.
Proof.
  intros Hn Hl. destruct l as [|x l]; [contradiction|]. inversion Hl as [|? ? Hx Hl']; subst.
  destruct Hx as (X1 & X2 & X3 & X4). unfold is_local_slash.
  assert (E : exists t, join_sep (x :: l) = x ++ t /\ (t = [] \/ exists t', t = sep :: t')).
  { destruct l as [|y l]; [exists []; split; [cbn; rewrite app_nil_r; reflexivity|auto]|]. rewrite join_cons by discriminate. eauto. }
  destruct E as (t & -> & Ht). destruct x as [|a x]; [contradiction|].
  assert (Ha : N.eqb a sep = false) by (apply N.eqb_neq; intros ->; apply X4; left; reflexivity).
  cbn [app is_empty rooted]. rewrite Ha. cbn [negb andb].
  destruct x as [|b x].
  - cbn [app]. destruct Ht as [-> | [t' ->]].
    + cbn. rewrite andb_false_r. reflexivity.
    + cbn. rewrite ?andb_false_r. destruct (a =? dot)%N; cbn; rewrite ?andb_false_r; destruct t'; reflexivity.
  - cbn [app]. assert (Hb : N.eqb b sep = false) by (apply N.eqb_neq; intros ->; apply X4; right; left; reflexivity).
    destruct x as [|c x].
    + cbn [app]. destruct Ht as [-> | [t' ->]].
      * destruct (bytes_eqb [a; b] [dot; dot]) eqn:E; [apply bytes_eqb_eq in E; congruence|]. reflexivity.
      * assert (bytes_eqb (a :: b :: sep :: t') [dot; dot] = false) as ->.
        { destruct (bytes_eqb _ _) eqn:E; [apply bytes_eqb_eq in E; discriminate|reflexivity]. }
        destruct (N.eqb_spec a dot) as [-> | _]; [|reflexivity]. destruct (N.eqb_spec b dot) as [-> | _]; [exfalso; apply X3; reflexivity|reflexivity].
    + cbn [app]. assert (Hc : N.eqb c sep = false) by (apply N.eqb_neq; intros ->; apply X4; right; right; left; reflexivity).
      rewrite Hc, andb_false_r. destruct (bytes_eqb _ _) eqn:E; [apply bytes_eqb_eq in E; discriminate|reflexivity].
Qed.
Lemma not_dot l : l <> [] -> Forall proper l -> bytes_eqb (join_sep l) [dot] = false.
Proof.
  intros Hn Hl. destruct (bytes_eqb (join_sep l) [dot]) eqn:E; [|reflexivity]. apply bytes_eqb_eq in E. exfalso.
  assert (S : split_sep (join_sep l) = [[dot]]) by (rewrite E; reflexivity).
  rewrite split_join in S by (try apply proper_sepfree; assumption). subst l. inversion Hl as [|? ? Hx _]; subst. destruct Hx as (_ & X & _). apply X. reflexivity.
Qed.
Lemma dotdot_not_local x l : x ++ [[dot; dot]] = rev l -> bytes_eqb (render false l) [dot] = false /\ is_local_slash (render false l) = false.
Proof.
  intros E. assert (exists r, l = [dot; dot] :: r) as [r ->].
  { rewrite <- (rev_involutive l), <- E, rev_app_distr. cbn. eauto. }
  cbn [render]. destruct r as [|y r]; [split; reflexivity|]. rewrite join_cons by discriminate. split; [reflexivity|]. unfold is_local_slash. cbn. reflexivity.
Qed.
Lemma join_text base l : rooted base = true -> l <> [] -> Forall proper l -> join2 base (join_sep l) = below_text base l.
Proof.
  intros Hb Hn Hl. destruct base as [|a b]; [discriminate|]. unfold join2.
  assert (J : join_sep l <> []).
  { destruct l as [|x l]; [contradiction|]. inversion Hl as [|? ? Hx _]; subst. destruct Hx as (X & _). destruct x as [|c x]; [contradiction|]. destruct l; discriminate. }
  assert (E : clean ((a :: b) ++ sep :: join_sep l) = below_text (a :: b) l).
  { unfold clean, below_text. replace (rooted ((a :: b) ++ sep :: join_sep l)) with true by (cbn; symmetry; exact Hb).
    rewrite split_app_gen, split_join by (try apply proper_sepfree; assumption). f_equal. unfold clean_comps.
    rewrite fold_left_app, fold_proper by exact Hl. rewrite rev_app_distr, rev_involutive. reflexivity. }
  destruct (join_sep l) as [|c r]; [contradiction|]. exact E.
Qed.
Lemma resolve_exact base name : rooted base = true ->
  resolve_path base name = match relative name with None => None | Some [] => Some base | Some l => Some (below_text base l) end.
Proof.
  intros Hb. unfold resolve_path, relative. destruct (rooted name) eqn:Hr.
  - assert (rooted (clean name) = true) as Hc by (rewrite rooted_clean; exact Hr).
    destruct (bytes_eqb (clean name) [dot]) eqn:E; [apply bytes_eqb_eq in E; rewrite E in Hc; discriminate|].
    unfold is_local_slash. rewrite Hc. cbn. rewrite andb_false_r. reflexivity.
  - pose proof (steps_fold (split_sep name) [] (Forall_nil _)) as F. pose proof (steps_proper _ (split_sepfree name) [] ) as P.
    unfold clean. rewrite Hr. unfold clean_comps. destruct (steps [] (split_sep name)) as [r|].
    + specialize (P r (Forall_nil _) eq_refl). rewrite F, rev_involutive. destruct r as [|x r]; [reflexivity|]. unfold render.
      rewrite not_dot, local_slash_proper by (try discriminate; assumption). cbn [negb]. rewrite join_text by (try discriminate; assumption). reflexivity.
    + destruct F as [x F]. rewrite F. destruct (dotdot_not_local x (rev (x ++ [[dot; dot]]))) as [-> ->]; [rewrite rev_involutive; reflexivity|]. reflexivity.
Qed.
Lemma resolve_inside base name abs : rooted base = true -> resolve_path base name = Some abs -> inside base abs.
Proof.
  intros Hb E. rewrite (resolve_exact base name Hb) in E. destruct (relative name) as [[|x l]|] eqn:R; [| |discriminate]; apply some_inj in E; subst abs.
  - left. reflexivity.
  - right. exists (x :: l). split; [discriminate|]. split; [apply (relative_proper name); exact R|reflexivity].
Qed.
Lemma strictly_not_base base abs : rooted base = true -> strictly_inside base abs -> abs <> base.
Proof.
  intros Hb (l & Hn & Hl & ->) E. unfold below_text in E.
  assert (N : normal true (clean_comps true (split_sep base))) by (rewrite <- Hb at 1; rewrite <- Hb; apply clean_normal).
  assert (N2 : normal true (clean_comps true (split_sep base) ++ l)).
  { destruct N as (k & l' & E1 & H1 & H2). exists k, (l' ++ l). rewrite E1, app_assoc. split; [reflexivity|]. split; [apply Forall_app; auto|exact H2]. }
  pose proof (comps_render true _ N2) as C. rewrite E in C. apply (f_equal (@length _)) in C. rewrite app_length in C.
  destruct l as [|x l]; [contradiction|]. cbn in C. lia.
Qed.
Lemma requests_inside base c ok q p : rooted base = true -> In q (requests base c ok) -> In p (req_paths q) -> inside base p.
Proof.
  intros Hb Hq Hp.
  assert (One : forall name f, (forall abs, In q (f abs) -> req_paths q = [abs]) ->
    In q (match resolve_path base name with Some abs => f abs | None => [] end) -> inside base p).
  { intros name f Hf Hi. destruct (resolve_path base name) as [abs|] eqn:E; [|contradiction]. rewrite (Hf abs Hi) in Hp. destruct Hp as [<- | []].
    apply (resolve_inside base name); assumption. }
  assert (Two : forall o n f, (forall a b, In q (f a b) -> req_paths q = [a; b]) ->
    In q (match resolve_path base o, resolve_path base n with Some a, Some b => f a b | _, _ => [] end) -> inside base p).
  { intros o n f Hf Hi. destruct (resolve_path base o) as [a|] eqn:E; [|contradiction]. destruct (resolve_path base n) as [b|] eqn:E2; [|contradiction].
    rewrite (Hf a b Hi) in Hp. destruct Hp as [<- | [<- | []]]; [apply (resolve_inside base o)|apply (resolve_inside base n)]; assumption. }
  assert (T : forall (b : bool) (a x : sreq), In q (x :: if b then [a] else []) -> q = x \/ q = a).
  { intros [] a x; [intros [E | [E | []]]; auto|intros [E | []]; auto]. }
  assert (T' : forall (b : bool) (a x : sreq), In q (if b then [a] else [x]) -> q = a \/ q = x).
  { intros [] a x [E | []]; auto. }
  assert (T'' : forall (b : bool) (x : sreq), In q (if b then [] else [x]) -> q = x).
  { intros [] x; [intros []|intros [E | []]; auto]. }
  unfold requests in Hq. destruct c; cbv zeta in Hq;
    first [ eapply Two; [|exact Hq]; intros a b Hi; cbv beta in Hi | eapply One; [|exact Hq]; intros abs Hi; cbv beta in Hi ];
    idtac.
  all: try (destruct Hi as [<- | []]; reflexivity).
  all: try (apply T in Hi; destruct Hi as [-> | ->]; reflexivity).
  all: try (apply T' in Hi; destruct Hi as [-> | ->]; reflexivity).
  all: try (apply T'' in Hi; subst q; reflexivity).
Qed.

(* ---- the server's tree ---- *)
Lemma bytes_eqb_refl' x : bytes_eqb x x = true.
Proof. apply bytes_eqb_eq. reflexivity. Qed.
Lemma place_eqb_eq a : forall b, place_eqb a b = true <-> a = b.
Proof.
  induction a as [|x a IH]; intros [|y b]; cbn; try (split; congruence).
  rewrite andb_true_iff, bytes_eqb_eq, IH. split; [intros [-> ->]; reflexivity|intros E; split; congruence].
Qed.
Lemma place_eqb_refl a : place_eqb a a = true.
Proof. apply place_eqb_eq. reflexivity. Qed.
Lemma place_eqb_neq a b : a <> b -> place_eqb a b = false.
Proof. intros H. destruct (place_eqb a b) eqn:E; [apply place_eqb_eq in E; contradiction|reflexivity]. Qed.
Lemma rfind_filter f fs p : (forall e, fst e = p -> f e = true) -> rfind (filter f fs) p = rfind fs p.
Proof.
  intros H. induction fs as [|[q n] fs IH]; [reflexivity|]. cbn. destruct (place_eqb q p) eqn:E.
  - rewrite (H (q, n)) by (apply place_eqb_eq; exact E). cbn. rewrite E. reflexivity.
  - destruct (f (q, n)); cbn; [rewrite E|]; exact IH.
Qed.
Lemma rfind_filter_out f fs p : (forall e, fst e = p -> f e = false) -> rfind (filter f fs) p = None.
Proof.
  intros H. induction fs as [|[q n] fs IH]; [reflexivity|]. cbn. destruct (f (q, n)) eqn:E; [|exact IH]. cbn.
  destruct (place_eqb q p) eqn:E2; [|exact IH]. apply place_eqb_eq in E2. rewrite (H (q, n) E2) in E. discriminate.
Qed.
Lemma rget_del fs p q : p <> [] -> rget (rdel fs p) q = if place_eqb p q then None else rget fs q.
Proof.
  intros Hp. destruct q as [|x q]; [destruct p; [contradiction|reflexivity]|]. unfold rget, rdel. destruct (place_eqb p (x :: q)) eqn:E.
  - apply place_eqb_eq in E. subst p. apply rfind_filter_out. intros e ->. rewrite place_eqb_refl. reflexivity.
  - apply rfind_filter. intros e ->. rewrite place_eqb_neq; [reflexivity|]. intros <-. rewrite place_eqb_refl in E. discriminate.
Qed.
Lemma prefixb_iff p : forall q, prefixb p q = true <-> at_or_below p q.
Proof.
  induction p as [|x p IH]; intros q; cbn; [split; [intros _; exists q; reflexivity|reflexivity]|].
  destruct q as [|y q]; [split; [discriminate|intros [l E]; discriminate]|]. rewrite andb_true_iff, bytes_eqb_eq, IH. split.
  - intros [-> [l ->]]. exists l. reflexivity.
  - intros [l E]. cbn in E. split; [congruence|]. exists l. congruence.
Qed.
Lemma rget_prune fs p q : p <> [] -> rget (prune fs p) q = if prefixb p q then None else rget fs q.
Proof.
  intros Hp. destruct q as [|x q]; [destruct p; [contradiction|reflexivity]|]. unfold rget, prune. destruct (prefixb p (x :: q)) eqn:E.
  - apply rfind_filter_out. intros e ->. rewrite E. reflexivity.
  - apply rfind_filter. intros e ->. rewrite E. reflexivity.
Qed.
Lemma child_of_iff p : forall q c, child_of p q = Some c <-> q = p ++ [c].
Proof.
  induction p as [|x p IH]; intros q c; cbn.
  - destruct q as [|y [|z q]]; split; intros E; try discriminate; congruence.
  - destruct q as [|y q]; [split; discriminate|]. destruct (bytes_eqb x y) eqn:B.
    + apply bytes_eqb_eq in B. subst y. rewrite IH. split; [intros ->; reflexivity|intros E; cbn in E; congruence].
    + split; [discriminate|]. intros E. cbn in E. assert (x = y) by congruence. subst. rewrite bytes_eqb_refl' in B. discriminate.
Qed.
Lemma rlist_in fs p c : In c (rlist fs p) <-> exists n, In (p ++ [c], n) fs.
Proof.
  unfold rlist. rewrite in_flat_map. split.
  - intros ([q n] & H & E). cbn in E. destruct (child_of p q) as [c'|] eqn:Ec; [|contradiction]. destruct E as [<- | []].
    apply child_of_iff in Ec. subst q. eauto.
  - intros [n H]. exists (p ++ [c], n). split; [exact H|]. cbn. rewrite (proj2 (child_of_iff p _ c) eq_refl). left. reflexivity.
Qed.
Lemma rfind_in fs p n : rfind fs p = Some n -> In (p, n) fs.
Proof.
  induction fs as [|[q m] fs IH]; cbn; [discriminate|]. destruct (place_eqb q p) eqn:E.
  - apply place_eqb_eq in E. subst q. intros H. left. congruence.
  - intros H. right. apply IH. exact H.
Qed.
Lemma in_rfind fs p n : In (p, n) fs -> rfind fs p <> None.
Proof.
  induction fs as [|[q m] fs IH]; cbn; [contradiction|]. destruct (place_eqb q p) eqn:E; [discriminate|].
  intros [H | H]; [|apply IH; exact H]. assert (q = p) by congruence. subst. rewrite place_eqb_refl in E. discriminate.
Qed.
Lemma snoc_not_nil {A} (p : list A) c : p ++ [c] <> [].
Proof. destruct p; discriminate. Qed.
Lemma rget_snoc fs p c : rget fs (p ++ [c]) = rfind fs (p ++ [c]).
Proof. destruct p; reflexivity. Qed.
Lemma rlist_iff fs p c : In c (rlist fs p) <-> rget fs (p ++ [c]) <> None.
Proof.
  rewrite rlist_in, rget_snoc. split.
  - intros [n H]. apply (in_rfind _ _ _ H).
  - intros H. destruct (rfind fs (p ++ [c])) as [n|] eqn:E; [|contradiction]. exists n. apply rfind_in. exact E.
Qed.

(* ---- paths on a tree that only loses entries ---- *)
Definition sub (a b : rfs) : Prop := forall q, rget a q = rget b q \/ rget a q = None.
Lemma sub_refl a : sub a a.
Proof. intros q. auto. Qed.
Lemma sub_trans a b c : sub a b -> sub b c -> sub a c.
Proof. intros H1 H2 q. destruct (H1 q) as [-> | ->]; [apply H2|auto]. Qed.
Lemma sub_some a b q n : sub a b -> rget a q = Some n -> rget b q = Some n.
Proof. intros H E. destruct (H q) as [H1 | H1]; congruence. Qed.

Lemma walk_cons h fs cur c rest : walk h fs cur (c :: rest) =
  if is_empty c || is_dot c then walk h fs cur rest
  else if is_dotdot c then walk h fs (removelast cur) rest
  else match rget fs (cur ++ [c]) with
       | Some (RDir _) => walk h fs (cur ++ [c]) rest
       | Some (RFile _ _) => WBad
       | Some (RLink t) => match h with O => WBad | S h => walk h fs (if rooted t then [] else cur) (split_sep t ++ rest) end
       | None => WMissing
       end.
Proof. destruct h; reflexivity. Qed.
Lemma walk_nil h fs cur : walk h fs cur [] = WAt cur.
Proof. destruct h; reflexivity. Qed.
Lemma walk_mono a b : sub a b -> forall h l cur x, walk h a cur l = WAt x -> walk h b cur l = WAt x.
Proof.
  intros S h. induction h as [|h IHh]; (induction l as [|c l IH]; intros cur x E; [rewrite walk_nil in *; exact E|]); rewrite walk_cons in *;
    (destruct (is_empty c || is_dot c); [apply IH; exact E|]); (destruct (is_dotdot c); [apply IH; exact E|]);
    (destruct (rget a (cur ++ [c])) as [[m|m d|t]|] eqn:G; try discriminate); rewrite (sub_some a b _ _ S G); [apply IH; exact E|apply IH; exact E|apply IHh; exact E].
Qed.
Lemma walk_app fs : forall h a cur b x, walk h fs cur (a ++ b) = WAt x -> exists y h', walk h fs cur a = WAt y /\ walk h' fs y b = WAt x.
Proof.
  intros h. induction h as [|h IHh]; (induction a as [|c a IH]; intros cur b x E; [rewrite walk_nil; cbn [app] in E; eauto|]); cbn [app] in E; rewrite walk_cons in *;
    (destruct (is_empty c || is_dot c); [apply (IH _ _ _ E)|]); (destruct (is_dotdot c); [apply (IH _ _ _ E)|]);
    (destruct (rget fs (cur ++ [c])) as [[m|m d|t]|] eqn:G; try discriminate); [apply (IH _ _ _ E)|apply (IH _ _ _ E)|].
  rewrite app_assoc in E. apply (IHh _ _ _ _ E).
Qed.
Lemma walk_snoc fs c m : proper c -> forall h a cur y, walk h fs cur a = WAt y -> rget fs (y ++ [c]) = Some (RDir m) -> walk h fs cur (a ++ [c]) = WAt (y ++ [c]).
Proof.
  intros Pc. destruct (proper_tests c Pc) as (T1 & T2 & T3). intros h. induction h as [|h IHh]; (induction a as [|e a IH]; intros cur y E G; cbn [app]).
  - rewrite walk_nil in E. assert (cur = y) by congruence. subst. rewrite walk_cons, T1, T2, T3. cbn [orb]. rewrite G. apply walk_nil.
  - rewrite walk_cons in *. destruct (is_empty e || is_dot e); [apply IH; assumption|]. destruct (is_dotdot e); [apply IH; assumption|].
    destruct (rget fs (cur ++ [e])) as [[m'|m' d|t]|]; try discriminate. apply IH; assumption.
  - rewrite walk_nil in E. assert (cur = y) by congruence. subst. rewrite walk_cons, T1, T2, T3. cbn [orb]. rewrite G. apply walk_nil.
  - rewrite walk_cons in *. destruct (is_empty e || is_dot e); [apply IH; assumption|]. destruct (is_dotdot e); [apply IH; assumption|].
    destruct (rget fs (cur ++ [e])) as [[m'|m' d|t]|]; try discriminate; [apply IH; assumption|]. rewrite app_assoc. apply IHh; assumption.
Qed.

(* Paths given by their names. *)
Definition spot (hops : nat) (fs : rfs) (l : list (list byte)) : wres :=
  match walk hops fs [] (removelast l) with WAt d => WAt (d ++ [last l []]) | r => r end.
Lemma last_proper l : l <> [] -> Forall proper l -> proper (last l []).
Proof. intros Hn Hl. rewrite Forall_forall in Hl. apply Hl, last_in, Hn. Qed.
Lemma normal_proper l : Forall proper l -> normal true l.
Proof. intros H. exists 0, l. auto. Qed.
Lemma place_of_text hops fs l : l <> [] -> Forall proper l -> place_of hops fs (render true l) = spot hops fs l.
Proof.
  intros Hn Hl. unfold place_of. rewrite split_render by (apply normal_proper; exact Hl).
  destruct l as [|x l]; [contradiction|]. change (last ([] :: x :: l) []) with (last (x :: l) (@nil N)).
  change (removelast ([] :: x :: l)) with ([] :: removelast (x :: l) : list (list N)). cbv zeta.
  destruct (proper_tests _ (last_proper (x :: l) Hn Hl)) as (-> & -> & ->). cbn [orb]. rewrite walk_cons. reflexivity.
Qed.
Lemma text_child l e : l <> [] -> render true l ++ sep :: e = render true (l ++ [e]).
Proof. intros Hn. unfold render. cbn. rewrite join_app by (assumption || discriminate). reflexivity. Qed.
Lemma spot_mono hops a b l p : sub a b -> spot hops a l = WAt p -> spot hops b l = WAt p.
Proof.
  intros S. unfold spot. destruct (walk hops a [] (removelast l)) as [d| |] eqn:E; try discriminate. rewrite (walk_mono a b S _ _ _ _ E). auto.
Qed.
Lemma spot_walk hops fs l p m : l <> [] -> Forall proper l -> spot hops fs l = WAt p -> rget fs p = Some (RDir m) -> walk hops fs [] l = WAt p.
Proof.
  intros Hn Hl. unfold spot. destruct (walk hops fs [] (removelast l)) as [d| |] eqn:E; try discriminate. intros H G. assert (p = d ++ [last l []]) by congruence. subst p.
  rewrite (app_removelast_last [] Hn) at 1. apply (walk_snoc fs _ m (last_proper l Hn Hl)); assumption.
Qed.
Lemma spot_child hops fs l e : spot hops fs (l ++ [e]) = match walk hops fs [] l with WAt d => WAt (d ++ [e]) | r => r end.
Proof. unfold spot. rewrite removelast_last, last_last. reflexivity. Qed.
Lemma spot_nonempty hops fs l p : spot hops fs l = WAt p -> p <> [].
Proof. unfold spot. destruct (walk _ _ _ _); try discriminate. intros E. assert (p = p0 ++ [last l []]) as -> by congruence. apply snoc_not_nil. Qed.

Lemma only_sub w a b : only_removed w a b -> sub b a.
Proof. intros H q. destruct (H q) as [E | [E _]]; auto. Qed.
Lemma only_refl w a : only_removed w a a.
Proof. intros q. auto. Qed.
Lemma only_trans w a b c : only_removed w a b -> only_removed w b c -> only_removed w a c.
Proof.
  intros H1 H2 q. destruct (H2 q) as [-> | [E2 P2]]; [apply H1|]. right. auto.
Qed.
Lemma only_weaken w w' a b : (forall p, w' = WAt p -> w = WAt p) -> only_removed w' a b -> only_removed w a b.
Proof. intros H O q. destruct (O q) as [E | (E & p & Ep & B)]; [auto|]. right. split; [exact E|]. exists p. auto. Qed.

Section calls.
Variable ans : nat -> answer.
Variable hops : nat.

Lemma incl_ok a b : incl a b -> names_ok b -> names_ok a.
Proof. intros I H. unfold names_ok in *. rewrite Forall_forall in *. auto. Qed.
Lemma do_remove_only fs l : l <> [] -> Forall proper l -> only_removed (spot hops fs l) fs (fst (do_remove hops fs (render true l))) /\ incl (fst (do_remove hops fs (render true l))) fs.
Proof.
  intros Hn Hl. unfold do_remove. rewrite (place_of_text hops fs l Hn Hl). destruct (spot hops fs l) as [p| |] eqn:E; try (split; [apply only_refl|apply incl_refl]).
  pose proof (spot_nonempty _ _ _ _ E) as Np.
  assert (D : only_removed (WAt p) fs (rdel fs p) /\ incl (rdel fs p) fs).
  { split; [|intros x; unfold rdel; rewrite filter_In; tauto]. intros q. rewrite (rget_del _ _ _ Np). destruct (place_eqb p q) eqn:Q; [|auto].
    apply place_eqb_eq in Q. subst q. right. split; [reflexivity|]. exists p. split; [reflexivity|]. exists []. rewrite app_nil_r. reflexivity. }
  destruct (rget fs p) as [[m|m d|t]|]; try (split; [apply only_refl|apply incl_refl]); try exact D.
  destruct (rlist fs p); [exact D|split; [apply only_refl|apply incl_refl]].
Qed.
(* What a request does to the log. *)
Definition logged (l : list (list byte)) (st st' : srv) : Prop :=
  exists more, r_sent st' = r_sent st ++ more /\ Forall (fun p => exists l', Forall proper l' /\ p = render true (l ++ l')) more.
Lemma logged_refl l st : logged l st st.
Proof. exists []. rewrite app_nil_r. auto. Qed.
Lemma logged_trans l a b c : logged l a b -> logged l b c -> logged l a c.
Proof.
  intros (m1 & E1 & F1) (m2 & E2 & F2). exists (m1 ++ m2). rewrite E2, E1, app_assoc. split; [reflexivity|]. apply Forall_app. auto.
Qed.
Lemma logged_one l st st' : r_sent st' = r_sent st ++ [render true l] -> logged l st st'.
Proof. intros E. exists [render true l]. split; [exact E|]. constructor; [|constructor]. exists []. rewrite app_nil_r. auto. Qed.
Lemma logged_child l e a b : proper e -> logged (l ++ [e]) a b -> logged l a b.
Proof.
  intros He (m & E & F). exists m. split; [exact E|]. eapply Forall_impl; [|exact F]. cbn. intros p (l' & Hl' & ->).
  exists (e :: l'). split; [constructor; assumption|]. rewrite <- app_assoc. reflexivity.
Qed.
(* A step that only removes at or below w, and names only paths at or below l. *)
Definition tame (w : wres) (l : list (list byte)) (st st' : srv) : Prop :=
  only_removed w (r_fs st) (r_fs st') /\ incl (r_fs st') (r_fs st) /\ logged l st st'.
Lemma tame_trans w l a b c : tame w l a b -> tame w l b c -> tame w l a c.
Proof.
  intros (A1 & A2 & A3) (B1 & B2 & B3). split; [apply (only_trans _ _ _ _ A1 B1)|]. split; [eapply incl_tran; eassumption|apply (logged_trans _ _ _ _ A3 B3)].
Qed.
Lemma req_remove_tame st l : l <> [] -> Forall proper l -> tame (spot hops (r_fs st) l) l st (fst (req_remove ans hops st (render true l))).
Proof.
  intros Hn Hl. destruct (do_remove_only (r_fs st) l Hn Hl) as [O I]. unfold req_remove. destruct (ans (r_tick st)).
  - destruct (do_remove hops (r_fs st) (render true l)) as [fs r]. cbn [fst] in *. split; [exact O|]. split; [exact I|apply logged_one; reflexivity].
  - cbn [fst]. split; [apply only_refl|]. split; [apply incl_refl|apply logged_one; reflexivity].
  - cbn [fst]. split; [exact O|]. split; [exact I|apply logged_one; reflexivity].
Qed.
Lemma sent_tame w st l : tame w l st (sent st (render true l)).
Proof. split; [apply only_refl|]. split; [apply incl_refl|apply logged_one; reflexivity]. Qed.
(* A later step at the same path. *)
Lemma tame_after l st st1 st2 : tame (spot hops (r_fs st) l) l st st1 -> tame (spot hops (r_fs st1) l) l st1 st2 -> tame (spot hops (r_fs st) l) l st st2.
Proof.
  intros A B. eapply tame_trans; [exact A|]. destruct A as [O _]. destruct B as (B1 & B2 & B3). split; [|split; assumption].
  eapply only_weaken; [|exact B1]. intros p. apply spot_mono. apply (only_sub _ _ _ O).
Qed.
Lemma lstat_dir st l st' : l <> [] -> Forall proper l -> req_lstat ans hops st (render true l) = (st', inl true) ->
  exists p m, spot hops (r_fs st) l = WAt p /\ rget (r_fs st) p = Some (RDir m) /\ st' = sent st (render true l).
Proof.
  intros Hn Hl. unfold req_lstat. rewrite (place_of_text hops _ l Hn Hl). destruct (ans (r_tick st)); try discriminate.
  destruct (spot hops (r_fs st) l) as [p| |]; try discriminate. destruct (rget (r_fs st) p) as [[m|m d|t]|] eqn:G; try discriminate.
  intros E. exists p, m. split; [reflexivity|]. split; [exact G|]. congruence.
Qed.
Lemma rlist_proper fs p : names_ok fs -> Forall proper (rlist fs p).
Proof.
  intros H. unfold names_ok in H. rewrite Forall_forall in *. intros c Hc. apply rlist_in in Hc. destruct Hc as [n Hc]. specialize (H _ Hc). cbn in H.
  apply Forall_app in H. destruct H as [_ H]. inversion H; assumption.
Qed.
Lemma do_list_proper fs abs : names_ok fs -> Forall proper (fst (do_list hops fs abs)).
Proof.
  intros H. unfold do_list. destruct (target_of hops fs abs) as [p| |]; cbn; auto. destruct (rget fs p) as [[m|m d|t]|]; cbn; auto. apply rlist_proper. exact H.
Qed.
Lemma firstn_forall {A} (P : A -> Prop) k l : Forall P l -> Forall P (firstn k l).
Proof. intros H. revert k. induction H as [|x l Hx Hl IH]; intros [|k]; cbn; auto. Qed.
Lemma readdir_proper st abs st' es e : names_ok (r_fs st) -> req_readdir ans hops st abs = (st', (es, e)) -> Forall proper es /\ st' = sent st abs.
Proof.
  intros H. unfold req_readdir. intros E. assert (st' = sent st abs) by congruence. split; [|assumption].
  pose proof (do_list_proper (r_fs st) abs H) as D. destruct (ans (r_tick st)) as [|e0|e0 k].
  - assert (es = fst (do_list hops (r_fs st) abs)) as -> by (destruct (do_list hops (r_fs st) abs); cbn; congruence). exact D.
  - assert (es = []) as -> by congruence. constructor.
  - assert (es = firstn k (fst (do_list hops (r_fs st) abs))) as -> by congruence. apply firstn_forall. exact D.
Qed.

Lemma each_tame (f : srv -> list byte -> option (srv * option serr)) l p m fs0 : l <> [] -> Forall proper l -> spot hops fs0 l = WAt p -> rget fs0 p = Some (RDir m) ->
  (forall st e st' r, names_ok (r_fs st) -> proper e -> f st (render true (l ++ [e])) = Some (st', r) -> tame (spot hops (r_fs st) (l ++ [e])) (l ++ [e]) st st') ->
  forall es st first st' r, names_ok (r_fs st) -> sub (r_fs st) fs0 -> Forall proper es ->
    each f (render true l) es st first = Some (st', r) -> tame (WAt p) l st st'.
Proof.
  intros Hn Hl Sp G F. induction es as [|e es IH]; intros st first st' r Ok Sb He E; cbn [each] in E.
  - assert (st' = st) as -> by congruence. split; [apply only_refl|]. split; [apply incl_refl|apply logged_refl].
  - rewrite text_child in E by exact Hn. inversion He as [|? ? He1 He2]; subst.
    destruct (f st (render true (l ++ [e]))) as [[st1 r1]|] eqn:E1; [|discriminate].
    pose proof (F _ _ _ _ Ok He1 E1) as (O & I & L).
    assert (T : tame (WAt p) l st st1).
    { split; [|split; [exact I|apply (logged_child l e); assumption]]. intros q. destruct (O q) as [Q | (Q & p' & Ep & B)]; [auto|].
      right. split; [exact Q|]. exists p. split; [reflexivity|]. rewrite spot_child in Ep.
      destruct (walk hops (r_fs st) [] l) as [d| |] eqn:W; try discriminate. apply (walk_mono _ _ Sb) in W.
      rewrite (spot_walk hops fs0 l p m Hn Hl Sp G) in W. assert (p' = p ++ [e]) as -> by congruence. destruct B as [k ->]. exists (e :: k). rewrite <- app_assoc. reflexivity. }
    eapply tame_trans; [exact T|]. apply (IH st1 (first_of first r1) st' r); [apply (incl_ok _ _ I Ok)| |exact He2|exact E].
    eapply sub_trans; [apply (only_sub _ _ _ O)|exact Sb].
Qed.

Lemma remove_all_tame fuel : forall st l st' r, names_ok (r_fs st) -> l <> [] -> Forall proper l ->
  remove_all ans hops fuel st (render true l) = Some (st', r) -> tame (spot hops (r_fs st) l) l st st'.
Proof.
  induction fuel as [|fuel IH]; intros st l st' r Ok Hn Hl E; [discriminate|]. cbn [remove_all] in E.
  pose proof (req_remove_tame st l Hn Hl) as T1. destruct (req_remove ans hops st (render true l)) as [st1 r1]. cbn [fst] in T1.
  destruct r1 as [err|]; [|assert (st' = st1) as -> by congruence; exact T1].
  assert (Cont : (let '(st2, l0) := req_lstat ans hops st1 (render true l) in
    match l0 with inr ENoent => Some (st2, None) | inr lerr => Some (st2, Some lerr) | inl false => Some (st2, Some err)
    | inl true => let '(st3, (entries, first)) := req_readdir ans hops st2 (render true l) in
        match first with Some ENoent => Some (st3, None)
        | _ => match each (remove_all ans hops fuel) (render true l) entries st3 first with None => None
               | Some (st4, first) => let '(st5, r) := req_remove ans hops st4 (render true l) in
                   Some (st5, match r with Some (EFail c) => first_of first (Some (EFail c)) | _ => first end) end end end) = Some (st', r) -> tame (spot hops (r_fs st) l) l st st').
  { clear E. intros E. assert (Ok1 : names_ok (r_fs st1)) by (destruct T1 as (_ & I & _); apply (incl_ok _ _ I Ok)).
    pose proof (lstat_dir st1 l) as LD. assert (S2 : fst (req_lstat ans hops st1 (render true l)) = sent st1 (render true l)) by reflexivity.
    destruct (req_lstat ans hops st1 (render true l)) as [st2 l0]. cbn [fst] in S2. subst st2.
    assert (T2 : tame (spot hops (r_fs st) l) l st (sent st1 (render true l))) by (eapply tame_trans; [exact T1|apply sent_tame]).
    destruct l0 as [[]|[]]; try (assert (st' = sent st1 (render true l)) as -> by congruence; exact T2).
    destruct (LD _ Hn Hl eq_refl) as (p & m & Sp & G & _). clear LD.
    destruct (req_readdir ans hops (sent st1 (render true l)) (render true l)) as [st3 [es first]] eqn:R.
    apply readdir_proper in R; [|exact Ok1]. destruct R as [Hes ->].
    set (st3 := sent (sent st1 (render true l)) (render true l)) in *.
    assert (T3 : tame (spot hops (r_fs st) l) l st st3) by (eapply tame_trans; [exact T2|apply sent_tame]).
    assert (Fin : match each (remove_all ans hops fuel) (render true l) es st3 first with None => None
               | Some (st4, first) => let '(st5, r) := req_remove ans hops st4 (render true l) in
                   Some (st5, match r with Some (EFail c) => first_of first (Some (EFail c)) | _ => first end) end = Some (st', r) -> tame (spot hops (r_fs st) l) l st st').
    { clear E. intros E. destruct (each (remove_all ans hops fuel) (render true l) es st3 first) as [[st4 first4]|] eqn:Ea; [|discriminate].
      assert (T4 : tame (spot hops (r_fs st3) l) l st3 st4).
      { change (r_fs st3) with (r_fs st1). rewrite Sp.
        apply (each_tame (remove_all ans hops fuel) l p m (r_fs st1) Hn Hl Sp G) with (es := es) (first := first) (r := first4); try assumption.
        - intros s e s' r' Ok' He E'. apply IH with (r := r'); [exact Ok'|apply snoc_not_nil| |exact E']. apply Forall_app. auto.
        - apply sub_refl. }
      assert (T5 := tame_after _ _ _ _ T3 T4). pose proof (req_remove_tame st4 l Hn Hl) as T6. destruct (req_remove ans hops st4 (render true l)) as [st5 r5]. cbn [fst] in T6.
      assert (st' = st5) as -> by congruence. apply (tame_after _ _ _ _ T5 T6). }
    destruct first as [[|c]|]; [assert (st' = st3) as -> by congruence; exact T3|apply Fin; exact E|apply Fin; exact E]. }
  destruct err as [|c]; [assert (st' = st1) as -> by congruence; exact T1|apply Cont; exact E].
Qed.
End calls.
