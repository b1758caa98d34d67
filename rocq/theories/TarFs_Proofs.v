From Verif Require Import Common CommonLemmas ContentRange_Model ContentRange_Proofs PathLex_Model PathLex_Proofs CopyFs_Model CopyFs_Proofs TarFs_Model TarFs_Spec.
Require Import Permutation.
Open Scope nat_scope.

(* ---- string order ---- *)

Lemma beq_refl x : bytes_eqb x x = true.
Proof. apply bytes_eqb_eq. reflexivity. Qed.
Lemma beq_false x y : x <> y -> bytes_eqb x y = false.
Proof. intros H. destruct (bytes_eqb x y) eqn:E; [|reflexivity]. apply bytes_eqb_eq in E. contradiction. Qed.
Lemma bytes_eq_dec (x y : list N) : {x = y} + {x <> y}.
Proof. apply (list_eq_dec N.eq_dec). Qed.

Lemma str_ltb_trans a : forall b c, str_ltb a b = true -> str_ltb b c = true -> str_ltb a c = true.
Proof.
  induction a as [|x a IH]; intros [|y b] [|z c] H1 H2; cbn [str_ltb] in *; try discriminate; auto.
  apply orb_true_iff in H1, H2. apply orb_true_iff. rewrite !andb_true_iff, !N.ltb_lt, !N.eqb_eq in *.
  destruct H1 as [H1|[-> H1]], H2 as [H2|[<- H2]]; [left; lia|left; lia|left; lia|right]. split; [reflexivity|]. apply (IH b); assumption.
Qed.
Lemma str_ltb_total a : forall b, a <> b -> str_ltb a b = false -> str_ltb b a = true.
Proof.
  induction a as [|x a IH]; intros [|y b] Hne H; cbn [str_ltb] in *; try congruence; auto.
  apply orb_false_iff in H. destruct H as [H1 H2]. apply N.ltb_ge in H1. apply orb_true_iff.
  destruct (N.eq_dec x y) as [->|Hxy].
  - right. rewrite N.eqb_refl in *. cbn [andb] in *. apply IH; [congruence|exact H2].
  - left. apply N.ltb_lt. lia.
Qed.
Lemma str_ltb_app a b : b <> [] -> str_ltb a (a ++ b) = true.
Proof. intros H. induction a as [|x a IH]; cbn [app str_ltb]; [destruct b; [contradiction|reflexivity]|]. rewrite N.eqb_refl, IH. apply orb_true_r. Qed.
Lemma str_ltb_irrefl a : str_ltb a a = false.
Proof. induction a as [|x a IH]; cbn [str_ltb]; [reflexivity|]. rewrite N.ltb_irrefl, N.eqb_refl, IH. reflexivity. Qed.

Fixpoint ssorted (l : list (list byte)) : Prop :=
  match l with [] => True | x :: l => Forall (fun y => str_ltb x y = true) l /\ ssorted l end.

Lemma insert_sorted x l : ssorted l -> ssorted (insert_str x l).
Proof.
  induction l as [|y l IH]; intros H; cbn [insert_str]; [cbn; auto|].
  destruct (bytes_eqb x y) eqn:E; [exact H|]. destruct H as [H1 H2].
  destruct (str_ltb x y) eqn:E2.
  - cbn [ssorted]. split; [|split; assumption]. constructor; [exact E2|]. rewrite Forall_forall in *. intros z Hz. apply (str_ltb_trans x y z E2). apply H1, Hz.
  - cbn [ssorted]. split; [|apply IH; exact H2]. apply Forall_forall. intros z Hz. apply insert_str_in in Hz. destruct Hz as [->|Hz].
    + apply str_ltb_total; [|exact E2]. intros Exy. subst. rewrite beq_refl in E. discriminate.
    + rewrite Forall_forall in H1. apply H1, Hz.
Qed.
Lemma sorted_set_sorted l : ssorted (sorted_set l).
Proof. induction l as [|x l IH]; [exact I|]. cbn [sorted_set fold_right]. apply insert_sorted. exact IH. Qed.

(* ---- collect is the last entry ---- *)

Lemma collect_some arch key h : collect arch key = Some h <->
  exists a1 a2, arch = a1 ++ h :: a2 /\ key_of h = key /\ Forall (fun x => key_of x <> key) a2.
Proof.
  assert (forall arch key, collect arch key = None -> Forall (fun x => key_of x <> key) arch) as Hnone.
  { clear. intros arch key. induction arch as [|x arch IH]; intros H; [constructor|]. cbn [collect] in H. destruct (collect arch key); [discriminate|].
    destruct (bytes_eqb (clean (h_name x)) key) eqn:E; [discriminate|]. constructor; [|apply IH; reflexivity]. intros Ek. unfold key_of in Ek. rewrite Ek, beq_refl in E. discriminate. }
  assert (forall arch key, Forall (fun x => key_of x <> key) arch -> collect arch key = None) as Hnone2.
  { clear. intros arch key. induction 1 as [|x arch Hx _ IH]; [reflexivity|]. cbn [collect]. rewrite IH. rewrite beq_false by exact Hx. reflexivity. }
  split.
  - induction arch as [|x arch IH]; intros H; [discriminate|]. cbn [collect] in H. destruct (collect arch key) as [y|] eqn:E.
    + destruct (IH H) as (a1 & a2 & -> & Hk & Hf). exists (x :: a1), a2. auto.
    + destruct (bytes_eqb (clean (h_name x)) key) eqn:Eb; [|discriminate]. apply bytes_eqb_eq in Eb. apply some_inj in H. subst x. exists [], arch. split; [reflexivity|]. split; [exact Eb|]. apply Hnone, E.
  - intros (a1 & a2 & -> & Hk & Hf). induction a1 as [|x a1 IH]; cbn [app collect].
    + rewrite Hnone2 by exact Hf. unfold key_of in Hk. rewrite Hk, beq_refl. reflexivity.
    + rewrite IH. reflexivity.
Qed.

Lemma split_inj a b : split_sep a = split_sep b -> a = b.
Proof. intros H. rewrite <- (join_split a), <- (join_split b), H. reflexivity. Qed.

(* As in Spec, with the filter of the model. *)
Definition mwinner (o : topt) (arch : list hdr) (c : list (list byte)) (h : hdr) : Prop :=
  exists a1 a2, arch = a1 ++ h :: a2 /\ split_sep (key_of h) = c /\
    Forall (fun x => split_sep (key_of x) <> c) a2 /\ accepted o (key_of h) h = true /\ key_of h <> [dot].
Definition mcomplete (o : topt) (arch : list hdr) : Prop :=
  forall c h c0, mwinner o arch c h -> above c0 c -> c0 <> [] -> exists h0, mwinner o arch c0 h0 /\ h_type h0 = TDir.

Lemma entries_winner o arch c h : In (c, h) (entries o arch) <-> mwinner o arch c h.
Proof.
  unfold entries. rewrite in_flat_map. split.
  - intros (key & Hk & Hin). destruct (collect arch key) as [h'|] eqn:Ec; [|destruct Hin].
    destruct (accepted o key h' && negb (is_dot key)) eqn:Ea; [|destruct Hin]. destruct Hin as [E|[]]. assert (split_sep key = c /\ h' = h) as [<- ->] by (split; congruence).
    apply (proj1 (collect_some _ _ _)) in Ec. destruct Ec as (a1 & a2 & -> & Ek & Hf). apply andb_true_iff in Ea. destruct Ea as [Ea Ed].
    exists a1, a2. split; [reflexivity|]. rewrite Ek. split; [reflexivity|]. split; [|split; [exact Ea|]].
    + apply (Forall_impl _ (P := fun x => key_of x <> key)); [|exact Hf]. intros x Hx E2. apply Hx. apply split_inj, E2.
    + intros E2. subst key. rewrite E2 in Ed. discriminate Ed.
  - intros (a1 & a2 & -> & Ek & Hf & Ha & Hd). exists (key_of h). split.
    + apply sorted_set_in. apply in_map_iff. exists h. split; [reflexivity|]. apply in_or_app. right. left. reflexivity.
    + assert (collect (a1 ++ h :: a2) (key_of h) = Some h) as ->.
      { apply collect_some. exists a1, a2. split; [reflexivity|]. split; [reflexivity|]. apply (Forall_impl _ (P := fun x => split_sep (key_of x) <> c)); [|exact Hf].
        intros x Hx E. apply Hx. rewrite E. exact Ek. }
      rewrite Ha. assert (is_dot (key_of h) = false) as -> by (apply beq_false; exact Hd). cbn [andb negb]. left. congruence.
Qed.

(* Keys come in an order in which nothing at or below a key comes before it. *)
Definition at_or_below (k k' : list (list byte)) : Prop := exists r, k' = k ++ r.
Fixpoint prefix_first (l : list (list (list byte) * hdr)) : Prop :=
  match l with [] => True | (k, h) :: l => Forall (fun e => ~ at_or_below (fst e) k) l /\ prefix_first l end.

Lemma join_sep_app_lt a b : a <> [] -> b <> [] -> str_ltb (join_sep a) (join_sep (a ++ b)) = true.
Proof.
  intros Ha Hb. rewrite join_app by assumption. apply str_ltb_app. discriminate.
Qed.

Lemma entries_prefix_first o arch : prefix_first (entries o arch).
Proof.
  unfold entries. pose proof (sorted_set_sorted (map (fun h => clean (h_name h)) arch)) as Hs. revert Hs.
  generalize (sorted_set (map (fun h => clean (h_name h)) arch)) as ks. induction ks as [|k ks IH]; intros H; [exact I|].
  destruct H as [H1 H2]. cbn [flat_map]. specialize (IH H2). destruct (collect arch k) as [h|]; [|exact IH].
  destruct (accepted o k h && negb (is_dot k)); [|exact IH]. cbn [app prefix_first]. split; [|exact IH].
  apply Forall_forall. intros [c' h'] Hin. apply in_flat_map in Hin. destruct Hin as (k' & Hk' & Hin). rewrite Forall_forall in H1. specialize (H1 k' Hk').
  destruct (collect arch k') as [h''|]; [|destruct Hin]. destruct (accepted o k' h'' && negb (is_dot k')); [|destruct Hin]. destruct Hin as [E|[]].
  assert (split_sep k' = c') as <- by congruence. cbn [fst]. intros (r & Er).
  assert (k' = k \/ str_ltb k' k = true) as Hc.
  { rewrite <- (join_split k), Er. rewrite <- (join_split k') at 1 3. destruct r as [|x r]; [rewrite app_nil_r; left; reflexivity|].
    right. apply join_sep_app_lt; [apply split_nonempty|discriminate]. }
  destruct Hc as [->|Hc]; [rewrite str_ltb_irrefl in H1; discriminate|]. pose proof (str_ltb_trans _ _ _ H1 Hc) as Hx. rewrite str_ltb_irrefl in Hx. discriminate.
Qed.

(* ---- adding an entry ---- *)

Lemma get_put_same c n files : get c (put c n files) = Some n.
Proof. induction files as [|[x m] files IH]; cbn [put get]; [rewrite beq_refl; reflexivity|]. destruct (bytes_eqb x c) eqn:E; cbn [get]; rewrite E; [reflexivity|exact IH]. Qed.
Lemma get_put_other c c' n files : c' <> c -> get c' (put c n files) = get c' files.
Proof.
  intros H. induction files as [|[x m] files IH]; cbn [put get]; [rewrite beq_false by congruence; reflexivity|].
  destruct (bytes_eqb x c) eqn:E; cbn [get].
  - apply bytes_eqb_eq in E. subst. rewrite beq_false by congruence. reflexivity.
  - rewrite IH. reflexivity.
Qed.

Definition is_dirn (n : tnode) : Prop := exists h f o, n = NDir h f o.

Lemma add_child_dir k h d : is_dirn d -> exists h0 f o, add_child k h d = NDir h0 f o /\ header d = h0.
Proof.
  intros (dh & f & o & ->). destruct k as [|c [|c' k]]; cbn [add_child].
  - eauto 6.
  - destruct (h_type h); try (eexists; eexists; eexists; split; reflexivity). destruct (get c f) as [[? ? ?| | |]|]; eexists; eexists; eexists; split; reflexivity.
  - destruct (get c f) as [[? ? ?| | |]|]; eexists; eexists; eexists; split; reflexivity.
Qed.

Lemma tfind_leaf n c p : ~ is_dirn n -> tfind n (c :: p) = None.
Proof. intros H. destruct n; cbn; try reflexivity. exfalso. apply H. unfold is_dirn. eauto. Qed.

Lemma leaf_not_dir h : ~ is_dirn (leaf h).
Proof. intros (a & b & c & E). unfold leaf in E. destruct (h_type h); discriminate. Qed.

Definition new_view (h : hdr) : view := match h_type h with TDir => VDir (Some h) | _ => VLeaf (leaf h) end.
Definition dir_header (v : option view) : option hdr := match v with Some (VDir h) => h | _ => None end.

Definition strict_prefixb (c k : list (list byte)) : bool :=
  (length c <? length k) && path_eqb c (firstn (length c) k).

Lemma path_eqb_eq a b : path_eqb a b = true <-> a = b.
Proof. unfold path_eqb. destruct (list_eq_dec (list_eq_dec N.eq_dec) a b); split; congruence. Qed.
Lemma path_eqb_refl a : path_eqb a a = true.
Proof. apply path_eqb_eq. reflexivity. Qed.
Lemma path_eqb_neq a b : a <> b -> path_eqb a b = false.
Proof. intros H. destruct (path_eqb a b) eqn:E; [|reflexivity]. apply path_eqb_eq in E. contradiction. Qed.

Lemma strict_prefixb_spec c k : strict_prefixb c k = true <-> above c k.
Proof.
  unfold strict_prefixb. rewrite andb_true_iff, Nat.ltb_lt, path_eqb_eq. split.
  - intros [Hl E]. rewrite <- (firstn_skipn (length c) k). destruct (skipn (length c) k) as [|x r] eqn:Es.
    + apply (f_equal (@length _)) in Es. rewrite skipn_length in Es. cbn in Es. lia.
    + exists x, r. rewrite <- E. reflexivity.
  - intros (x & r & ->). rewrite app_length. cbn [length]. split; [lia|]. rewrite firstn_app, Nat.sub_diag, firstn_all. cbn. rewrite app_nil_r. reflexivity.
Qed.

Lemma path_eqb_cons x a b : path_eqb (x :: a) (x :: b) = path_eqb a b.
Proof. destruct (path_eqb a b) eqn:E; [apply path_eqb_eq in E; subst; apply path_eqb_refl|]. apply path_eqb_neq. intros E2. assert (a = b) by congruence. subst. rewrite path_eqb_refl in E. discriminate. Qed.
Lemma strict_prefixb_cons x a b : strict_prefixb (x :: a) (x :: b) = strict_prefixb a b.
Proof. unfold strict_prefixb. cbn [length firstn]. rewrite path_eqb_cons. reflexivity. Qed.
Lemma strict_prefixb_cons_ne x y a b : x <> y -> strict_prefixb (x :: a) (y :: b) = false.
Proof. intros H. unfold strict_prefixb. cbn [length firstn]. rewrite path_eqb_neq by congruence. apply andb_false_r. Qed.

Lemma add_find k h : k <> [] -> forall d, is_dirn d -> tfind d k = None -> forall c, c <> [] ->
  option_map view_of (tfind (add_child k h d) c) =
  if path_eqb c k then Some (new_view h)
  else if strict_prefixb c k then Some (VDir (dir_header (option_map view_of (tfind d c))))
  else option_map view_of (tfind d c).
Proof.
  induction k as [|x k IH]; intros Hk d (dh & files & ord & ->) Hnone c Hc; [contradiction|]. destruct c as [|y c]; [contradiction|]. cbn [tfind] in Hnone.
  destruct k as [|x2 k].
  - assert (get x files = None) as Hg by (destruct (get x files); [discriminate|reflexivity]).
    assert (exists n o, add_child [x] h (NDir dh files ord) = NDir dh (put x n files) o /\ view_of n = new_view h /\ forall z zs, tfind n (z :: zs) = None) as (n & o & Ea & Hv & Hl).
    { cbn [add_child]. unfold new_view. destruct (h_type h) eqn:Et;
        try (exists (leaf h); eexists; split; [reflexivity|]; split; [unfold leaf; rewrite Et; reflexivity|]; intros z zs; apply tfind_leaf, leaf_not_dir).
      rewrite Hg. eexists; eexists; split; [reflexivity|]. split; [reflexivity|]. reflexivity. }
    rewrite Ea. cbn [tfind]. destruct (bytes_eq_dec y x) as [->|Hyx].
    + rewrite get_put_same, path_eqb_cons, strict_prefixb_cons. destruct c as [|z c].
      * rewrite path_eqb_refl. cbn. rewrite Hv. reflexivity.
      * rewrite Hl, Hg. rewrite path_eqb_neq by discriminate. reflexivity.
    + rewrite get_put_other by exact Hyx. rewrite path_eqb_neq by congruence. rewrite strict_prefixb_cons_ne by exact Hyx. reflexivity.
  - assert (exists child o, add_child (x :: x2 :: k) h (NDir dh files ord) = NDir dh (put x (add_child (x2 :: k) h child) files) o /\
        is_dirn child /\ tfind child (x2 :: k) = None /\
        (header child = dir_header (option_map view_of (get x files))) /\
        (forall c, c <> [] -> tfind child c = match get x files with Some n => tfind n c | None => None end)) as (child & o & Ea & Hd & Hn & Hh & Hf).
    { cbn [add_child]. destruct (get x files) as [[ch f oo|hh|hh|hh]|] eqn:Hg.
      - exists (NDir ch f oo), ord. split; [reflexivity|]. split; [unfold is_dirn; eauto|]. split; [exact Hnone|]. split; [reflexivity|]. reflexivity.
      - exists (NDir None [] []). eexists. split; [reflexivity|]. split; [unfold is_dirn; eauto|]. split; [reflexivity|]. split; [reflexivity|]. intros [|]; [contradiction|reflexivity].
      - exists (NDir None [] []). eexists. split; [reflexivity|]. split; [unfold is_dirn; eauto|]. split; [reflexivity|]. split; [reflexivity|]. intros [|]; [contradiction|reflexivity].
      - exists (NDir None [] []). eexists. split; [reflexivity|]. split; [unfold is_dirn; eauto|]. split; [reflexivity|]. split; [reflexivity|]. intros [|]; [contradiction|reflexivity].
      - exists (NDir None [] []). eexists. split; [reflexivity|]. split; [unfold is_dirn; eauto|]. split; [reflexivity|]. split; [reflexivity|]. intros [|]; [contradiction|reflexivity]. }
    rewrite Ea. cbn [tfind]. destruct (bytes_eq_dec y x) as [->|Hyx].
    + rewrite get_put_same, path_eqb_cons, strict_prefixb_cons. destruct c as [|z c].
      * cbn [tfind]. destruct (add_child_dir (x2 :: k) h child Hd) as (h0 & f0 & o0 & Ead & Eh). rewrite Ead. cbn [option_map view_of].
        rewrite path_eqb_neq by discriminate. change (strict_prefixb [] (x2 :: k)) with true. cbn iota. rewrite <- Eh, Hh. destruct (get x files); reflexivity.
      * rewrite IH; [|discriminate|exact Hd|exact Hn|discriminate]. rewrite Hf by discriminate. reflexivity.
    + rewrite get_put_other by exact Hyx. rewrite path_eqb_neq by congruence. rewrite strict_prefixb_cons_ne by exact Hyx. reflexivity.
Qed.

(* ---- the whole tree ---- *)

Fixpoint elookup (E : list (list (list byte) * hdr)) (c : list (list byte)) : option hdr :=
  match E with [] => None | (k, h) :: E => if path_eqb k c then Some h else elookup E c end.
Definition spec_at (E : list (list (list byte) * hdr)) (c : list (list byte)) : option view :=
  let rest := if existsb (fun e => strict_prefixb c (fst e)) E then Some (VDir None)
              else match elookup E c with Some h => Some (VLeaf (leaf h)) | None => None end in
  match elookup E c with
  | Some h => match h_type h with TDir => Some (VDir (Some h)) | _ => rest end
  | None => rest
  end.

Lemma elookup_app E E' c : elookup (E ++ E') c = match elookup E c with Some h => Some h | None => elookup E' c end.
Proof. induction E as [|[k h] E IH]; [reflexivity|]. cbn [app elookup]. destruct (path_eqb k c); [reflexivity|exact IH]. Qed.

Lemma elookup_none E c : (forall e, In e E -> fst e <> c) -> elookup E c = None.
Proof. induction E as [|[k h] E IH]; intros H; [reflexivity|]. cbn [elookup]. rewrite path_eqb_neq by (apply (H (k, h)); left; reflexivity). apply IH. intros e He. apply H. right. exact He. Qed.

Lemma spec_step P k h c : (forall e, In e P -> ~ at_or_below k (fst e)) ->
  spec_at (P ++ [(k, h)]) c =
  if path_eqb c k then Some (new_view h)
  else if strict_prefixb c k then Some (VDir (dir_header (spec_at P c)))
  else spec_at P c.
Proof.
  intros Hno. unfold spec_at. rewrite existsb_app. cbn [existsb fst]. rewrite orb_false_r. rewrite elookup_app. cbn [elookup].
  destruct (path_eqb c k) eqn:E.
  - apply path_eqb_eq in E. subst c. rewrite path_eqb_refl. rewrite elookup_none.
    2: { intros e He Ek. apply (Hno e He). exists []. rewrite app_nil_r. exact Ek. }
    assert (existsb (fun e => strict_prefixb k (fst e)) P = false) as ->.
    { destruct (existsb (fun e => strict_prefixb k (fst e)) P) eqn:Ex; [|reflexivity]. apply existsb_exists in Ex. destruct Ex as (e & He & Hp). apply strict_prefixb_spec in Hp. destruct Hp as (x & r & Er).
      exfalso. apply (Hno e He). exists (x :: r). exact Er. }
    assert (strict_prefixb k k = false) as -> by (unfold strict_prefixb; rewrite Nat.ltb_irrefl; reflexivity). cbn [orb]. unfold new_view. destruct (h_type h); reflexivity.
  - assert (path_eqb k c = false) as -> by (apply path_eqb_neq; intros E2; subst; rewrite path_eqb_refl in E; discriminate).
    destruct (strict_prefixb c k) eqn:Ep.
    + rewrite orb_true_r. destruct (elookup P c) as [h0|]; [destruct (h_type h0)|]; try reflexivity; destruct (existsb (fun e => strict_prefixb c (fst e)) P); reflexivity.
    + rewrite orb_false_r. destruct (elookup P c); reflexivity.
Qed.

Lemma spec_at_none P k : (forall e, In e P -> ~ at_or_below k (fst e)) -> spec_at P k = None.
Proof.
  intros Hno. unfold spec_at. rewrite elookup_none by (intros e He Ek; apply (Hno e He); exists []; rewrite app_nil_r; exact Ek).
  destruct (existsb (fun e => strict_prefixb k (fst e)) P) eqn:Ex; [|reflexivity]. apply existsb_exists in Ex. destruct Ex as (e & He & Hp). apply strict_prefixb_spec in Hp. destruct Hp as (x & r & Er).
  exfalso. apply (Hno e He). exists (x :: r). exact Er.
Qed.

Lemma prefix_first_app P E : prefix_first (P ++ E) -> forall e, In e P -> forall e', In e' E -> ~ at_or_below (fst e') (fst e).
Proof.
  induction P as [|[k h] P IH]; intros H e He e' He'; [destruct He|]. cbn [app prefix_first] in H. destruct H as [H1 H2].
  destruct He as [<-|He]; [|apply (IH H2 e He e' He')]. rewrite Forall_forall in H1. apply H1. apply in_or_app. right. exact He'.
Qed.

Lemma fold_find E : Forall (fun e => fst e <> []) E -> forall P t, prefix_first (P ++ E) -> is_dirn t ->
  (forall c, c <> [] -> option_map view_of (tfind t c) = spec_at P c) ->
  let t' := fold_left (fun t e => add_child (fst e) (snd e) t) E t in
  is_dirn t' /\ forall c, c <> [] -> option_map view_of (tfind t' c) = spec_at (P ++ E) c.
Proof.
  induction 1 as [|[k h] E Hk _ IH]; intros P t Hpf Hd Ht; cbn [fold_left].
  - split; [exact Hd|]. rewrite app_nil_r. exact Ht.
  - cbn [fst snd] in *.
    assert (forall e, In e P -> ~ at_or_below k (fst e)) as Hno by (intros e He; apply (prefix_first_app P ((k, h) :: E) Hpf e He (k, h)); left; reflexivity).
    assert (tfind t k = None) as Hn.
    { pose proof (Ht k Hk) as Hv. rewrite spec_at_none in Hv by exact Hno. destruct (tfind t k); [discriminate|reflexivity]. }
    replace (P ++ (k, h) :: E) with ((P ++ [(k, h)]) ++ E) in * by (rewrite <- app_assoc; reflexivity).
    apply IH; [exact Hpf|destruct (add_child_dir k h t Hd) as (h0 & f0 & o0 & Ea & _); rewrite Ea; unfold is_dirn; eauto|].
    intros c Hc. rewrite (add_find k h Hk t Hd Hn c Hc). rewrite spec_step by exact Hno. rewrite Ht by exact Hc. reflexivity.
Qed.

Lemma entries_nonempty o arch : Forall (fun e => fst e <> []) (entries o arch).
Proof.
  apply Forall_forall. intros [c h] Hin. apply (proj1 (entries_winner _ _ _ _)) in Hin. destruct Hin as (a1 & a2 & _ & <- & _). cbn [fst]. apply split_nonempty.
Qed.

Lemma tar_new_find o arch c : c <> [] -> option_map view_of (tfind (tar_new o arch) c) = spec_at (entries o arch) c.
Proof.
  intros Hc. unfold tar_new. apply (fold_find (entries o arch) (entries_nonempty o arch) []); [apply entries_prefix_first|unfold is_dirn; eauto| |exact Hc].
  intros c0 Hc0. destruct c0; [contradiction|]. reflexivity.
Qed.

Lemma elookup_winner o arch c h : elookup (entries o arch) c = Some h <-> mwinner o arch c h.
Proof.
  rewrite <- entries_winner. pose proof (entries_prefix_first o arch) as Hpf. revert Hpf. generalize (entries o arch) as E. induction E as [|[k h'] E IH]; intros H; [split; [discriminate|intros []]|].
  destruct H as [H1 H2]. cbn [elookup]. destruct (path_eqb k c) eqn:Ek.
  - apply path_eqb_eq in Ek. subst k. split; [intros E2; left; congruence|]. intros [E2|Hin]; [congruence|]. rewrite Forall_forall in H1. exfalso. apply (H1 _ Hin). exists []. rewrite app_nil_r. reflexivity.
  - rewrite (IH H2). split; [intros Hin; right; exact Hin|]. intros [E2|Hin]; [|exact Hin]. assert (k = c) by congruence. subst. rewrite path_eqb_refl in Ek. discriminate.
Qed.

Lemma below_winner o arch c : existsb (fun e => strict_prefixb c (fst e)) (entries o arch) = true <-> exists c' h, mwinner o arch c' h /\ above c c'.
Proof.
  rewrite existsb_exists. split.
  - intros ([c' h] & Hin & Hp). exists c', h. split; [apply entries_winner, Hin|]. apply strict_prefixb_spec, Hp.
  - intros (c' & h & Hw & Ha). exists (c', h). split; [apply entries_winner, Hw|]. apply strict_prefixb_spec, Ha.
Qed.

Lemma mtar_lookup o arch c : c <> [] ->
  let v := option_map view_of (tfind (tar_new o arch) c) in
  (forall h, mwinner o arch c h -> h_type h = TDir -> v = Some (VDir (Some h))) /\
  ((forall h, mwinner o arch c h -> h_type h <> TDir) -> (exists c' h', mwinner o arch c' h' /\ above c c') -> v = Some (VDir None)) /\
  (forall h, mwinner o arch c h -> h_type h <> TDir -> (forall c' h', mwinner o arch c' h' -> ~ above c c') -> v = Some (VLeaf (leaf h))) /\
  ((forall h, ~ mwinner o arch c h) -> (forall c' h', mwinner o arch c' h' -> ~ above c c') -> v = None).
Proof.
  intros Hc. cbv zeta. rewrite tar_new_find by exact Hc. unfold spec_at. cbv zeta.
  assert ((forall c' h', mwinner o arch c' h' -> ~ above c c') -> existsb (fun e => strict_prefixb c (fst e)) (entries o arch) = false) as Hnb.
  { intros H. destruct (existsb (fun e => strict_prefixb c (fst e)) (entries o arch)) eqn:E; [|reflexivity]. apply (proj1 (below_winner _ _ _)) in E. destruct E as (c' & h & Hw & Ha). destruct (H c' h Hw Ha). }
  split; [|split; [|split]].
  - intros h Hw Ht. apply elookup_winner in Hw. rewrite Hw, Ht. reflexivity.
  - intros Hnd Hex. apply below_winner in Hex. rewrite Hex. destruct (elookup (entries o arch) c) as [h|] eqn:E; [|reflexivity].
    apply (proj1 (elookup_winner _ _ _ _)) in E. specialize (Hnd h E). destruct (h_type h); congruence.
  - intros h Hw Hnt Hb. rewrite (Hnb Hb). apply elookup_winner in Hw. rewrite Hw. destruct (h_type h); congruence.
  - intros Hw Hb. rewrite (Hnb Hb). destruct (elookup (entries o arch) c) as [h|] eqn:E; [|reflexivity]. apply (proj1 (elookup_winner _ _ _ _)) in E. destruct (Hw h E).
Qed.

(* ---- listings ---- *)

Inductive tidy : tnode -> Prop :=
| TidyDir h files ordered : NoDup (map fst files) -> ordered = map OLive (map fst files) ->
    (forall c n, In (c, n) files -> tidy n) -> tidy (NDir (Some h) files ordered)
| TidyFile h : tidy (NFile h)
| TidySym h : tidy (NSym h)
| TidyHard h : tidy (NHard h).

Lemma get_in c n files : get c files = Some n -> In (c, n) files.
Proof.
  induction files as [|[x m] files IH]; cbn [get]; [discriminate|]. destruct (bytes_eqb x c) eqn:E; [apply bytes_eqb_eq in E; subst; intros H; apply some_inj in H; subst; left; reflexivity|].
  intros H. right. apply IH, H.
Qed.
Lemma get_in_iff c n files : NoDup (map fst files) -> In (c, n) files -> get c files = Some n.
Proof.
  induction files as [|[x m] files IH]; intros Hnd Hin; [destruct Hin|]. cbn [map fst] in Hnd. inversion Hnd as [|? ? Hx Hnd']; subst. cbn [get]. destruct Hin as [E|Hin].
  - assert (x = c /\ m = n) as [-> ->] by (split; congruence). rewrite beq_refl. reflexivity.
  - rewrite beq_false; [apply IH; assumption|]. intros ->. apply Hx. apply in_map_iff. exists (c, n). auto.
Qed.
Lemma put_absent c n files : get c files = None -> put c n files = files ++ [(c, n)].
Proof. induction files as [|[x m] files IH]; cbn [get put app]; [reflexivity|]. destruct (bytes_eqb x c); [discriminate|]. intros H. rewrite IH by exact H. reflexivity. Qed.
Lemma put_names c n m files : get c files = Some m -> map fst (put c n files) = map fst files.
Proof. induction files as [|[x m'] files IH]; cbn [get put]; [discriminate|]. destruct (bytes_eqb x c); [reflexivity|]. intros H. cbn [map fst]. rewrite IH by exact H. reflexivity. Qed.
Lemma put_in c n files e : In e (put c n files) -> e = (c, n) \/ In e files.
Proof.
  induction files as [|[x m] files IH]; cbn [put]; [intros [H|[]]; auto|]. destruct (bytes_eqb x c) eqn:E.
  - apply bytes_eqb_eq in E. subst. intros [H|H]; [left; congruence|right; right; exact H].
  - intros [H|H]; [right; left; exact H|]. destruct (IH H); auto. right; right; assumption.
Qed.
Lemma get_none_notin c files : get c files = None -> ~ In c (map fst files).
Proof.
  induction files as [|[x m] files IH]; cbn [get map fst]; [intros _ []|]. destruct (bytes_eqb x c) eqn:E; [discriminate|]. intros H [Hi|Hi]; [subst; rewrite beq_refl in E; discriminate|exact (IH H Hi)].
Qed.

Lemma add_tidy k h : k <> [] -> forall d, is_dirn d -> tidy d -> tfind d k = None ->
  (forall c0, above c0 k -> exists n, tfind d c0 = Some n /\ is_dirn n) -> tidy (add_child k h d).
Proof.
  induction k as [|x k IH]; intros Hk d (dh & files & ord & ->) Ht Hnone Hpar; [contradiction|]. cbn [tfind] in Hnone.
  inversion Ht as [h0 ? ? Hnd Hord Hch| | |]; subst. destruct k as [|x2 k].
  - assert (get x files = None) as Hg by (destruct (get x files); [discriminate|reflexivity]).
    assert (exists n, add_child [x] h (NDir (Some h0) files (map OLive (map fst files))) = NDir (Some h0) (files ++ [(x, n)]) (map OLive (map fst files) ++ [OLive x]) /\ tidy n) as (n & -> & Hn).
    { cbn [add_child].
      destruct (h_type h) eqn:Et.
      2: { exists (NDir (Some h) [] []). rewrite Hg, put_absent by exact Hg. split; [reflexivity|]. constructor; [constructor|reflexivity|intros ? ? []]. }
      all: exists (leaf h); rewrite Hg, put_absent by exact Hg; (split; [reflexivity|]); unfold leaf; rewrite Et; constructor. }
    constructor.
    + rewrite map_app. cbn [map fst]. apply (Permutation_NoDup (Permutation_cons_append (map fst files) x)). constructor; [apply get_none_notin; exact Hg|exact Hnd].
    + rewrite !map_app. reflexivity.
    + intros c n0 Hin. apply in_app_or in Hin. destruct Hin as [Hin|[E|[]]]; [apply (Hch c n0 Hin)|]. assert (n0 = n) as -> by congruence. exact Hn.
  - destruct (Hpar [x]) as (m & Em & Hm); [exists x2, k; reflexivity|]. cbn [tfind] in Em. destruct (get x files) as [m'|] eqn:Hg; [|discriminate]. assert (m' = m) as -> by (cbn in Em; congruence).
    destruct Hm as (mh & mf & mo & ->).
    assert (add_child (x :: x2 :: k) h (NDir (Some h0) files (map OLive (map fst files))) = NDir (Some h0) (put x (add_child (x2 :: k) h (NDir mh mf mo)) files) (map OLive (map fst files))) as ->.
    { change (add_child (x :: x2 :: k) h (NDir (Some h0) files (map OLive (map fst files)))) with
        (match get x files with
         | Some (NDir ch f o) => NDir (Some h0) (put x (add_child (x2 :: k) h (NDir ch f o)) files) (map OLive (map fst files))
         | old => NDir (Some h0) (put x (add_child (x2 :: k) h (NDir None [] [])) files) (stale x old (map OLive (map fst files)) ++ [OLive x])
         end). rewrite Hg. reflexivity. }
    constructor.
    + rewrite (put_names _ _ _ _ Hg). exact Hnd.
    + rewrite (put_names _ _ _ _ Hg). reflexivity.
    + intros c n0 Hin. apply put_in in Hin. destruct Hin as [E|Hin]; [|apply (Hch c n0 Hin)]. assert (n0 = add_child (x2 :: k) h (NDir mh mf mo)) as -> by congruence.
      apply IH; [discriminate|unfold is_dirn; eauto|apply (Hch x), get_in, Hg|exact Hnone|].
      intros c0 (z & r & E0). destruct (Hpar (x :: c0)) as (m2 & Em2 & Hm2); [exists z, r; cbn; congruence|]. cbn [tfind] in Em2. rewrite Hg in Em2. exists m2. auto.
Qed.

Lemma all_some_map {A B} (f : A -> option B) l : (forall x, In x l -> exists y, f x = Some y) -> exists ys, all_some (map f l) = Some ys /\ Forall2 (fun x y => f x = Some y) l ys.
Proof.
  induction l as [|x l IH]; intros H; [exists []; split; [reflexivity|constructor]|].
  destruct (H x (or_introl eq_refl)) as (y & Ey). destruct IH as (ys & E & F); [intros z Hz; apply H; right; exact Hz|].
  exists (y :: ys). cbn [map all_some]. rewrite Ey, E. split; [reflexivity|]. constructor; assumption.
Qed.

Lemma tidy_header n : tidy n -> exists h, header n = Some h.
Proof. intros H. destruct H; cbn; eauto. Qed.

Lemma tidy_list h files ordered : tidy (NDir h files ordered) ->
  exists hs, list_dir (NDir h files ordered) = Some hs /\ Forall2 (fun e y => header (snd e) = Some y) files hs.
Proof.
  intros H. inversion H as [h0 ? ? Hnd Hord Hch| | |]; subst. cbn [list_dir].
  assert (firstn (length files) (map OLive (map fst files)) = map OLive (map fst files)) as -> by (apply firstn_all2; rewrite !map_length; lia).
  assert (map (oref_header files) (map OLive (map fst files)) = map (fun e => header (snd e)) files) as ->.
  { rewrite !map_map. apply map_ext_in. intros [c n] Hin. cbn [fst snd oref_header]. rewrite (get_in_iff c n files Hnd Hin). reflexivity. }
  apply all_some_map. intros [c n] Hin. cbn [snd]. apply tidy_header. apply (Hch c n Hin).
Qed.

Lemma tidy_find t : tidy t -> forall p n, tfind t p = Some n -> tidy n.
Proof.
  intros Ht p. revert t Ht. induction p as [|c p IH]; intros t Ht n H; [cbn in H; apply some_inj in H; subst; exact Ht|].
  cbn [tfind] in H. destruct t as [h files o| | |]; try discriminate. destruct (get c files) as [m|] eqn:Hg; [|discriminate].
  inversion Ht as [? ? ? ? ? Hch| | |]; subst. apply (IH m); [|exact H]. apply (Hch c m), get_in, Hg.
Qed.

Lemma fold_tidy o arch E : mcomplete o arch -> Forall (fun e => fst e <> []) E -> forall P t, P ++ E = entries o arch -> is_dirn t -> tidy t ->
  (forall c, c <> [] -> option_map view_of (tfind t c) = spec_at P c) ->
  tidy (fold_left (fun t e => add_child (fst e) (snd e) t) E t).
Proof.
  intros Hco. induction 1 as [|[k h] E Hk _ IH]; intros P t HPE Hd Htd Ht; cbn [fold_left]; [exact Htd|]. cbn [fst snd] in *.
  pose proof (entries_prefix_first o arch) as Hpf. rewrite <- HPE in Hpf.
  assert (forall e, In e P -> ~ at_or_below k (fst e)) as Hno by (intros e He; apply (prefix_first_app P ((k, h) :: E) Hpf e He (k, h)); left; reflexivity).
  assert (tfind t k = None) as Hn.
  { pose proof (Ht k Hk) as Hv. rewrite spec_at_none in Hv by exact Hno. destruct (tfind t k); [discriminate|reflexivity]. }
  apply (IH (P ++ [(k, h)])).
  - rewrite <- app_assoc. exact HPE.
  - destruct (add_child_dir k h t Hd) as (h0 & f0 & o0 & Ea & _). rewrite Ea. unfold is_dirn. eauto.
  - apply add_tidy; [exact Hk|exact Hd|exact Htd|exact Hn|]. intros c0 Ha.
    destruct c0 as [|z c0]; [exists t; split; [reflexivity|exact Hd]|].
    assert (mwinner o arch k h) as Hw by (apply entries_winner; rewrite <- HPE; apply in_or_app; right; left; reflexivity).
    destruct (Hco k h (z :: c0) Hw Ha) as (h0 & Hw0 & Ht0); [discriminate|].
    assert (In (z :: c0, h0) P) as HinP.
    { pose proof (proj2 (entries_winner _ _ _ _) Hw0) as Hin. rewrite <- HPE in Hin. apply in_app_or in Hin. destruct Hin as [Hin|[E1|Hin]]; [exact Hin|..].
      - exfalso. assert (k = z :: c0) as -> by congruence. destruct Ha as (y & r & E2). apply (f_equal (@length _)) in E2. rewrite app_length in E2. cbn in E2. lia.
      - exfalso. replace (P ++ (k, h) :: E) with ((P ++ [(k, h)]) ++ E) in Hpf by (rewrite <- app_assoc; reflexivity).
        assert (In (k, h) (P ++ [(k, h)])) as Hkin by (apply in_or_app; right; left; reflexivity).
        apply (prefix_first_app (P ++ [(k, h)]) E Hpf (k, h) Hkin _ Hin). destruct Ha as (y & r & ->). exists (y :: r). reflexivity. }
    assert (elookup P (z :: c0) = Some h0) as Hl.
    { pose proof (proj2 (elookup_winner _ _ _ _) Hw0) as Hl. rewrite <- HPE, elookup_app in Hl. destruct (elookup P (z :: c0)) as [h1|] eqn:E1; [exact Hl|]. exfalso.
      clear -HinP E1. induction P as [|[a b] P IHP]; [destruct HinP|]. cbn [elookup] in E1. destruct (path_eqb a (z :: c0)) eqn:Ea; [discriminate|].
      destruct HinP as [E|H]; [|apply IHP; assumption]. assert (a = z :: c0) by congruence. subst. rewrite path_eqb_refl in Ea. discriminate. }
    pose proof (Ht (z :: c0) ltac:(discriminate)) as Hv. unfold spec_at in Hv. rewrite Hl, Ht0 in Hv. destruct (tfind t (z :: c0)) as [n|]; [|discriminate]. exists n. split; [reflexivity|].
    destruct n; cbn in Hv; try discriminate. unfold is_dirn. eauto.
  - intros c Hc. rewrite (add_find k h Hk t Hd Hn c Hc). rewrite spec_step by exact Hno. rewrite Ht by exact Hc. reflexivity.
Qed.

Lemma tar_new_tidy o arch : mcomplete o arch -> tidy (tar_new o arch).
Proof.
  intros H. unfold tar_new. apply (fold_tidy o arch _ H (entries_nonempty o arch) []); [reflexivity|unfold is_dirn; eauto| |intros [|]; [contradiction|reflexivity]].
  constructor; [constructor|reflexivity|intros ? ? []].
Qed.

Lemma tfind_app t a b : tfind t (a ++ b) = match tfind t a with Some n => tfind n b | None => None end.
Proof. revert t. induction a as [|c a IH]; intros t; [reflexivity|]. cbn [app tfind]. destruct t; try reflexivity. destruct (get c files); [apply IH|reflexivity]. Qed.

Lemma tidy_dir_nodup h files ordered : tidy (NDir h files ordered) -> NoDup (map fst files).
Proof. intros H. inversion H; subst. assumption. Qed.

Lemma view_header n v : view_of n = v -> header n = match v with VDir h => h | VLeaf m => header m end.
Proof. intros <-. destruct n; reflexivity. Qed.

Lemma leaf_header h : header (leaf h) = Some h.
Proof. unfold leaf. destruct (h_type h); reflexivity. Qed.

(* The header of every entry of a complete archive's tree is the mwinner's. *)
Lemma complete_find o arch : mcomplete o arch -> forall c h, c <> [] ->
  mwinner o arch c h <-> exists n, tfind (tar_new o arch) c = Some n /\ header n = Some h.
Proof.
  intros Hco c h Hc. destruct (mtar_lookup o arch c Hc) as (L1 & L2 & L3 & L4). pose proof (tar_new_find o arch c Hc) as Hf.
  assert (forall h', mwinner o arch c h' -> exists n, tfind (tar_new o arch) c = Some n /\ header n = Some h') as Hw.
  { intros h' Hw'. destruct (existsb (fun e => strict_prefixb c (fst e)) (entries o arch)) eqn:Eb.
    - apply (proj1 (below_winner _ _ _)) in Eb. destruct Eb as (c' & h2 & Hw2 & Ha). destruct (Hco c' h2 c Hw2 Ha Hc) as (h0 & Hw0 & Ht0).
      assert (h0 = h') as -> by (apply elookup_winner in Hw0, Hw'; congruence). specialize (L1 h' Hw' Ht0).
      destruct (tfind (tar_new o arch) c) as [n|]; [|discriminate]. exists n. split; [reflexivity|]. cbn in L1. apply some_inj in L1. rewrite (view_header n _ L1). reflexivity.
    - assert (forall c' h'', mwinner o arch c' h'' -> ~ above c c') as Hnb.
      { intros c' h'' Hw2 Ha. assert (existsb (fun e => strict_prefixb c (fst e)) (entries o arch) = true) by (apply below_winner; eauto). congruence. }
      destruct (h_type h') eqn:Et.
      2: { specialize (L1 h' Hw' Et). destruct (tfind (tar_new o arch) c) as [n|]; [|discriminate]. exists n. split; [reflexivity|]. cbn in L1. apply some_inj in L1. rewrite (view_header n _ L1). reflexivity. }
      all: specialize (L3 h' Hw' ltac:(congruence) Hnb); destruct (tfind (tar_new o arch) c) as [n|]; [|discriminate]; exists n; (split; [reflexivity|]);
        cbn in L3; apply some_inj in L3; rewrite (view_header n _ L3); apply leaf_header. }
  split; [apply Hw|]. intros (n & En & Hh).
  destruct (elookup (entries o arch) c) as [h'|] eqn:El.
  - apply (proj1 (elookup_winner _ _ _ _)) in El. destruct (Hw h' El) as (n' & En' & Hh'). assert (h' = h) as -> by congruence. exact El.
  - exfalso. assert (forall h', ~ mwinner o arch c h') as Hnw by (intros h' Hw'; apply elookup_winner in Hw'; congruence).
    destruct (existsb (fun e => strict_prefixb c (fst e)) (entries o arch)) eqn:Eb.
    + apply (proj1 (below_winner _ _ _)) in Eb. destruct Eb as (c' & h2 & Hw2 & Ha). destruct (Hco c' h2 c Hw2 Ha Hc) as (h0 & Hw0 & _). exact (Hnw h0 Hw0).
    + rewrite En in Hf. cbn in Hf. unfold spec_at in Hf. rewrite El, Eb in Hf. discriminate.
Qed.

Lemma mtar_listing o arch : mcomplete o arch -> forall c h files ordered, tfind (tar_new o arch) c = Some (NDir h files ordered) ->
  exists hs, list_dir (NDir h files ordered) = Some hs /\ NoDup (map key_of hs) /\
    forall h', In h' hs <-> exists n, mwinner o arch (c ++ [n]) h'.
Proof.
  intros Hco c h files ordered Hf. pose proof (tidy_find _ (tar_new_tidy o arch Hco) _ _ Hf) as Htd.
  destruct (tidy_list _ _ _ Htd) as (hs & El & Hfa). exists hs. split; [exact El|]. pose proof (tidy_dir_nodup _ _ _ Htd) as Hnd.
  assert (forall e y, In e files -> header (snd e) = Some y -> mwinner o arch (c ++ [fst e]) y) as Hwin.
  { intros [x n] y Hin Hh. apply (complete_find o arch Hco); [destruct c; discriminate|]. exists n. split; [|exact Hh]. rewrite tfind_app, Hf. cbn [tfind fst].
    rewrite (get_in_iff x n files Hnd Hin). reflexivity. }
  split.
  - clear El Hf Htd. revert Hnd Hwin. induction Hfa as [|e y files' hs' Hh Hfa IH]; intros Hnd Hwin; [constructor|]. cbn [map] in *. inversion Hnd as [|? ? Hx Hnd']; subst. constructor.
    + intros Hin. apply in_map_iff in Hin. destruct Hin as (y' & Ek & Hin). apply Hx.
      assert (exists e', In e' files' /\ header (snd e') = Some y') as (e' & He' & Hh') by (clear -Hfa Hin; induction Hfa as [|a b l1 l2 Hab _ IH]; [destruct Hin|]; destruct Hin as [<-|Hin]; [exists a; split; [left; reflexivity|exact Hab]|destruct (IH Hin) as (e' & H1 & H2); exists e'; split; [right; exact H1|exact H2]]).
      pose proof (Hwin e y (or_introl eq_refl) Hh) as (a1 & a2 & _ & Es & _). pose proof (Hwin e' y' (or_intror He') Hh') as (b1 & b2 & _ & Es' & _).
      rewrite Ek, Es in Es'. apply app_inv_head in Es'. assert (fst e = fst e') as -> by congruence. apply in_map. exact He'.
    + apply IH; [exact Hnd'|]. intros e' y' He'. apply Hwin. right. exact He'.
  - intros h'. split.
    + intros Hin. assert (exists e', In e' files /\ header (snd e') = Some h') as (e' & He' & Hh') by (clear -Hfa Hin; induction Hfa as [|a b l1 l2 Hab _ IH]; [destruct Hin|]; destruct Hin as [<-|Hin]; [exists a; split; [left; reflexivity|exact Hab]|destruct (IH Hin) as (e' & H1 & H2); exists e'; split; [right; exact H1|exact H2]]).
      exists (fst e'). apply Hwin; assumption.
    + intros (n & Hw). apply (complete_find o arch Hco) in Hw; [|destruct c; discriminate]. destruct Hw as (m & Em & Hm). rewrite tfind_app, Hf in Em. cbn [tfind] in Em.
      destruct (get n files) as [m'|] eqn:Hg; [|discriminate]. assert (m' = m) as -> by (cbn in Em; congruence). apply get_in in Hg.
      clear -Hfa Hg Hm. induction Hfa as [|a b l1 l2 Hab _ IH]; [destruct Hg|]. destruct Hg as [->|Hg]; [left; cbn in Hab; congruence|right; apply IH, Hg].
Qed.

(* ---- links ---- *)

Arguments clean : simpl never.
Arguments text_comps : simpl never.
Arguments tfind : simpl never.
Arguments path_eqb : simpl never.

Lemma is_dot_true c : is_dot c = true -> c = [dot].
Proof. intros H. apply bytes_eqb_eq in H. exact H. Qed.
Lemma is_dotdot_true c : is_dotdot c = true -> c = [dot; dot].
Proof. intros H. apply bytes_eqb_eq in H. exact H. Qed.

Lemma resolve_mono t rt sub : forall f skip cur ent rest b r, resolve_loop f t rt sub skip cur ent rest b = r -> r <> RFuel ->
  forall f', f <= f' -> resolve_loop f' t rt sub skip cur ent rest b = r.
Proof.
  induction f as [|f IH]; intros skip cur ent rest b r H Hr f' Hf.
  - destruct rest as [|c rest]; cbn [resolve_loop] in H; [|congruence]. destruct f'; exact H.
  - destruct f' as [|f']; [lia|]. assert (f <= f') as Hf' by lia.
    destruct rest as [|c rest]; cbn [resolve_loop] in *; [exact H|].
    destruct (is_dot c); [exact H|]. destruct (is_dotdot c).
    + destruct (rt && (path_eqb cur [] || path_eqb cur sub)); [exact H|]. destruct (path_eqb cur []); [exact H|]. eapply IH; eassumption.
    + destruct (tfind t (cur ++ [c])) as [n|]; [|exact H]. destruct n as [dh fs os|h|h|h].
      * destruct rest; [exact H|]. eapply IH; eassumption.
      * exact H.
      * destruct (negb match rest with [] => true | _ => false end || negb skip); [|exact H]. destruct b as [|b]; [exact H|].
        destruct (rooted (clean (h_link h))); [exact H|]. eapply IH; eassumption.
      * destruct rest as [|c2 rest]; [exact H|]. destruct (is_dot (clean (h_link h))).
        -- destruct (tfind t []) as [[]|]; try exact H. eapply IH; eassumption.
        -- destruct (resolve_loop f t rt sub false [] [] (text_comps (clean (h_link h))) 40) as [q|e|] eqn:En; [| |congruence].
           ++ rewrite (IH _ _ _ _ _ _ En ltac:(discriminate) f' Hf'). destruct (tfind t q) as [[]|]; try exact H. eapply IH; eassumption.
           ++ rewrite (IH _ _ _ _ _ _ En ltac:(discriminate) f' Hf'). exact H.
Qed.

Definition plain (cs : list (list byte)) : Prop := Forall (fun c => is_dot c = false /\ is_dotdot c = false) cs.

Lemma tfind_prefix_dir t a c r n : tfind t (a ++ c :: r) = Some n -> exists h f o, tfind t a = Some (NDir h f o).
Proof. rewrite tfind_app. destruct (tfind t a) as [m|]; [|discriminate]. destruct m; try discriminate. eauto. Qed.

Lemma resolve_plain t rt sub skip h : forall cs f cur ent b, plain cs -> cs <> [] -> tfind t (cur ++ cs) = Some (NFile h) ->
  resolve_loop f t rt sub skip cur ent cs b = (if length cs <=? f then ROk (cur ++ cs) else RFuel).
Proof.
  induction cs as [|c cs IH]; intros f cur ent b Hp Hne Hf; [contradiction|]. inversion Hp as [|? ? [H1 H2] Hp']; subst.
  destruct f as [|f]; [reflexivity|]. cbn [resolve_loop]. rewrite H1, H2. destruct cs as [|c2 cs].
  - rewrite Hf. reflexivity.
  - replace (cur ++ c :: c2 :: cs) with ((cur ++ [c]) ++ c2 :: cs) in * by (rewrite <- app_assoc; reflexivity).
    destruct (tfind_prefix_dir _ _ _ _ _ Hf) as (dh & ff & o & Ed). rewrite Ed. rewrite (IH f (cur ++ [c]) (cur ++ [c]) b Hp' ltac:(discriminate) Hf). reflexivity.
Qed.

Definition good (r : list (list byte)) : Prop := exists a x, r = a ++ [x] /\ is_dot x = false /\ is_dotdot x = false /\ Forall (fun c => is_dot c = false) a.

Lemma good_cons c r : good (c :: r) -> is_dot c = false /\ (r = [] /\ is_dotdot c = false \/ good r).
Proof.
  intros (a & x & E & H1 & H2 & H3). destruct a as [|y a].
  - cbn in E. assert (c = x /\ r = []) as [-> ->] by (split; congruence). auto.
  - assert (c = y /\ r = a ++ [x]) as [-> ->] by (split; cbn in E; congruence). inversion H3; subst. split; [assumption|]. right. exists a, x. auto.
Qed.
Lemma good_app a r : good a -> (r = [] \/ good r) -> good (a ++ r).
Proof.
  intros (b & x & -> & H1 & H2 & H3) [->|(d & y & -> & H4 & H5 & H6)]; [rewrite app_nil_r; exists b, x; auto|].
  exists ((b ++ [x]) ++ d), y. rewrite <- !app_assoc. split; [reflexivity|]. split; [exact H4|]. split; [exact H5|]. apply Forall_app. split; [exact H3|]. cbn. constructor; assumption.
Qed.
Lemma good_not_nil : ~ good [].
Proof. intros (a & x & E & _). destruct a; discriminate. Qed.

Lemma tfind_not_file_below t q h c r : tfind t q = Some (NFile h) -> tfind t (q ++ c :: r) = None.
Proof. intros H. rewrite tfind_app, H. reflexivity. Qed.

(* A walk is found by the code. *)
Lemma walk_resolves t rt sub : sym_plain t -> forall cur rest n q, walk t rt sub cur rest n q -> good rest ->
  forall b, n <= b -> exists f0, forall f ent, f0 <= f -> resolve_loop f t rt sub false cur ent rest b = ROk q.
Proof.
  intros Hs. induction 1 as [cur|cur r n q Hw IH|cur r n q Hc Hsub Hw IH|cur c r h f o n q H1 H2 Hf Hw IH|cur c h H1 H2 Hf|cur c h H1 H2 Hf|cur c r h n q H1 H2 Hf Hr Hw IH]; intros Hg b Hb.
  - destruct (good_not_nil Hg).
  - apply good_cons in Hg. destruct Hg as [Hd _]. discriminate Hd.
  - apply good_cons in Hg. destruct Hg as [_ [[_ Hd]|Hg]]; [discriminate Hd|]. destruct (IH Hg b Hb) as (f0 & Hf0). exists (S f0). intros f ent Hf. destruct f as [|f]; [lia|].
    cbn [resolve_loop]. change (is_dot [dot; dot]) with false. change (is_dotdot [dot; dot]) with true. cbn iota.
    assert (path_eqb cur [] = false) as -> by (apply path_eqb_neq; exact Hc). destruct rt.
    + rewrite path_eqb_neq by (apply Hsub; reflexivity). cbn [andb orb]. apply Hf0. lia.
    + cbn [andb]. apply Hf0. lia.
  - destruct r as [|c2 r].
    + inversion Hw; subst. exists 1. intros f0 ent Hf0. destruct f0 as [|f0]; [lia|]. cbn [resolve_loop]. rewrite H1, H2, Hf. reflexivity.
    + apply good_cons in Hg. destruct Hg as [_ [[Hd _]|Hg]]; [discriminate Hd|]. destruct (IH Hg b Hb) as (f0 & Hf0). exists (S f0). intros f1 ent Hf1. destruct f1 as [|f1]; [lia|].
      cbn [resolve_loop]. rewrite H1, H2, Hf. apply Hf0. lia.
  - exists 1. intros f ent Hf0. destruct f as [|f]; [lia|]. cbn [resolve_loop]. rewrite H1, H2, Hf. reflexivity.
  - exists 1. intros f ent Hf0. destruct f as [|f]; [lia|]. cbn [resolve_loop]. rewrite H1, H2, Hf. reflexivity.
  - destruct b as [|b]; [lia|]. destruct (Hs _ _ Hf Hr) as (ra & x & E & Hx1 & Hx2 & Hx3).
    assert (good (text_comps (clean (h_link h)) ++ r)) as Hg'.
    { apply good_app; [exists ra, x; auto|]. apply good_cons in Hg. destruct Hg as [_ [[-> _]|Hg]]; auto. }
    destruct (IH Hg' b ltac:(lia)) as (f0 & Hf0). exists (S f0). intros f ent Hff. destruct f as [|f]; [lia|].
    cbn [resolve_loop]. rewrite H1, H2, Hf, orb_true_r, Hr. apply Hf0. lia.
Qed.

Lemma tfind_leaf' n p c : ~ is_dirn n -> tfind n (p ++ [c]) = None.
Proof. intros H. destruct p; apply tfind_leaf; exact H. Qed.

(* What the code finds is a walk. *)
Lemma resolves_walk t rt sub : hard_plain t -> sym_plain t -> forall f cur ent rest b q, good rest ->
  resolve_loop f t rt sub false cur ent rest b = ROk q -> exists n, n <= b /\ walk t rt sub cur rest n q.
Proof.
  intros Hh Hs. induction f as [|f IH]; intros cur ent rest b q Hg H.
  - destruct rest; [destruct (good_not_nil Hg)|discriminate].
  - destruct rest as [|c rest]; [destruct (good_not_nil Hg)|]. cbn [resolve_loop] in H. apply good_cons in Hg. destruct Hg as [Hd Hg]. rewrite Hd in H.
    destruct (is_dotdot c) eqn:Edd.
    + destruct Hg as [[_ Hg]|Hg]; [discriminate|]. apply is_dotdot_true in Edd. subst c.
      destruct (rt && (path_eqb cur [] || path_eqb cur sub)) eqn:Ert; [discriminate|]. destruct (path_eqb cur []) eqn:Ec; [discriminate|].
      destruct (IH _ _ _ _ _ Hg H) as (n & Hn & Hw). exists n. split; [exact Hn|]. constructor; [intros ->; rewrite path_eqb_refl in Ec; discriminate| |exact Hw].
      intros -> ->. rewrite path_eqb_refl, orb_true_r in Ert. discriminate.
    + destruct (tfind t (cur ++ [c])) as [nd|] eqn:Ef; [|discriminate]. destruct nd as [dh ff o|h|h|h].
      * destruct rest as [|c2 rest].
        -- assert (q = cur ++ [c]) as -> by congruence. exists 0. split; [lia|]. eapply WDir; eauto. constructor.
        -- destruct Hg as [[Hg _]|Hg]; [discriminate|]. destruct (IH _ _ _ _ _ Hg H) as (n & Hn & Hw). exists n. split; [exact Hn|]. eapply WDir; eauto.
      * destruct rest; [|discriminate]. assert (q = cur ++ [c]) as -> by congruence. exists 0. split; [lia|]. eapply WFile; eauto.
      * rewrite orb_true_r in H. destruct b as [|b]; [discriminate|]. destruct (rooted (clean (h_link h))) eqn:Er; [discriminate|].
        destruct (Hs _ _ Ef Er) as (ra & x & E & Hx1 & Hx2 & Hx3).
        assert (good (text_comps (clean (h_link h)) ++ rest)) as Hg' by (apply good_app; [exists ra, x; auto|]; destruct Hg as [[-> _]|Hg]; auto).
        destruct (IH _ _ _ _ _ Hg' H) as (n & Hn & Hw). exists (S n). split; [lia|]. eapply WSym; eauto.
      * destruct rest as [|c2 rest].
        -- assert (q = cur ++ [c]) as -> by congruence. exists 0. split; [lia|]. eapply WHard; eauto.
        -- exfalso. destruct (Hh _ _ Ef) as (Hd1 & Hd2 & h' & Hd3). rewrite Hd1 in H.
           assert (text_comps (clean (h_link h)) <> []) as Hne.
           { intros E. rewrite E in Hd3. assert (tfind t [] = Some t) as Et by (destruct t; reflexivity). rewrite Et in Hd3. apply some_inj in Hd3. subst t. rewrite tfind_leaf' in Ef; [discriminate|]. intros (? & ? & ? & ?); discriminate. }
           rewrite (resolve_plain t rt sub false h' _ f [] [] 40 Hd2 Hne Hd3) in H. destruct (length (text_comps (clean (h_link h))) <=? f); [|discriminate]. cbn [app] in H. rewrite Hd3 in H. discriminate.
Qed.

Lemma tfind_nil t : tfind t [] = Some t.
Proof. destruct t; reflexivity. Qed.

Lemma hard_nonempty t p c h h' : tfind t (p ++ [c]) = Some (NHard h) -> tfind t (text_comps (clean (h_link h))) = Some (NFile h') -> text_comps (clean (h_link h)) <> [].
Proof.
  intros Ef Hd E. rewrite E, tfind_nil in Hd. apply some_inj in Hd. subst t. rewrite tfind_leaf' in Ef; [discriminate|]. intros (? & ? & ? & ?); discriminate.
Qed.

Lemma resolve_ends t rt sub : hard_plain t -> forall b rest cur, exists f0, forall f ent skip, f0 <= f -> resolve_loop f t rt sub skip cur ent rest b <> RFuel.
Proof.
  intros Hh. induction b as [b IHb] using lt_wf_ind. induction rest as [|c rest IHr]; intros cur.
  - exists 0. intros [|f] ent skip _; discriminate.
  - destruct (is_dot c) eqn:Ed; [exists 1; intros [|f] ent skip Hf; [lia|]; cbn [resolve_loop]; rewrite Ed; discriminate|].
    destruct (is_dotdot c) eqn:Edd.
    + destruct (IHr (removelast cur)) as (f0 & Hf0). exists (S f0). intros [|f] ent skip Hf; [lia|]. cbn [resolve_loop]. rewrite Ed, Edd.
      destruct (rt && (path_eqb cur [] || path_eqb cur sub)); [discriminate|]. destruct (path_eqb cur []); [discriminate|]. apply Hf0. lia.
    + destruct (tfind t (cur ++ [c])) as [nd|] eqn:Ef; [|exists 1; intros [|f] ent skip Hf; [lia|]; cbn [resolve_loop]; rewrite Ed, Edd, Ef; discriminate].
      destruct nd as [dh ff o|h|h|h].
      * destruct (IHr (cur ++ [c])) as (f0 & Hf0). exists (S f0). intros [|f] ent skip Hf; [lia|]. cbn [resolve_loop]. rewrite Ed, Edd, Ef. destruct rest; [discriminate|]. apply Hf0. lia.
      * exists 1. intros [|f] ent skip Hf; [lia|]. cbn [resolve_loop]. rewrite Ed, Edd, Ef. destruct rest; discriminate.
      * destruct b as [|b]; [exists 1; intros [|f] ent skip Hf; [lia|]; cbn [resolve_loop]; rewrite Ed, Edd, Ef; destruct (negb _ || negb skip); discriminate|].
        destruct (IHb b ltac:(lia) (text_comps (clean (h_link h)) ++ rest) cur) as (f0 & Hf0). exists (S f0). intros [|f] ent skip Hf; [lia|]. cbn [resolve_loop]. rewrite Ed, Edd, Ef.
        destruct (negb _ || negb skip); [|discriminate]. destruct (rooted (clean (h_link h))); [discriminate|]. apply Hf0. lia.
      * destruct (Hh _ _ Ef) as (Hd1 & Hd2 & h' & Hd3). exists (S (length (text_comps (clean (h_link h))))). intros [|f] ent skip Hf; [lia|]. cbn [resolve_loop]. rewrite Ed, Edd, Ef. destruct rest as [|c2 rest]; [discriminate|].
        rewrite Hd1. rewrite (resolve_plain t rt sub false h' _ f [] [] 40 Hd2 (hard_nonempty _ _ _ _ _ Ef Hd3) Hd3).
        assert ((length (text_comps (clean (h_link h))) <=? f) = true) as -> by (apply Nat.leb_le; lia). cbn [app]. rewrite Hd3. discriminate.
Qed.

Lemma removelast_sub (sub r : list (list byte)) : r <> [] -> removelast (sub ++ r) = sub ++ removelast r.
Proof. intros H. apply removelast_app. exact H. Qed.

(* With the root option the walk stays at or below the root directory. *)
Lemma resolve_confined t sub : hard_plain t -> forall f skip cur ent rest b q,
  (exists r, cur = sub ++ r) -> (exists r, ent = sub ++ r) ->
  resolve_loop f t true sub skip cur ent rest b = ROk q -> exists r, q = sub ++ r.
Proof.
  intros Hh. induction f as [|f IH]; intros skip cur ent rest b q Hc He H.
  - destruct rest; [|discriminate]. cbn in H. assert (q = ent) as -> by congruence. exact He.
  - destruct rest as [|c rest]; [cbn in H; assert (q = ent) as -> by congruence; exact He|]. cbn [resolve_loop] in H.
    destruct (is_dot c); [assert (q = cur) as -> by congruence; exact Hc|].
    assert (exists r, cur ++ [c] = sub ++ r) as Hhere by (destruct Hc as (r & ->); exists (r ++ [c]); rewrite app_assoc; reflexivity).
    destruct (is_dotdot c).
    + cbn [andb] in H. destruct (path_eqb cur [] || path_eqb cur sub) eqn:E; [discriminate|]. apply orb_false_iff in E. destruct E as [E1 E2]. rewrite E1 in H.
      eapply IH; [|exact He|exact H]. destruct Hc as (r & ->). exists (removelast r). apply removelast_sub. intros ->. rewrite app_nil_r, path_eqb_refl in E2. discriminate.
    + destruct (tfind t (cur ++ [c])) as [nd|] eqn:Ef; [|discriminate]. destruct nd as [dh ff o|h|h|h].
      * destruct rest; [assert (q = cur ++ [c]) as -> by congruence; exact Hhere|]. eapply IH; [exact Hhere|exact Hhere|exact H].
      * destruct rest; [|discriminate]. assert (q = cur ++ [c]) as -> by congruence. exact Hhere.
      * destruct (negb _ || negb skip); [|assert (q = cur ++ [c]) as -> by congruence; exact Hhere]. destruct b as [|b]; [discriminate|]. destruct (rooted (clean (h_link h))); [discriminate|].
        eapply IH; [exact Hc|exact Hhere|exact H].
      * destruct rest as [|c2 rest]; [assert (q = cur ++ [c]) as -> by congruence; exact Hhere|]. exfalso. destruct (Hh _ _ Ef) as (Hd1 & Hd2 & h' & Hd3). rewrite Hd1 in H.
        rewrite (resolve_plain t true sub false h' _ f [] [] 40 Hd2 (hard_nonempty _ _ _ _ _ Ef Hd3) Hd3) in H. destruct (length (text_comps (clean (h_link h))) <=? f); [|discriminate]. cbn [app] in H. rewrite Hd3 in H. discriminate.
Qed.

(* ---- names ---- *)

Lemma valid_comps name : valid_path name = true -> is_dot name = false -> text_comps name = split_sep name /\ good (split_sep name) /\ plain (split_sep name).
Proof.
  intros Hv Hd. unfold valid_path in Hv. rewrite Hd in Hv. cbn [orb] in Hv. rewrite forallb_forall in Hv.
  assert (plain (split_sep name)) as Hp.
  { apply Forall_forall. intros c Hc. specialize (Hv c Hc). apply negb_true_iff, orb_false_iff in Hv. destruct Hv as [Hv H2]. apply orb_false_iff in Hv. destruct Hv as [_ H1]. auto. }
  pose proof (split_nonempty name) as Hne. destruct (exists_last Hne) as (a & x & E).
  assert (x <> []) as Hx. { intros ->. specialize (Hv [] ltac:(rewrite E; apply in_or_app; right; left; reflexivity)). discriminate. }
  split; [|split; [|exact Hp]].
  - unfold text_comps. rewrite E, rev_app_distr. cbn [rev app]. destruct x; [contradiction|reflexivity].
  - rewrite E in *. apply Forall_app in Hp. destruct Hp as [Hp1 Hp2]. inversion Hp2 as [|? ? [Hx1 Hx2] _]; subst. exists a, x. split; [reflexivity|]. split; [exact Hx1|]. split; [exact Hx2|].
    apply (Forall_impl _ (P := fun c => is_dot c = false /\ is_dotdot c = false)); [|exact Hp1]. intros c [Hc _]. exact Hc.
Qed.

Lemma walk_end t rt sub cur rest n q : walk t rt sub cur rest n q -> good rest ->
  sym_plain t -> exists nd, tfind t q = Some nd /\ (forall h, nd <> NSym h).
Proof.
  induction 1 as [cur|cur r n q Hw IH|cur r n q Hc Hsub Hw IH|cur c r h f o n q H1 H2 Hf Hw IH|cur c h H1 H2 Hf|cur c h H1 H2 Hf|cur c r h n q H1 H2 Hf Hr Hw IH]; intros Hg Hs.
  - destruct (good_not_nil Hg).
  - apply good_cons in Hg. destruct Hg as [Hd _]. discriminate Hd.
  - apply good_cons in Hg. destruct Hg as [_ [[_ Hd]|Hg]]; [discriminate Hd|]. apply IH; assumption.
  - destruct r as [|c2 r]; [inversion Hw; subst; eexists; split; [exact Hf|discriminate]|]. apply good_cons in Hg. destruct Hg as [_ [[Hd _]|Hg]]; [discriminate Hd|]. apply IH; assumption.
  - eexists; split; [exact Hf|discriminate].
  - eexists; split; [exact Hf|discriminate].
  - destruct (Hs _ _ Hf Hr) as (ra & x & E & Hx1 & Hx2 & Hx3). apply IH; [|exact Hs]. apply good_app; [exists ra, x; auto|]. apply good_cons in Hg. destruct Hg as [_ [[-> _]|Hg]]; auto.
Qed.

(* What opening does with the entry found. *)
Lemma found_reads t rt sub name skip f p nd : hard_plain t -> valid_path name = true ->
  open_child f t rt sub sub name skip = ROk p -> tfind t p = Some nd ->
  (forall h, nd = NHard h -> length (text_comps (clean (h_link h))) <= f) ->
  find_file f t rt sub name skip = match nd with NHard h => match tfind t (text_comps (clean (h_link h))) with Some n => FOver h n | None => FErr ENotExist end | _ => FEnt p nd end.
Proof.
  intros Hh Hv Ho Hf Hl. unfold find_file. rewrite Hv, Ho, Hf. cbn [negb]. destruct nd as [| | |h]; try reflexivity.
  destruct (Hh _ _ Hf) as (Hd1 & Hd2 & h' & Hd3). unfold open_child. rewrite Hd1.
  assert (text_comps (clean (h_link h)) <> []) as Hne.
  { destruct p as [|c p]; [|destruct (@exists_last _ (c :: p) ltac:(discriminate)) as (a & x & E); rewrite E in Hf; exact (hard_nonempty _ _ _ _ _ Hf Hd3)].
    rewrite tfind_nil in Hf. apply some_inj in Hf. subst t. intros E. rewrite E in Hd3. discriminate. }
  rewrite (resolve_plain t rt sub false h' _ f [] [] 40 Hd2 Hne Hd3). pose proof (Hl h eq_refl) as Hle. apply Nat.leb_le in Hle. rewrite Hle. reflexivity.
Qed.

Definition link_len (nd : tnode) : nat := match nd with NHard h => length (text_comps (clean (h_link h))) | _ => 0 end.

Lemma open_found t rt sub name f p nd : hard_plain t -> valid_path name = true ->
  open_child f t rt sub sub name false = ROk p -> tfind t p = Some nd -> link_len nd <= f ->
  tar_open f t rt sub name = read_of t nd.
Proof.
  intros Hh Hv Ho Hf Hl. unfold tar_open. rewrite (found_reads t rt sub name false f p nd Hh Hv Ho Hf).
  2: { intros h ->. exact Hl. }
  destruct nd as [| | |h]; try reflexivity. cbn [read_of]. destruct (Hh _ _ Hf) as (_ & _ & h' & Hd3). rewrite Hd3. reflexivity.
Qed.

Lemma open_dot t rt sub f h ff o : hard_plain t -> tfind t sub = Some (NDir h ff o) -> tar_open f t rt sub [dot] = OpDir (NDir h ff o) h.
Proof. intros Hh Hs. unfold tar_open, find_file. change (valid_path [dot]) with true. cbn [negb]. unfold open_child. change (is_dot [dot]) with true. cbn iota. rewrite Hs. reflexivity. Qed.

Lemma open_agrees t rt sub name : hard_plain t -> sym_plain t -> valid_path name = true -> name <> [dot] ->
  (forall n q nd, walk t rt sub sub (split_sep name) n q -> n <= 40 -> tfind t q = Some nd ->
     exists f0, forall f, f0 <= f -> tar_open f t rt sub name = read_of t nd) /\
  (forall f, (exists d i, tar_open f t rt sub name = OpFile d i) \/ (exists d i, tar_open f t rt sub name = OpDir d i) ->
     exists n q nd, walk t rt sub sub (split_sep name) n q /\ n <= 40 /\ tfind t q = Some nd /\ tar_open f t rt sub name = read_of t nd).
Proof.
  intros Hh Hs Hv Hd. assert (is_dot name = false) as Hd' by (apply beq_false; exact Hd).
  destruct (valid_comps name Hv Hd') as (Et & Hg & _). split.
  - intros n q nd Hw Hn Hf. destruct (walk_resolves t rt sub Hs _ _ _ _ Hw Hg 40 Hn) as (f0 & Hf0). exists (f0 + link_len nd). intros f Hle.
    apply (open_found t rt sub name f q nd Hh Hv); [|exact Hf|lia]. unfold open_child. rewrite Hd', Et. apply Hf0. lia.
  - intros f Hop.
    destruct (open_child f t rt sub sub name false) as [p|e|] eqn:Eo.
    + unfold open_child in Eo. rewrite Hd', Et in Eo. destruct (resolves_walk t rt sub Hh Hs _ _ _ _ _ _ Hg Eo) as (n & Hn & Hw).
      destruct (walk_end _ _ _ _ _ _ _ Hw Hg Hs) as (nd & Ef & Hns). exists n, p, nd. split; [exact Hw|]. split; [exact Hn|]. split; [exact Ef|].
      destruct (le_lt_dec (link_len nd) f) as [Hle|Hlt].
      * apply (open_found t rt sub name f p nd Hh Hv); [unfold open_child; rewrite Hd', Et; exact Eo|exact Ef|exact Hle].
      * exfalso. destruct nd as [| | |h]; cbn in Hlt; try lia. revert Hop. unfold tar_open, find_file. rewrite Hv. unfold open_child. rewrite Hd', Et, Eo, Ef. cbn [negb].
        destruct (Hh _ _ Ef) as (Hd1 & Hd2 & h' & Hd3). rewrite Hd1. rewrite (resolve_plain t rt sub false h' _ f [] [] 40 Hd2).
        2: { intros E. rewrite E in Hlt. cbn in Hlt. lia. }
        2: exact Hd3.
        assert ((length (text_comps (clean (h_link h))) <=? f) = false) as -> by (apply Nat.leb_gt; exact Hlt). intros [(d & i & E)|(d & i & E)]; discriminate.
    + exfalso. revert Hop. unfold tar_open, find_file. rewrite Hv, Eo. cbn [negb]. intros [(d & i & E)|(d & i & E)]; discriminate.
    + exfalso. revert Hop. unfold tar_open, find_file. rewrite Hv, Eo. cbn [negb]. intros [(d & i & E)|(d & i & E)]; discriminate.
Qed.

Lemma open_never_stuck t rt sub name : hard_plain t -> sym_plain t -> (exists h f o, tfind t sub = Some (NDir h f o)) ->
  exists f0, forall f, f0 <= f -> tar_open f t rt sub name <> OpFuel /\ tar_open f t rt sub name <> OpPanic /\ tar_open f t rt sub name = tar_open f0 t rt sub name.
Proof.
  intros Hh Hs (sh & sf & so & Hsub). destruct (valid_path name) eqn:Hv.
  2: { exists 0. intros f _. unfold tar_open, find_file. rewrite Hv. cbn [negb]. repeat split; discriminate. }
  destruct (is_dot name) eqn:Hd.
  { apply is_dot_true in Hd. subst. exists 0. intros f _. rewrite !(open_dot t rt sub _ sh sf so Hh Hsub). repeat split; discriminate. }
  destruct (valid_comps name Hv Hd) as (Et & Hg & _).
  destruct (resolve_ends t rt sub Hh 40 (split_sep name) sub) as (f0 & Hf0).
  destruct (open_child f0 t rt sub sub name false) as [p|e|] eqn:Eo.
  - unfold open_child in Eo. rewrite Hd, Et in Eo. destruct (resolves_walk t rt sub Hh Hs _ _ _ _ _ _ Hg Eo) as (n & Hn & Hw).
    destruct (walk_end _ _ _ _ _ _ _ Hw Hg Hs) as (nd & Ef & Hns).
    assert (forall f, f0 + link_len nd <= f -> tar_open f t rt sub name = read_of t nd) as Hall.
    { intros f Hle. apply (open_found t rt sub name f p nd Hh Hv); [|exact Ef|lia]. unfold open_child. rewrite Hd, Et. apply (resolve_mono t rt sub f0 _ _ _ _ _ _ Eo); [discriminate|lia]. }
    exists (f0 + link_len nd). intros f Hle. rewrite !Hall by lia. destruct nd as [| |h|h]; cbn [read_of]; try (repeat split; discriminate).
    + destruct (Hns h eq_refl).
    + destruct (Hh _ _ Ef) as (_ & _ & h' & ->). repeat split; discriminate.
  - exists f0. assert (forall f, f0 <= f -> tar_open f t rt sub name = OpErr e) as Hall.
    { intros f Hle. unfold open_child in Eo. rewrite Hd, Et in Eo. unfold tar_open, find_file, open_child. rewrite Hv, Hd, Et. cbn [negb]. rewrite (resolve_mono t rt sub f0 _ _ _ _ _ _ Eo ltac:(discriminate) f Hle). reflexivity. }
    intros f Hle. rewrite !Hall by lia. repeat split; discriminate.
  - exfalso. unfold open_child in Eo. rewrite Hd, Et in Eo. exact (Hf0 f0 sub false (le_n _) Eo).
Qed.

(* Lstat: the last element is not followed. *)
Lemma walk_lstat t rt sub x nd : hard_plain t -> sym_nodot t -> is_dot x = false -> is_dotdot x = false ->
  forall cur r n d, walk t rt sub cur r n d -> Forall (fun c => is_dot c = false) r -> tfind t (d ++ [x]) = Some nd ->
  forall b, n <= b -> exists f0, forall f ent, f0 <= f -> resolve_loop f t rt sub true cur ent (r ++ [x]) b = ROk (d ++ [x]).
Proof.
  intros Hh Hs Hx1 Hx2. induction 1 as [cur|cur r n q Hw IH|cur r n q Hc Hsub Hw IH|cur c r h f o n q H1 H2 Hf Hw IH|cur c h H1 H2 Hf|cur c h H1 H2 Hf|cur c r h n q H1 H2 Hf Hr Hw IH]; intros Hg Hnd b Hb.
  - exists 1. intros [|f] ent Hf; [lia|]. cbn [app resolve_loop]. rewrite Hx1, Hx2, Hnd. destruct nd; reflexivity.
  - inversion Hg as [|? ? Hd _]; subst. discriminate Hd.
  - inversion Hg as [|? ? _ Hg']; subst. destruct (IH Hg' Hnd b Hb) as (f0 & Hf0). exists (S f0). intros [|f] ent Hf; [lia|]. cbn [app resolve_loop]. change (is_dot [dot; dot]) with false. change (is_dotdot [dot; dot]) with true. cbn iota.
    assert (path_eqb cur [] = false) as -> by (apply path_eqb_neq; exact Hc). destruct rt.
    + rewrite path_eqb_neq by (apply Hsub; reflexivity). cbn [andb orb]. apply Hf0. lia.
    + cbn [andb]. apply Hf0. lia.
  - inversion Hg as [|? ? _ Hg']; subst. destruct (IH Hg' Hnd b Hb) as (f0 & Hf0). exists (S f0). intros [|f1] ent Hf1; [lia|]. cbn [app resolve_loop]. rewrite H1, H2, Hf.
    destruct (r ++ [x]) as [|c2 r2] eqn:E; [destruct r; discriminate|]. apply Hf0. lia.
  - rewrite (tfind_app t (cur ++ [c])), Hf in Hnd. discriminate.
  - rewrite (tfind_app t (cur ++ [c])), Hf in Hnd. discriminate.
  - inversion Hg as [|? ? _ Hg']; subst. destruct b as [|b]; [lia|]. destruct (IH ltac:(apply Forall_app; split; [apply (Hs _ _ Hf Hr)|exact Hg']) Hnd b ltac:(lia)) as (f0 & Hf0).
    exists (S f0). intros [|f1] ent Hf1; [lia|]. cbn [app resolve_loop]. rewrite H1, H2, Hf, Hr. assert (match r ++ [x] with [] => true | _ => false end = false) as -> by (destruct r; reflexivity). cbn [negb orb].
    rewrite app_assoc. apply Hf0. lia.
Qed.

Lemma lstat_agrees t rt sub name dirs x n d nd h : hard_plain t -> sym_nodot t -> valid_path name = true -> name <> [dot] -> split_sep name = dirs ++ [x] ->
  walk t rt sub sub dirs n d -> n <= 40 -> tfind t (d ++ [x]) = Some nd -> header nd = Some h ->
  exists f0, forall f, f0 <= f -> tar_lstat f t rt sub name = LsInfo h.
Proof.
  intros Hh Hs Hv Hd Es Hw Hn Hnd Hhd. assert (is_dot name = false) as Hd' by (apply beq_false; exact Hd).
  destruct (valid_comps name Hv Hd') as (Et & Hg & Hp). rewrite Es in Hp. apply Forall_app in Hp. destruct Hp as [Hp1 Hp2]. inversion Hp2 as [|? ? [Hx1 Hx2] _]; subst.
  destruct (walk_lstat t rt sub x nd Hh Hs Hx1 Hx2 _ _ _ _ Hw) with (b := 40) as (f0 & Hf0); [|exact Hnd|exact Hn|].
  { apply (Forall_impl _ (P := fun c => is_dot c = false /\ is_dotdot c = false)); [|exact Hp1]. intros c [Hc _]. exact Hc. }
  exists (f0 + link_len nd). intros f Hle. unfold tar_lstat. rewrite (found_reads t rt sub name true f (d ++ [x]) nd Hh Hv).
  - destruct nd; cbn in Hhd; try (rewrite Hhd; reflexivity); try (apply some_inj in Hhd; subst; reflexivity).
    destruct (Hh _ _ Hnd) as (_ & _ & h' & ->). apply some_inj in Hhd. subst. reflexivity.
  - unfold open_child. rewrite Hd', Et, Es. apply Hf0. lia.
  - exact Hnd.
  - intros h0 ->. cbn in Hle. lia.
Qed.

Lemma open_child_confined t sub name skip f q : hard_plain t -> open_child f t true sub sub name skip = ROk q -> exists r, q = sub ++ r.
Proof.
  intros Hh H. unfold open_child in H. destruct (is_dot name).
  - assert (q = sub) as -> by congruence. exists []. rewrite app_nil_r. reflexivity.
  - eapply (resolve_confined t sub Hh); [| |exact H]; exists []; rewrite app_nil_r; reflexivity.
Qed.

(* ---- the filter ---- *)

Lemma split_hd_dots p r : hd [] (split_sep p) = dot :: dot :: r -> exists q, p = dot :: dot :: q.
Proof.
  destruct p as [|a p]; [discriminate|]. cbn [split_sep]. destruct (N.eqb a sep) eqn:Ea; [discriminate|].
  destruct (split_sep p) as [|w ws] eqn:Ep; [exfalso; exact (split_nonempty p Ep)|]. cbn [hd]. intros E. injection E as -> ->.
  destruct p as [|b p]; [discriminate|]. cbn [split_sep] in Ep. destruct (N.eqb b sep) eqn:Eb; [discriminate|].
  destruct (split_sep p) as [|w' ws']; injection Ep as <- _ || injection Ep as -> _; eauto.
Qed.
Lemma dots_split_hd q : exists r, hd [] (split_sep (dot :: dot :: q)) = dot :: dot :: r.
Proof.
  cbn [split_sep]. change (N.eqb dot sep) with false. cbn iota.
  destruct (split_sep q) as [|w ws] eqn:E; [exfalso; exact (split_nonempty q E)|]. cbn. eauto.
Qed.

Lemma accepted_iff o arch h : no_dotted arch -> In h arch -> accepted o (key_of h) h = true <-> kept o h.
Proof.
  intros Hn Hin. unfold accepted, kept. rewrite andb_true_iff, negb_true_iff.
  assert (match key_of h with a :: b :: _ => (a =? dot)%N && (b =? dot)%N | _ => false end = false <-> hd [] (split_sep (key_of h)) <> [dot; dot]) as ->.
  { split.
    - intros H E. apply split_hd_dots in E as [q E]. rewrite E in H. cbn in H. discriminate.
    - intros H. destruct (key_of h) as [|a [|b q]] eqn:E; [reflexivity..|]. apply andb_false_iff.
      destruct (N.eqb_spec a dot) as [->|]; [|auto]. destruct (N.eqb_spec b dot) as [->|]; [|auto]. exfalso. apply H.
      destruct (dots_split_hd q) as [r Hr]. rewrite <- E in Hr |- *. rewrite (Hn h r Hin Hr) in Hr. exact Hr. }
  destruct (h_type h); intuition congruence.
Qed.
Lemma winner_iff o arch c h : no_dotted arch -> mwinner o arch c h <-> winner o arch c h.
Proof.
  intros Hn. split; intros (a1 & a2 & -> & H1 & H2 & H3 & H4); exists a1, a2;
    (split; [reflexivity|split; [exact H1|split; [exact H2|split; [|exact H4]]]]);
    apply (accepted_iff o _ h Hn); auto; apply in_or_app; right; left; reflexivity.
Qed.
Lemma leaf_entry h : leaf h = entry_of h.
Proof. unfold leaf, entry_of. destruct (h_type h); reflexivity. Qed.

Lemma tar_lookup o arch c : no_dotted arch -> c <> [] ->
  let v := option_map view_of (tfind (tar_new o arch) c) in
  (forall h, winner o arch c h -> h_type h = TDir -> v = Some (VDir (Some h))) /\
  ((forall h, winner o arch c h -> h_type h <> TDir) -> (exists c' h', winner o arch c' h' /\ above c c') -> v = Some (VDir None)) /\
  (forall h, winner o arch c h -> h_type h <> TDir -> (forall c' h', winner o arch c' h' -> ~ above c c') -> v = Some (VLeaf (entry_of h))) /\
  ((forall h, ~ winner o arch c h) -> (forall c' h', winner o arch c' h' -> ~ above c c') -> v = None).
Proof.
  intros Hn Hc. cbn zeta. pose proof (mtar_lookup o arch c Hc) as L. cbn zeta in L. destruct L as (L1 & L2 & L3 & L4).
  pose proof (fun c h => proj1 (winner_iff o arch c h Hn)) as W1. pose proof (fun c h => proj2 (winner_iff o arch c h Hn)) as W2.
  split; [|split; [|split]].
  - intros h Hw. apply L1. auto.
  - intros Ht (c' & h' & Hw & Ha). apply L2; [intros h Hh; apply Ht; auto|]. exists c', h'. auto.
  - intros h Hw Ht Hb. rewrite <- leaf_entry. apply L3; auto. intros c' h' Hw'. apply (Hb c' h'). auto.
  - intros Hw Hb. apply L4; [intros h Hh; apply (Hw h); auto|intros c' h' Hw'; apply (Hb c' h'); auto].
Qed.
Lemma mcomplete_of o arch : no_dotted arch -> complete o arch -> mcomplete o arch.
Proof.
  intros Hn Hco c1 h1 c0 Hw Ha Hne. apply (winner_iff o arch c1 h1 Hn) in Hw. destruct (Hco c1 h1 c0 Hw Ha Hne) as (h0 & Hw0 & Ht).
  exists h0. split; [apply (winner_iff o arch c0 h0 Hn); exact Hw0|exact Ht].
Qed.
Lemma tar_listing o arch : no_dotted arch -> complete o arch -> forall c h files ordered, tfind (tar_new o arch) c = Some (NDir h files ordered) ->
  exists hs, list_dir (NDir h files ordered) = Some hs /\ NoDup (map key_of hs) /\
    forall h', In h' hs <-> exists n, winner o arch (c ++ [n]) h'.
Proof.
  intros Hn Hco c h files ordered Hf. pose proof (mcomplete_of o arch Hn Hco) as Hm.
  destruct (mtar_listing o arch Hm c h files ordered Hf) as (hs & H1 & H2 & H3). exists hs. split; [exact H1|]. split; [exact H2|].
  intros h'. rewrite H3. split; intros (n & Hw); exists n; apply (winner_iff o arch (c ++ [n]) h' Hn); exact Hw.
Qed.

(* Entries by computation, for examples. *)
Lemma entries_wins o arch c h : no_dotted arch -> In (c, h) (entries o arch) <-> winner o arch c h.
Proof. intros Hn. rewrite entries_winner. apply winner_iff. exact Hn. Qed.
Definition no_dottedb (arch : list hdr) : bool :=
  forallb (fun h => match hd [] (split_sep (key_of h)) with a :: b :: _ :: _ => negb ((a =? dot)%N && (b =? dot)%N) | _ => true end) arch.
Lemma no_dottedb_ok arch : no_dottedb arch = true -> no_dotted arch.
Proof.
  intros H h r Hin E. pose proof (proj1 (forallb_forall _ _) H h Hin) as Hb. cbv beta in Hb. rewrite E in Hb.
  destruct r; [reflexivity|discriminate Hb].
Qed.

Lemma tar_root o arch : exists h files ordered, tar_new o arch = NDir (Some h) files ordered /\
  (names_root arch h \/ ((forall x, ~ names_root arch x) /\ h_type h = TDir)).
Proof.
  unfold tar_new. set (r := match collect arch [dot] with Some h => h | None => default_root end).
  assert (forall E t, (exists f ord, t = NDir (Some r) f ord) -> exists f ord, fold_left (fun t e => add_child (fst e) (snd e) t) E t = NDir (Some r) f ord) as Hfold.
  { clear. induction E as [|[k h] E IH]; intros t Ht; [exact Ht|]. cbn [fold_left fst snd]. apply IH. destruct Ht as (f & ord & ->).
    destruct (add_child_dir k h (NDir (Some r) f ord)) as (h0 & f0 & o0 & -> & Eh); [unfold is_dirn; eauto|]. cbn in Eh. rewrite <- Eh. eauto. }
  destruct (Hfold (entries o arch) (NDir (Some r) [] [])) as (f & ord & ->); [eauto|]. exists r, f, ord. split; [reflexivity|].
  unfold r. destruct (collect arch [dot]) as [h|] eqn:E.
  - left. exact (proj1 (collect_some _ _ _) E).
  - right. split; [|reflexivity]. intros x Hx. apply (proj2 (collect_some _ _ _)) in Hx. congruence.
Qed.
Lemma invalid_names t rt sub name f c : name <> [dot] -> In c (split_sep name) -> c = [] \/ c = [dot] \/ c = [dot; dot] ->
  tar_open f t rt sub name = OpErr EInvalid /\ tar_lstat f t rt sub name = LsErr EInvalid.
Proof.
  intros Hn Hin Hc. assert (valid_path name = false) as Hv.
  { unfold valid_path. apply orb_false_iff. split; [destruct (is_dot name) eqn:E; [exfalso; apply Hn; unfold is_dot in E; now apply bytes_eqb_eq in E|reflexivity]|].
    destruct (forallb _ (split_sep name)) eqn:E; [|reflexivity]. exfalso. rewrite forallb_forall in E. specialize (E c Hin). destruct Hc as [-> |[-> | ->]]; discriminate. }
  unfold tar_open, tar_lstat, find_file. rewrite Hv. split; reflexivity.
Qed.
