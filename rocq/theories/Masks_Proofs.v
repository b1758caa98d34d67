(* C51: the maps in memory hold what the store holds. *)
From Verif Require Import Common CommonLemmas ContentRange_Model ContentRange_Proofs PathLex_Model PathLex_Proofs TempName_Model TempName_Proofs Overlay_Model Overlay_Proofs Masks_Model Masks_Spec.
From Coq Require Import Permutation.
Open Scope nat_scope.

Lemma beq_refl x : bytes_eqb x x = true.
Proof. apply bytes_eqb_eq. reflexivity. Qed.
Lemma beq_neq x y : bytes_eqb x y = false <-> x <> y.
Proof. rewrite <- bytes_eqb_eq. destruct (bytes_eqb x y); split; intros; congruence. Qed.
Lemma beq_sym x y : bytes_eqb x y = bytes_eqb y x.
Proof. apply eq_true_iff_eq. rewrite !bytes_eqb_eq. split; congruence. Qed.
Lemma beq_cases x y : (x = y /\ bytes_eqb x y = true) \/ (x <> y /\ bytes_eqb x y = false).
Proof. destruct (bytes_eqb x y) eqn:E; [left; split; [apply bytes_eqb_eq; exact E|reflexivity]|right; split; [apply beq_neq; exact E|reflexivity]]. Qed.

Lemma memn_in n l : memn n l = true <-> In n l.
Proof.
  unfold memn. rewrite existsb_exists. split.
  - intros (x & Hx & E). apply bytes_eqb_eq in E. subst. exact Hx.
  - intros H. exists n. split; [exact H|apply beq_refl].
Qed.
Lemma add_in n l x : In x (add_name n l) <-> x = n \/ In x l.
Proof.
  unfold add_name. destruct (memn n l) eqn:E; cbn.
  - apply memn_in in E. split; [auto|]. intros [-> | H]; assumption.
  - split; [intros [<- | H]; auto|intros [-> | H]; auto].
Qed.
Lemma add_nodup n l : NoDup l -> NoDup (add_name n l).
Proof.
  intros H. unfold add_name. destruct (memn n l) eqn:E; [exact H|]. constructor; [|exact H].
  intros Hi. apply memn_in in Hi. congruence.
Qed.
Lemma del_in n l x : In x (del_name n l) <-> In x l /\ x <> n.
Proof.
  unfold del_name. rewrite filter_In, negb_true_iff, beq_neq. split; intros [H1 H2]; split; auto.
Qed.

(* The SQL range is the prefix test. *)
Lemma leb_range n p : bytes_leb (n ++ [sep]) p && negb (bytes_leb (n ++ [48%N]) p) = true <-> prefix_of (n ++ [sep]) p.
Proof.
  revert p. induction n as [|x n IH]; intros p; cbn [app bytes_leb].
  - destruct p as [|y p]; cbn [bytes_leb andb].
    + split; [discriminate|]. intros [r E]. discriminate E.
    + rewrite !andb_true_r. unfold sep. split.
      * intros H. assert (y = sep) as -> by (unfold sep; destruct (N.ltb_spec 47 y), (N.eqb_spec 47 y), (N.ltb_spec 48 y), (N.eqb_spec 48 y); cbn in H; try discriminate; lia). exists p. reflexivity.
      * intros [r E]. cbn in E. assert (y = 47%N) as -> by congruence. reflexivity.
  - destruct p as [|y p]; cbn.
    + split; [discriminate|]. intros [r E]. discriminate E.
    + specialize (IH p). destruct (N.ltb_spec x y), (N.eqb_spec x y); cbn; try lia.
      * split; [discriminate|]. intros [r E]. cbn in E. congruence.
      * subst. rewrite IH. split; intros [r E]; exists r; cbn in *; congruence.
      * split; [discriminate|]. intros [r E]. cbn in E. congruence.
Qed.
Lemma in_range_under n p : in_range n p = under n p.
Proof.
  unfold in_range, under. destruct n as [|x n].
  - cbn. rewrite andb_true_r. reflexivity.
  - apply eq_true_iff_eq. rewrite leb_range, andb_true_iff, negb_true_iff, beq_neq, has_prefix_iff. split; [|tauto].
    intros H. split; [|exact H]. destruct H as [r ->]. intros E.
    apply (f_equal (@length _)) in E. rewrite !app_length in E. cbn in E. lia.
Qed.
Lemma under_irrefl n : under n n = false.
Proof. unfold under. rewrite beq_refl. reflexivity. Qed.

(* cleanName. *)
Lemma clean_rooted n : clean (sep :: n) = sep :: join_sep (clean_comps true (split_sep (sep :: n))).
Proof. reflexivity. Qed.
Lemma clean_name_eq n : clean_name n = join_sep (clean_comps true (split_sep n)).
Proof.
  unfold clean_name. rewrite clean_rooted. unfold trim_prefix, has_prefix. cbn [length firstn].
  rewrite beq_refl. cbn [skipn]. reflexivity.
Qed.
Lemma comps_proper n : Forall proper (clean_comps true (split_sep n)).
Proof.
  destruct (clean_comps_normal true (split_sep n) (split_sepfree n)) as (k & l & E & Hl & Hk).
  rewrite (Hk eq_refl) in E. cbn in E. rewrite E. exact Hl.
Qed.
Lemma clean_name_join l : Forall proper l -> clean_name (join_sep l) = join_sep l.
Proof.
  intros Hl. rewrite clean_name_eq. destruct l as [|c l]; [reflexivity|].
  rewrite split_join by (try discriminate; apply proper_sepfree; exact Hl).
  rewrite clean_comps_fix; [reflexivity|]. exists 0, (c :: l). auto.
Qed.
Lemma clean_name_idem n : clean_name (clean_name n) = clean_name n.
Proof. rewrite (clean_name_eq n). apply clean_name_join. apply comps_proper. Qed.

(* The table, name by name. *)
Definition get (t : table) (n : list byte) : option row := find (at_name n) t.
Lemma get_path t n r : get t n = Some r -> r_path r = n.
Proof. intros H. apply find_some in H. destruct H as [_ H]. apply bytes_eqb_eq in H. auto. Qed.
Lemma get_none t n : get t n = None <-> ~ In n (map r_path t).
Proof.
  split.
  - intros H Hi. apply in_map_iff in Hi. destruct Hi as (r & <- & Hr). apply (find_none _ _ H) in Hr.
    unfold at_name in Hr. rewrite beq_refl in Hr. discriminate.
  - intros H. unfold get. destruct (find (at_name n) t) as [r|] eqn:E; [|reflexivity]. exfalso. apply H.
    apply in_map_iff. exists r. split; [apply (get_path t); exact E|]. apply (find_some _ _ E).
Qed.
Lemma get_in t r : NoDup (map r_path t) -> In r t -> get t (r_path r) = Some r.
Proof.
  induction t as [|a t IH]; [intros _ []|]. cbn [map]. intros N H. inversion N as [|? ? Na Nt]; subst.
  unfold get. cbn [find]. destruct H as [-> | H].
  - unfold at_name. rewrite beq_refl. reflexivity.
  - destruct (at_name (r_path r) a) eqn:E; [|apply IH; assumption].
    apply bytes_eqb_eq in E. exfalso. apply Na. rewrite <- E. apply in_map. exact H.
Qed.
Lemma get_some_in t n r : get t n = Some r -> In r t.
Proof. intros H. apply (find_some _ _ H). Qed.

Lemma at_eq n r : at_name n r = bytes_eqb n (r_path r).
Proof. reflexivity. Qed.
Lemma get_cons a t x : get (a :: t) x = if bytes_eqb x (r_path a) then Some a else get t x.
Proof. reflexivity. Qed.
Lemma get_update n f t x : (forall r, r_path (f r) = r_path r) ->
  get (update n f t) x = if bytes_eqb n x then option_map f (get t n) else get t x.
Proof.
  intros Hf. induction t as [|a t IH].
  - cbn. destruct (bytes_eqb n x); reflexivity.
  - change (update n f (a :: t)) with ((if at_name n a then f a else a) :: update n f t).
    rewrite !get_cons, at_eq, IH. clear IH.
    destruct (beq_cases n (r_path a)) as [[E1 B1]|[E1 B1]]; rewrite B1; rewrite ?Hf.
    + subst n. destruct (beq_cases (r_path a) x) as [[E2 B2]|[E2 B2]]; rewrite (beq_sym x), B2; [|reflexivity].
      reflexivity.
    + destruct (beq_cases x (r_path a)) as [[E2 B2]|[E2 B2]]; rewrite B2; [|reflexivity].
      subst x. rewrite B1. reflexivity.
Qed.
Lemma get_app t n : forall r x, get (t ++ [{| r_path := n; r_wh := fst r; r_op := snd r |}]) x = match get t x with Some a => Some a | None => if bytes_eqb n x then Some {| r_path := n; r_wh := fst r; r_op := snd r |} else None end.
Proof.
  intros r x. unfold get. induction t as [|a t IH]; cbn.
  - unfold at_name. cbn. rewrite beq_sym. reflexivity.
  - destruct (at_name x a); [reflexivity|exact IH].
Qed.
Lemma existsb_at n t : existsb (at_name n) t = match get t n with Some _ => true | None => false end.
Proof. unfold get. induction t as [|a t IH]; cbn; [reflexivity|]. destruct (at_name n a); [reflexivity|exact IH]. Qed.
Lemma get_upsert n b f t x : (forall r, r_path (f r) = r_path r) ->
  get (upsert n {| r_path := n; r_wh := fst b; r_op := snd b |} f t) x =
  if bytes_eqb n x then Some (match get t n with Some r => f r | None => {| r_path := n; r_wh := fst b; r_op := snd b |} end) else get t x.
Proof.
  intros Hf. unfold upsert. rewrite existsb_at. destruct (get t n) as [a|] eqn:E.
  - rewrite get_update by exact Hf. rewrite E. reflexivity.
  - rewrite get_app. destruct (beq_cases n x) as [[E2 B2]|[E2 B2]]; rewrite B2.
    + subst. rewrite E. reflexivity.
    + destruct (get t x); reflexivity.
Qed.
Lemma get_filter P t x : get (filter (fun r => P (r_path r)) t) x = if P x then get t x else None.
Proof.
  induction t as [|a t IH]; cbn [filter].
  - destruct (P x); reflexivity.
  - rewrite get_cons. destruct (beq_cases x (r_path a)) as [[E B]|[E B]]; rewrite B.
    + subst x. destruct (P (r_path a)) eqn:Pa.
      * rewrite get_cons, beq_refl. reflexivity.
      * exact IH.
    + destruct (P (r_path a)); [rewrite get_cons, B|]; exact IH.
Qed.
Lemma get_bare n t x : NoDup (map r_path t) ->
  get (delete_bare n t) x =
  match get t x with Some r => if bytes_eqb n x && negb (r_wh r) && negb (r_op r) then None else Some r | None => None end.
Proof.
  unfold delete_bare. induction t as [|a t IH]; cbn [map]; intros N; [reflexivity|]. inversion N as [|? ? Na Nt]; subst.
  specialize (IH Nt). cbn [filter]. rewrite get_cons, at_eq.
  destruct (beq_cases x (r_path a)) as [[E B]|[E B]]; rewrite B.
  - subst x. destruct (bytes_eqb n (r_path a) && negb (r_wh a) && negb (r_op a)) eqn:G; cbn [negb].
    + rewrite IH. apply get_none in Na. rewrite Na. reflexivity.
    + rewrite get_cons, beq_refl. reflexivity.
  - destruct (bytes_eqb n (r_path a) && negb (r_wh a) && negb (r_op a)); cbn [negb].
    + exact IH.
    + rewrite get_cons, B. exact IH.
Qed.

Definition row_of (o : option row) : bool * bool := match o with Some r => (r_wh r, r_op r) | None => (false, false) end.
Lemma row_at_get t n : row_at t n = row_of (get t n).
Proof. reflexivity. Qed.

(* Names stay distinct. *)
Lemma nodup_update n f t : (forall r, r_path (f r) = r_path r) -> map r_path (update n f t) = map r_path t.
Proof.
  intros Hf. unfold update. rewrite map_map. apply map_ext. intros r. destruct (at_name n r); [apply Hf|reflexivity].
Qed.
Lemma nodup_filter (P : row -> bool) t : NoDup (map r_path t) -> NoDup (map r_path (filter P t)).
Proof.
  induction t as [|a t IH]; cbn; intros N; [constructor|]. inversion N as [|? ? Na Nt]; subst.
  destruct (P a); cbn; [|auto]. constructor; [|auto]. intros H. apply Na. apply in_map_iff in H.
  destruct H as (r & E & Hr). apply filter_In in Hr. rewrite <- E. apply in_map. tauto.
Qed.
Lemma nodup_snoc {A} (l : list A) x : NoDup l -> ~ In x l -> NoDup (l ++ [x]).
Proof. intros N H. apply (Permutation_NoDup (l := x :: l)); [apply Permutation_cons_append|constructor; assumption]. Qed.
Lemma nodup_upsert n fr f t : r_path fr = n -> (forall r, r_path (f r) = r_path r) -> NoDup (map r_path t) -> NoDup (map r_path (upsert n fr f t)).
Proof.
  intros Hn Hf N. unfold upsert. rewrite existsb_at. destruct (get t n) as [a|] eqn:E.
  - rewrite nodup_update by exact Hf. exact N.
  - rewrite map_app. cbn. apply nodup_snoc; [exact N|]. rewrite Hn. apply get_none. exact E.
Qed.

(* kept, name by name. *)
Definition kept_at (t : table) : Prop :=
  NoDup (map r_path t) /\ forall n r, get t n = Some r -> clean_name n = n /\ r_wh r || r_op r = true.
Lemma kept_iff t : kept t <-> kept_at t.
Proof.
  unfold kept, kept_at. rewrite !Forall_forall. split.
  - intros (N & H1 & H2). split; [exact N|]. intros n r G. pose proof (get_path _ _ _ G) as E. apply get_some_in in G. subst n.
    split; [apply H1|apply H2]; exact G.
  - intros (N & H). split; [exact N|]. split; intros r Hr; apply (get_in _ _ N) in Hr; apply H in Hr; tauto.
Qed.

Lemma clean_fixed n : clean_name (clean_name n) = clean_name n.
Proof. apply clean_name_idem. Qed.

Lemma row_set_wh n t x : row_at (st_set_wh n t) x =
  if bytes_eqb (clean_name n) x then (true, false) else if under (clean_name n) x then (false, false) else row_at t x.
Proof.
  rewrite !row_at_get. unfold st_set_wh, delete_subtree. set (m := clean_name n). assert (Cm : clean_name m = m) by apply clean_name_idem. clearbody m.
  rewrite (get_filter (fun p => negb (in_range m p))). rewrite in_range_under.
  rewrite (get_upsert m (true, false)) by reflexivity.
  destruct (beq_cases m x) as [[E B]|[E B]]; rewrite B.
  - subst x. rewrite under_irrefl. cbn. destruct (get t m); reflexivity.
  - destruct (under m x); reflexivity.
Qed.
Lemma row_set_op n t x : row_at (st_set_op n t) x = if bytes_eqb (clean_name n) x then (fst (row_at t x), true) else row_at t x.
Proof.
  rewrite !row_at_get. unfold st_set_op. set (m := clean_name n). assert (Cm : clean_name m = m) by apply clean_name_idem. clearbody m.
  rewrite (get_upsert m (false, true)) by reflexivity.
  destruct (beq_cases m x) as [[E B]|[E B]]; rewrite B; [|reflexivity].
  subst x. destruct (get t m); reflexivity.
Qed.
Lemma row_clear_wh n t x : NoDup (map r_path t) -> row_at (st_clear_wh n t) x = if bytes_eqb (clean_name n) x then (false, snd (row_at t x)) else row_at t x.
Proof.
  intros N. rewrite !row_at_get. unfold st_clear_wh. set (m := clean_name n). assert (Cm : clean_name m = m) by apply clean_name_idem. clearbody m.
  rewrite get_bare by (rewrite nodup_update by reflexivity; exact N).
  rewrite get_update by reflexivity.
  destruct (beq_cases m x) as [[E B]|[E B]]; rewrite B.
  - subst x. destruct (get t m) as [[p [|] [|]]|]; reflexivity.
  - destruct (get t x); reflexivity.
Qed.
Lemma row_clear_op n t x : NoDup (map r_path t) -> row_at (st_clear_op n t) x = if bytes_eqb (clean_name n) x then (fst (row_at t x), false) else row_at t x.
Proof.
  intros N. rewrite !row_at_get. unfold st_clear_op. set (m := clean_name n). assert (Cm : clean_name m = m) by apply clean_name_idem. clearbody m.
  rewrite get_bare by (rewrite nodup_update by reflexivity; exact N).
  rewrite get_update by reflexivity.
  destruct (beq_cases m x) as [[E B]|[E B]]; rewrite B.
  - subst x. destruct (get t m) as [[p [|] [|]]|]; reflexivity.
  - destruct (get t x); reflexivity.
Qed.

Lemma kept_set_wh n t : kept t -> kept (st_set_wh n t).
Proof.
  rewrite !kept_iff. intros [N H]. unfold st_set_wh. set (m := clean_name n). assert (Cm : clean_name m = m) by apply clean_name_idem. clearbody m. split.
  - apply nodup_filter. apply nodup_upsert; auto.
  - intros x r. unfold delete_subtree. rewrite (get_filter (fun p => negb (in_range m p))).
    rewrite (get_upsert m (true, false)) by reflexivity.
    destruct (negb (in_range m x)); [|discriminate].
    destruct (beq_cases m x) as [[E B]|[E B]]; rewrite B; [|apply H].
    subst x. intros G. split; [exact Cm|]. destruct (get t m); assert (r_wh r = true) as -> by (destruct r; cbn in *; congruence); reflexivity.
Qed.
Lemma kept_set_op n t : kept t -> kept (st_set_op n t).
Proof.
  rewrite !kept_iff. intros [N H]. unfold st_set_op. set (m := clean_name n). assert (Cm : clean_name m = m) by apply clean_name_idem. clearbody m. split.
  - apply nodup_upsert; auto.
  - intros x r. rewrite (get_upsert m (false, true)) by reflexivity.
    destruct (beq_cases m x) as [[E B]|[E B]]; rewrite B; [|apply H].
    subst x. intros G. split; [exact Cm|].
    destruct (get t m); assert (r_op r = true) as -> by (destruct r; cbn in *; congruence); apply orb_true_r.
Qed.
Lemma kept_clear f n t : (forall r, r_path (f r) = r_path r) -> kept t -> kept (delete_bare n (update n f t)).
Proof.
  intros Hf. rewrite !kept_iff. intros [N H]. split.
  - apply nodup_filter. rewrite nodup_update by exact Hf. exact N.
  - intros x r. rewrite get_bare by (rewrite nodup_update by exact Hf; exact N).
    rewrite get_update by exact Hf. destruct (beq_cases n x) as [[E B]|[E B]]; rewrite B; cbn [andb].
    + subst x. destruct (get t n) as [a|] eqn:G; cbn [option_map]; [|discriminate].
      destruct (negb (r_wh (f a)) && negb (r_op (f a))) eqn:W; [discriminate|]. intros Er. apply some_inj in Er. subst r.
      split; [apply (H _ _ G)|]. destruct (r_wh (f a)), (r_op (f a)); cbn in *; congruence.
    + destruct (get t x) as [a|] eqn:G; [|discriminate]. intros Er. apply some_inj in Er. subst r. apply (H _ _ G).
Qed.

Lemma load_in t n : NoDup (map r_path t) ->
  (In n (fst (load t)) <-> fst (row_at t n) = true) /\ (In n (snd (load t)) <-> snd (row_at t n) = true).
Proof.
  intros N. rewrite row_at_get. unfold load. cbn [fst snd]. rewrite !in_map_iff.
  split; split.
  - intros (r & <- & Hr). apply filter_In in Hr. destruct Hr as [Hr W]. rewrite (get_in _ _ N Hr). exact W.
  - intros H. destruct (get t n) as [r|] eqn:G; [|discriminate]. exists r. split; [apply (get_path _ _ _ G)|]. apply filter_In. split; [apply (get_some_in _ _ _ G)|exact H].
  - intros (r & <- & Hr). apply filter_In in Hr. destruct Hr as [Hr W]. rewrite (get_in _ _ N Hr). exact W.
  - intros H. destruct (get t n) as [r|] eqn:G; [|discriminate]. exists r. split; [apply (get_path _ _ _ G)|]. apply filter_In. split; [apply (get_some_in _ _ _ G)|exact H].
Qed.

Lemma seed_fold l : forall acc n, In n (fold_left (fun l n => add_name (clean_name n) l) l acc) <-> In n acc \/ exists m, In m l /\ n = clean_name m.
Proof.
  induction l as [|a l IH]; intros acc n; cbn.
  - split; [auto|]. intros [H|(m & [] & _)]; exact H.
  - rewrite IH, add_in. split.
    + intros [[-> | H]|(m & H & E)]; [right; exists a; auto|left; exact H|right; exists m; auto].
    + intros [H|(m & [<- | H] & E)]; [auto|auto|right; exists m; auto].
Qed.
Lemma seed_in l n : In n (seed l) <-> exists m, In m l /\ n = clean_name m.
Proof. unfold seed. rewrite seed_fold. split; [intros [[]|H]; exact H|auto]. Qed.
Lemma seed_nodup l : NoDup (seed l).
Proof.
  unfold seed. assert (G : forall acc, NoDup acc -> NoDup (fold_left (fun l n => add_name (clean_name n) l) l acc)).
  { induction l as [|a l IH]; intros acc N; cbn; [exact N|]. apply IH, add_nodup, N. }
  apply G. constructor.
Qed.

Definition mask_is (m : mask) (t : table) : Prop :=
  NoDup (m_wh m) /\ NoDup (m_op m) /\
  forall n, (In n (m_wh m) <-> fst (row_at t n) = true) /\ (In n (m_op m) <-> snd (row_at t n) = true).

Lemma kept_clean t n : kept t -> (fst (row_at t n) = true -> clean_name n = n) /\ (snd (row_at t n) = true -> clean_name n = n).
Proof.
  intros K. apply kept_iff in K. destruct K as [N H]. rewrite row_at_get. destruct (get t n) as [r|] eqn:G; cbn; [|split; discriminate].
  destruct (H _ _ G) as [H1 _]. auto.
Qed.
Lemma new_mask_is t : kept t -> mask_is (new_mask t) t.
Proof.
  intros K. split; [apply seed_nodup|]. split; [apply seed_nodup|]. intros n. cbn [new_mask m_wh m_op].
  pose proof K as K'. apply kept_iff in K'. destruct K' as [N _]. rewrite !seed_in.
  split; split.
  - intros (m & Hm & ->). apply (load_in t m N) in Hm. rewrite (proj1 (kept_clean t m K) Hm). exact Hm.
  - intros H. exists n. split; [apply (load_in t n N); exact H|]. symmetry. exact (proj1 (kept_clean t n K) H).
  - intros (m & Hm & ->). apply (load_in t m N) in Hm. rewrite (proj2 (kept_clean t m K) Hm). exact Hm.
  - intros H. exists n. split; [apply (load_in t n N); exact H|]. symmetry. exact (proj2 (kept_clean t n K) H).
Qed.
Lemma in_step_of w : kept (disk w) -> mask_is (mem w) (disk w) -> in_step w.
Proof.
  intros K M. destruct M as (_ & _ & M). destruct (new_mask_is _ K) as (_ & _ & M').
  split; intros n; destruct (M n), (M' n); tauto.
Qed.

Lemma drop_in n l x : In x (filter (fun y => negb (under n y)) l) <-> In x l /\ under n x = false.
Proof. rewrite filter_In, negb_true_iff. tauto. Qed.

Lemma mask_set_wh n m t : clean_name n = n -> mask_is m t -> mask_is (mk_set_wh n m) (st_set_wh n t).
Proof.
  intros C (N1 & N2 & M). split; [apply NoDup_filter, add_nodup, N1|]. split; [apply NoDup_filter, NoDup_filter, N2|].
  intros x. unfold mk_set_wh, drop_subtree. cbn [m_wh m_op]. rewrite !drop_in, add_in, del_in, row_set_wh, C. destruct (M x) as [M1 M2].
  destruct (beq_cases n x) as [[E B]|[E B]]; rewrite B.
  - subst x. rewrite under_irrefl. cbn. split; split; intros; try tauto; try discriminate. 
  - rewrite M1, M2. destruct (under n x); cbn; split; split; intros H; try discriminate; try tauto.
    + destruct H as [_ H]; discriminate.
    + destruct H as [_ H]; discriminate.
    + destruct H as [[H|H] _]; [congruence|exact H].
    + split; [|reflexivity]. split; [exact H|congruence].
Qed.
Lemma mask_set_op n m t : clean_name n = n -> mask_is m t -> mask_is (mk_set_op n m) (st_set_op n t).
Proof.
  intros C (N1 & N2 & M). split; [exact N1|]. split; [apply add_nodup, N2|].
  intros x. unfold mk_set_op. cbn [m_wh m_op]. rewrite add_in, row_set_op, C. destruct (M x) as [M1 M2].
  destruct (beq_cases n x) as [[E B]|[E B]]; rewrite B; cbn.
  - subst x. tauto.
  - split; [exact M1|]. rewrite <- M2. split; [intros [H|H]; [congruence|exact H]|auto].
Qed.
Lemma mask_clear_wh n m t : clean_name n = n -> kept t -> mask_is m t -> mask_is (mk_clear_wh n m) (st_clear_wh n t).
Proof.
  intros C K (N1 & N2 & M). split; [apply NoDup_filter, N1|]. split; [exact N2|].
  intros x. unfold mk_clear_wh. cbn [m_wh m_op]. rewrite del_in, row_clear_wh by apply K. rewrite C. destruct (M x) as [M1 M2].
  destruct (beq_cases n x) as [[E B]|[E B]]; rewrite B; cbn.
  - subst x. split; [|exact M2]. split; [intros [_ H]; congruence|discriminate].
  - split; [|exact M2]. rewrite M1. split; [tauto|]. intros H. split; [exact H|congruence].
Qed.
Lemma mask_clear_op n m t : clean_name n = n -> kept t -> mask_is m t -> mask_is (mk_clear_op n m) (st_clear_op n t).
Proof.
  intros C K (N1 & N2 & M). split; [exact N1|]. split; [apply NoDup_filter, N2|].
  intros x. unfold mk_clear_op. cbn [m_wh m_op]. rewrite del_in, row_clear_op by apply K. rewrite C. destruct (M x) as [M1 M2].
  destruct (beq_cases n x) as [[E B]|[E B]]; rewrite B; cbn.
  - subst x. split; [exact M1|]. split; [intros [_ H]; congruence|discriminate].
  - split; [exact M1|]. rewrite M2. split; [tauto|]. intros H. split; [exact H|congruence].
Qed.

(* Every action keeps the table well kept, and keeps the maps in step unless a failed
   transaction landed. *)
Definition sound (b : bool) (a : act) : Prop := forall w k, kept (disk w) ->
  kept (disk (fst (a w k))) /\ (b = false -> mask_is (mem w) (disk w) -> mask_is (mem (fst (a w k))) (disk (fst (a w k)))).

Lemma sound_commit b f g : (forall t, kept t -> kept (f t)) -> (forall m t, kept t -> mask_is m t -> mask_is (g m) (f t)) -> sound b (commit b f g).
Proof.
  intros Hf Hg w k K. unfold commit. destruct k; cbn.
  - split; [destruct b; auto|]. intros ->. auto.
  - split; [auto|]. intros _ M. auto.
Qed.
Lemma sound_done b : sound b done.
Proof. intros w k K. cbn. auto. Qed.
Lemma sound_thn b a1 a2 : sound b a1 -> sound b a2 -> sound b (thn a1 a2).
Proof.
  intros H1 H2 w k K. unfold thn. destruct (H1 w k K) as [K1 M1]. destruct (a1 w k) as [w' [k'|]]; cbn in *; [|auto].
  destruct (H2 w' k' K1) as [K2 M2]. auto.
Qed.
Lemma sound_each b f l : (forall n, sound b (f n)) -> sound b (each f l).
Proof. intros H. induction l as [|n l IH]; cbn; [apply sound_done|]. apply sound_thn; auto. Qed.
Lemma sound_set_wh b n : sound b (a_set_wh b n).
Proof. apply sound_commit; [apply kept_set_wh|]. intros m t _. apply mask_set_wh, clean_name_idem. Qed.
Lemma sound_set_op b n : sound b (a_set_op b n).
Proof. apply sound_commit; [apply kept_set_op|]. intros m t _. apply mask_set_op, clean_name_idem. Qed.
Lemma sound_clear_wh b n : sound b (a_clear_wh b n).
Proof. apply sound_commit; [intros t; apply kept_clear; reflexivity|]. intros m t. apply mask_clear_wh, clean_name_idem. Qed.
Lemma sound_clear_op b n : sound b (a_clear_op b n).
Proof. apply sound_commit; [intros t; apply kept_clear; reflexivity|]. intros m t. apply mask_clear_op, clean_name_idem. Qed.
Lemma sound_if b (c : world -> bool) a1 a2 : sound b a1 -> sound b a2 -> sound b (fun w => if c w then a1 w else a2 w).
Proof. intros H1 H2 w k K. destruct (c w); [apply H1|apply H2]; exact K. Qed.
Lemma sound_mcall b c : sound b (run_mcall b c).
Proof.
  destruct c as [n|n|n|n|n|o n]; cbn [run_mcall];
    [apply sound_set_wh|apply sound_clear_wh|apply sound_set_op|apply sound_clear_op| |].
  - intros w k K. unfold a_clear_subtree. destruct (masked_under (mem w) (clean_name n)) as [ws os].
    refine (sound_thn b _ _ _ _ w k K); apply sound_each; intros x; apply sound_if; auto using sound_clear_wh, sound_clear_op, sound_done.
  - intros w k K. unfold a_rename_subtree. destruct (masked_under (mem w) (clean_name o)) as [ws os].
    refine (sound_thn b _ _ _ _ w k K); [|apply sound_thn; [|apply sound_thn]]; apply sound_each; intros x;
      auto using sound_set_wh, sound_set_op, sound_clear_wh, sound_clear_op.
Qed.

Lemma mrun_sound es : forall w ok, kept (disk w) -> (ok = true -> mask_is (mem w) (disk w)) ->
  kept (disk (mrun w es)) /\ (reported_since ok es = true -> mask_is (mem (mrun w es)) (disk (mrun w es))).
Proof.
  induction es as [|e es IH]; intros w ok K M; [cbn; auto|]. cbn [mrun fold_left]. destruct e as [c k b|].
  - destruct (sound_mcall b c w k K) as [K' M']. cbn [reported_since]. apply (IH (mstep w (MCall c k b)) (ok && negb b)).
    + exact K'.
    + intros H. apply andb_true_iff in H. destruct H as [-> Hb]. apply M'; [destruct b; [discriminate|reflexivity]|auto].
  - cbn [reported_since]. apply (IH (opened (disk w)) true); [exact K|]. intros _. apply new_mask_is. exact K.
Qed.
Lemma masks_in_step t es : kept t -> reported_since true es = true -> in_step (mrun (opened t) es) /\ kept (disk (mrun (opened t) es)).
Proof.
  intros K R. destruct (mrun_sound es (opened t) true K) as [K' M']; [intros _; apply new_mask_is; exact K|].
  split; [|exact K']. apply in_step_of; auto.
Qed.
Lemma table_always_kept t es : kept t -> kept (disk (mrun (opened t) es)).
Proof. intros K. apply (mrun_sound es (opened t) true K). intros _. apply new_mask_is. exact K. Qed.
