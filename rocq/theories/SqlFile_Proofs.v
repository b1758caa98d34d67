(* Proofs for C90. *)
From Verif Require Import Common CommonLemmas ContentRange_Model ContentRange_Proofs PathLex_Model PathLex_Proofs SqlVfs_Model SqlVfs_Proofs SqlFile_Model SqlFile_Spec.
Open Scope nat_scope.

(* ---- names ---- *)

Lemma beq_eq (a b : list byte) : bytes_eqb a b = true <-> a = b.
Proof. apply bytes_eqb_eq. Qed.

Lemma turn_clean l : forall st, Forall (fun c => c <> [dot; dot]) st ->
  fold_left (clean_step true) l st = fold_left turn l st /\ Forall (fun c => c <> [dot; dot]) (fold_left turn l st).
Proof.
  induction l as [|c l IH]; intros st H; cbn [fold_left]; [split; [reflexivity|exact H]|].
  assert (clean_step true st c = turn st c /\ Forall (fun c => c <> [dot; dot]) (turn st c)) as [E F].
  { unfold clean_step.
    destruct (is_empty c) eqn:Ee; [apply is_empty_true in Ee; subst c; cbn; auto|].
    destruct (is_dot c) eqn:Ed; [apply is_dot_true in Ed; subst c; cbn; auto|].
    destruct (is_dotdot c) eqn:Edd.
    - apply is_dotdot_true in Edd. subst c. cbn. destruct st as [|top st]; [cbn; auto|].
      inversion H as [|? ? H1 H2]; subst. destruct (is_dotdot top) eqn:Et; [apply is_dotdot_true in Et; contradiction|]. cbn. auto.
    - assert (c <> [dot; dot]) as N2 by (intros ->; discriminate Edd).
      assert (c <> [dot]) as N1 by (intros ->; discriminate Ed).
      assert (c <> []) as N0 by (intros ->; discriminate Ee). cbn [orb].
      assert (turn st c = c :: st) as ->.
      { unfold turn. unfold dot in N1, N2. destruct c as [|a [|b [|d c]]]; [congruence| | |];
        repeat (match goal with |- context [match ?x with _ => _ end] => destruct x end); congruence || reflexivity. }
      auto. }
  rewrite E. apply IH. exact F.
Qed.

Lemma canon_comps name : canon name = name_comps name.
Proof.
  unfold canon, name_comps, clean_comps.
  assert (split_sep (sep :: name) = [] :: split_sep name) as -> by reflexivity.
  f_equal. symmetry. apply (turn_clean (split_sep name) []). constructor.
Qed.

Lemma comps_join l : Forall proper l -> comps (join_sep l) = l.
Proof.
  intros H. destruct l as [|c l]; [reflexivity|].
  assert (split_sep (join_sep (c :: l)) = c :: l) as E by (apply split_join; [discriminate|apply proper_sepfree; exact H]).
  unfold comps. destruct (join_sep (c :: l)) eqn:Ej; [|exact E].
  cbn in E. injection E as <- <-. inversion H as [|? ? [X _] _]; subst. congruence.
Qed.
Lemma comps_clean name : comps (clean_path name) = canon name.
Proof. rewrite clean_path_comps, canon_comps. apply comps_join, name_comps_proper. Qed.

Lemma path_eqb_eq a : forall b, path_eqb a b = true <-> a = b.
Proof.
  induction a as [|x a IH]; intros [|y b]; cbn; split; intros H; try discriminate; try reflexivity.
  - apply andb_true_iff in H as [H1 H2]. apply beq_eq in H1. apply IH in H2. congruence.
  - injection H as -> ->. apply andb_true_iff. split; [apply beq_eq; reflexivity|apply IH; reflexivity].
Qed.
Lemma same_path_eq a : forall b, same_path a b = true <-> a = b.
Proof.
  induction a as [|x a IH]; intros [|y b]; cbn; split; intros H; try discriminate; try reflexivity.
  - apply andb_true_iff in H as [H1 H2]. apply IH in H2. destruct (list_eq_dec N.eq_dec x y); congruence.
  - injection H as -> ->. apply andb_true_iff. split; [destruct (list_eq_dec N.eq_dec y y); congruence|apply IH; reflexivity].
Qed.
Lemma same_as a b : same_path a b = path_eqb b a.
Proof.
  destruct (path_eqb b a) eqn:E; [apply path_eqb_eq in E; subst; apply same_path_eq; reflexivity|].
  destruct (same_path a b) eqn:F; [apply same_path_eq in F; subst; assert (path_eqb b b = true) by (apply path_eqb_eq; reflexivity); congruence|reflexivity].
Qed.

Lemma assoc_drop l p q : assoc (drop l p) q = if path_eqb p q then None else assoc l q.
Proof.
  induction l as [|[r n] l IH]; [cbn; destruct (path_eqb p q); reflexivity|]. cbn [drop assoc].
  destruct (path_eqb r p) eqn:E.
  - apply path_eqb_eq in E as ->. rewrite IH. destruct (path_eqb p q); reflexivity.
  - cbn [assoc]. rewrite IH. destruct (path_eqb r q) eqn:F; [|reflexivity].
    apply path_eqb_eq in F as ->. destruct (path_eqb p q) eqn:G; [|reflexivity].
    apply path_eqb_eq in G as ->. assert (path_eqb q q = true) by (apply path_eqb_eq; reflexivity). congruence.
Qed.

Lemma walk_ext f g (H : forall q, f q = g q) : forall rest pre, walk f pre rest = walk g pre rest.
Proof. induction rest as [|c r IH]; intros pre; cbn; rewrite H; [reflexivity|]. destruct (g pre) as [[|]|]; auto. Qed.

Lemma walk_there f : forall rest pre n, walk f pre rest = There n -> f (pre ++ rest) = Some n.
Proof.
  induction rest as [|c r IH]; intros pre n H; cbn in H.
  - rewrite app_nil_r. destruct (f pre) as [[|]|]; congruence.
  - destruct (f pre) as [[|]|]; try discriminate. apply IH in H. rewrite <- app_assoc in H. exact H.
Qed.

(* ---- bytes ---- *)

Lemma nth_firstn {A} (l : list A) d : forall n i, nth i (firstn n l) d = if i <? n then nth i l d else d.
Proof.
  induction l as [|x l IH]; intros [|n] [|i]; cbn [firstn nth]; try reflexivity.
  - destruct (S i <? S n); reflexivity.
  - rewrite IH. reflexivity.
Qed.
Lemma nth_skipn {A} (l : list A) d : forall n i, nth i (skipn n l) d = nth (n + i) l d.
Proof. induction l as [|x l IH]; intros [|n] i; cbn; try reflexivity; [destruct i; reflexivity|apply IH]. Qed.
Lemma nth_zeros n i : nth i (zeros n) 0%N = 0%N.
Proof. unfold zeros. revert i. induction n as [|n IH]; intros [|i]; cbn; auto. Qed.
Lemma len_zeros n : length (zeros n) = n.
Proof. apply repeat_length. Qed.

Lemma shows_byte d c i : shows d c -> nth i d 0%N = byte_at c i.
Proof.
  intros [L H]. unfold byte_at. destruct (Nat.ltb_spec i (c_len c)); [auto|]. apply nth_overflow. lia.
Qed.
Lemma shows_padded d c i n : shows d c -> nth i (d ++ zeros n) 0%N = byte_at c i.
Proof.
  intros H. rewrite <- (shows_byte d c i H). destruct (Nat.lt_ge_cases i (length d)).
  - apply app_nth1. assumption.
  - rewrite app_nth2, nth_zeros by assumption. symmetry. apply nth_overflow. assumption.
Qed.

Lemma shows_write d c off bs : shows d c -> shows (bytes_write d off bs) (written c off bs).
Proof.
  intros S. unfold bytes_write, written. destruct bs as [|x bs]; [exact S|]. set (l := x :: bs) in *.
  pose proof (proj1 S) as L.
  assert (length (firstn off (d ++ zeros (off - length d))) = off) as Lf.
  { rewrite firstn_length, app_length, len_zeros. lia. }
  split; cbn [c_len c_at].
  - rewrite !app_length, Lf, skipn_length. lia.
  - intros i Hi. destruct (Nat.leb_spec off i) as [Ho|Ho]; cbn [andb].
    + rewrite app_nth2 by lia. rewrite Lf. destruct (Nat.ltb_spec i (off + length l)).
      * rewrite app_nth1 by lia. reflexivity.
      * rewrite app_nth2 by lia. rewrite nth_skipn. replace (off + length l + (i - off - length l)) with i by lia. apply shows_byte. exact S.
    + rewrite app_nth1 by lia. rewrite nth_firstn. destruct (Nat.ltb_spec i off); [|lia]. apply shows_padded. exact S.
Qed.
Lemma shows_cut d c n : shows d c -> shows (bytes_cut d n) (resized c n).
Proof.
  intros S. pose proof (proj1 S) as L. unfold bytes_cut, resized. split; cbn [c_len c_at].
  - rewrite firstn_length, app_length, len_zeros. lia.
  - intros i Hi. rewrite nth_firstn. destruct (Nat.ltb_spec i n); [|lia]. apply shows_padded. exact S.
Qed.
Lemma shows_empty : shows [] empty_content.
Proof. split; [reflexivity|]. cbn. lia. Qed.

Lemma page_length c off n : length (page c off n) = n.
Proof. unfold page. rewrite map_length, seq_length. reflexivity. Qed.
Lemma page_nth c off n i : i < n -> nth i (page c off n) 0%N = byte_at c (off + i).
Proof.
  intros H. unfold page. rewrite nth_indep with (d' := byte_at c (off + 0)) by (rewrite map_length, seq_length; exact H).
  rewrite (map_nth (fun i => byte_at c (off + i)) (seq 0 n) 0 i). rewrite seq_nth by exact H. reflexivity.
Qed.
(* What is read, filled up with zeros, is the page. *)
Lemma read_page d c off n : shows d c ->
  bytes_read d off n ++ repeat 0%N (n - length (bytes_read d off n)) = page c off n.
Proof.
  intros S. unfold bytes_read. set (r := firstn n (skipn off d)).
  assert (length r <= n) as Lr by (unfold r; rewrite firstn_length; lia).
  apply nth_ext with (d := 0%N) (d' := 0%N).
  - rewrite app_length, repeat_length, page_length. lia.
  - intros i Hi. rewrite app_length, repeat_length in Hi. rewrite page_nth by lia.
    destruct (Nat.lt_ge_cases i (length r)) as [Hl|Hl].
    + rewrite app_nth1 by exact Hl. unfold r. rewrite nth_firstn, nth_skipn. destruct (Nat.ltb_spec i n); [|lia]. apply shows_byte. exact S.
    + rewrite app_nth2 by exact Hl. change (repeat 0%N (n - length r)) with (zeros (n - length r)). rewrite nth_zeros.
      unfold r in Hl. rewrite firstn_length, skipn_length in Hl. symmetry. unfold byte_at. destruct (Nat.ltb_spec (off + i) (c_len c)) as [X|X]; [|reflexivity].
      destruct S as [L _]. lia.
Qed.
Lemma read_length d off n : length (bytes_read d off n) = Nat.min n (length d - off).
Proof. unfold bytes_read. rewrite firstn_length, skipn_length. reflexivity. Qed.

(* ---- tables ---- *)

Lemma put_split {A} (l : list A) h x : h < length l -> put_nth l h x = firstn h l ++ x :: skipn (S h) l.
Proof. revert h. induction l as [|y l IH]; intros [|h] H; cbn in *; try lia; [reflexivity|]. rewrite IH by lia. reflexivity. Qed.
Lemma put_length {A} (l : list A) h x : length (put_nth l h x) = length l.
Proof. revert h. induction l as [|y l IH]; intros [|h]; cbn; auto. Qed.
Lemma put_over {A} (l : list A) h x : length l <= h -> put_nth l h x = l.
Proof. revert h. induction l as [|y l IH]; intros [|h] H; cbn in *; try lia; [reflexivity|reflexivity|]. rewrite IH by lia. reflexivity. Qed.

Lemma F2_get {A B} (R : A -> B -> Prop) l m : Forall2 R l m -> forall h,
  match nth_error l h, nth_error m h with Some a, Some b => R a b | None, None => True | _, _ => False end.
Proof. induction 1; intros [|h]; cbn; auto. apply IHForall2. Qed.
Lemma F2_len {A B} (R : A -> B -> Prop) l m : Forall2 R l m -> length l = length m.
Proof. induction 1; cbn; congruence. Qed.
Lemma F2_put {A B} (R R' : A -> B -> Prop) h x y : forall l m, Forall2 R l m ->
  (forall j a b, j <> h -> nth_error l j = Some a -> nth_error m j = Some b -> R a b -> R' a b) ->
  R' x y -> Forall2 R' (put_nth l h x) (put_nth m h y).
Proof.
  intros l m H. revert h. induction H as [|a b l m Hab H IH]; intros [|h] Ho Hxy; cbn; try constructor; auto.
  - assert (forall j a b, nth_error l j = Some a -> nth_error m j = Some b -> R a b -> R' a b) as X
      by (intros j a' b' E1 E2; exact (Ho (S j) a' b' ltac:(discriminate) E1 E2)).
    clear - H X. induction H as [|a b l m Hab H IH]; constructor.
    + exact (X 0 a b eq_refl eq_refl Hab).
    + apply IH. intros j a' b' E1 E2. exact (X (S j) a' b' E1 E2).
  - exact (Ho 0 a b ltac:(discriminate) eq_refl eq_refl Hab).
  - apply IH; [|exact Hxy]. intros j a' b' Hj E1 E2. exact (Ho (S j) a' b' ltac:(lia) E1 E2).
Qed.
Lemma F2_imp {A B} (R R' : A -> B -> Prop) : forall l m, Forall2 R l m ->
  (forall j a b, nth_error l j = Some a -> nth_error m j = Some b -> R a b -> R' a b) -> Forall2 R' l m.
Proof.
  intros l m H X. induction H as [|a b l m Hab H IH]; constructor.
  - exact (X 0 a b eq_refl eq_refl Hab).
  - apply IH. intros j a' b' E1 E2. exact (X (S j) a' b' E1 E2).
Qed.

(* ---- errors ---- *)

Lemma wrap_eof v e : is_eof (wrap v e) = is_eof e.
Proof. unfold wrap. induction (e_wraps v); cbn; auto. Qed.
Lemma wrap_noent v e : is_noent (wrap v e) = is_noent e.
Proof. unfold wrap. induction (e_wraps v); cbn; auto. Qed.
Lemma wrap_code v e c : code_or e c = c -> code_or (wrap v e) c = c.
Proof. unfold wrap. intros H. destruct (e_wraps v); cbn; auto. Qed.
Lemma wrap_hard v n : wrap v (EHard n) <> EEof.
Proof. unfold wrap. destruct (e_wraps v); cbn; discriminate. Qed.

(* ---- descriptors ---- *)

Definition live (b : backend) (k : nat) : Prop := exists x, fd_of b k = Some x.

Lemma fd_of_lt b k x : fd_of b k = Some x -> nth_error (b_fds b) k = Some x /\ fd_open x = true /\ k < length (b_fds b).
Proof.
  unfold fd_of. destruct (nth_error (b_fds b) k) as [y|] eqn:E; [|discriminate]. destruct (fd_open y) eqn:O; [|discriminate].
  intros H. apply some_inj in H. subst y. split; [reflexivity|]. split; [exact O|]. apply nth_error_Some. congruence.
Qed.
Lemma fd_of_add ns ds b x k : fd_of (Backend ns ds (b_fds b ++ [x])) k =
  if k =? length (b_fds b) then (if fd_open x then Some x else None) else fd_of b k.
Proof.
  unfold fd_of. cbn. destruct (Nat.eqb_spec k (length (b_fds b))) as [->|N].
  - rewrite nth_error_app2, Nat.sub_diag by lia. reflexivity.
  - destruct (Nat.lt_ge_cases k (length (b_fds b))).
    + rewrite nth_error_app1 by assumption. reflexivity.
    + rewrite (proj2 (nth_error_None _ _)) by (rewrite app_length; cbn; lia). rewrite (proj2 (nth_error_None _ _)) by assumption. reflexivity.
Qed.
Lemma fd_of_set b k x j : k < length (b_fds b) ->
  fd_of (set_fd b k x) j = if j =? k then (if fd_open x then Some x else None) else fd_of b j.
Proof.
  intros L. unfold fd_of, set_fd. cbn. destruct (Nat.eqb_spec j k) as [->|N].
  - apply nth_error_Some in L. destruct (nth_error (b_fds b) k) eqn:E; [|congruence]. rewrite (nth_put_same _ _ _ _ E). reflexivity.
  - rewrite nth_put_other by congruence. reflexivity.
Qed.
Lemma fd_of_back ns ds b k : fd_of (Backend ns ds (b_fds b)) k = fd_of b k.
Proof. reflexivity. Qed.

Lemma remove_fds v b p f : b_fds (fst (b_remove v b p f)) = b_fds b.
Proof. unfold b_remove. destruct f; [reflexivity|]. destruct (walk _ _ _) as [[|]| |]; cbn; try reflexivity. destruct (_ || _); reflexivity. Qed.
Lemma write_fds v b k off bs f : b_fds (fst (b_write v b k off bs f)) = b_fds b.
Proof. unfold b_write. destruct (fd_of b k) as [x|]; [|reflexivity]. destruct (fd_node x); [reflexivity|]. destruct (fd_write x); [|reflexivity]. destruct f as [[? ?]|]; reflexivity. Qed.
Lemma truncate_fds v b k n f : b_fds (fst (b_truncate v b k n f)) = b_fds b.
Proof. unfold b_truncate. destruct (fd_of b k) as [x|]; [|reflexivity]. destruct (fd_node x); [reflexivity|]. destruct (fd_write x); [|reflexivity]. destruct f; reflexivity. Qed.

(* A lock call changes the lock of one open descriptor, or nothing. *)
Definition relocked (b b' : backend) (k : nat) : Prop :=
  b_names b' = b_names b /\ b_data b' = b_data b /\
  (b_fds b' = b_fds b \/
   exists x o, fd_of b k = Some x /\ b_fds b' = put_nth (b_fds b) k (Fd (fd_node x) (fd_write x) true o)).
Lemma relocked_refl b k : relocked b b k.
Proof. split; [reflexivity|]. split; [reflexivity|]. left. reflexivity. Qed.
Lemma lock_relocked v b k how f : relocked b (fst (b_lock v b k how f)) k.
Proof.
  unfold b_lock. destruct (fd_of b k) as [x|] eqn:E; [|apply relocked_refl]. destruct f; [apply relocked_refl|].
  split; [reflexivity|]. split; [reflexivity|]. right. exists x, how. auto.
Qed.
Lemma relocked_fd b b' k j : relocked b b' k ->
  match fd_of b j with
  | Some x => exists o, fd_of b' j = Some (Fd (fd_node x) (fd_write x) true o)
  | None => fd_of b' j = None
  end.
Proof.
  intros (_ & _ & [E|(x & o & Ex & E)]).
  - assert (fd_of b' j = fd_of b j) as -> by (unfold fd_of; rewrite E; reflexivity).
    destruct (fd_of b j) as [y|] eqn:Ey; [|reflexivity]. exists (fd_lock y). apply fd_of_lt in Ey as (_ & O & _). destruct y; cbn in *. congruence.
  - assert (fd_of b' j = fd_of (set_fd b k (Fd (fd_node x) (fd_write x) true o)) j) as -> by (unfold fd_of, set_fd; cbn; rewrite E; reflexivity).
    pose proof (fd_of_lt _ _ _ Ex) as (_ & _ & L). rewrite (fd_of_set _ _ _ _ L). destruct (Nat.eqb_spec j k) as [->|N].
    + rewrite Ex. exists o. reflexivity.
    + destruct (fd_of b j) as [y|] eqn:Ey; [|reflexivity]. exists (fd_lock y). apply fd_of_lt in Ey as (_ & O & _). destruct y; cbn in *. congruence.
Qed.

Lemma f_lock_is v b x l f : let '(b', x', e) := f_lock v b x l f in
  relocked b b' (sf_fd x) /\ x' = with_level x (sf_level x') /\
  (if l <=? sf_level x then sf_level x' = sf_level x /\ e = None
   else if (2 <=? l) && o_readonly (sf_flags x) then sf_level x' = sf_level x /\ e = Some (ECode IoLock)
   else (fd_of b (sf_fd x) <> None ->
         match hits (e_locks v) f with
         | Some n => sf_level x' = sf_level x /\ e = Some (wrap v (EHard n))
         | None => sf_level x' = l /\ e = None
         end)).
Proof.
  unfold f_lock. change l_reserved with 2. destruct (l <=? sf_level x); [split; [apply relocked_refl|destruct x; auto]|].
  destruct ((2 <=? l) && o_readonly (sf_flags x)); [split; [apply relocked_refl|destruct x; auto]|].
  destruct (e_locks v); cbn [hits].
  - pose proof (lock_relocked v b (sf_fd x) (if l =? l_shared then OSh else OEx) f) as R.
    unfold b_lock in *. destruct (fd_of b (sf_fd x)) as [y|] eqn:E.
    + destruct f; cbn in *; (split; [exact R|destruct x; auto]).
    + cbn in *. split; [exact R|]. split; [destruct x; reflexivity|]. congruence.
  - split; [apply relocked_refl|]. destruct x; auto.
Qed.
Lemma f_unlock_is v b x l f : let '(b', x', e) := f_unlock v b x l f in
  relocked b b' (sf_fd x) /\ x' = with_level x (sf_level x') /\
  (if sf_level x <=? l then sf_level x' = sf_level x /\ e = None
   else sf_level x' = l /\ (fd_of b (sf_fd x) <> None ->
         e = match hits (e_locks v) f with Some n => Some (wrap v (EHard n)) | None => None end)).
Proof.
  unfold f_unlock. destruct (sf_level x <=? l); [split; [apply relocked_refl|destruct x; auto]|].
  destruct (e_locks v); cbn [hits].
  - pose proof (lock_relocked v b (sf_fd x) (if l =? l_shared then OSh else ONone) f) as R.
    unfold b_lock in *. destruct (fd_of b (sf_fd x)) as [y|] eqn:E.
    + destruct f; cbn in *; (split; [exact R|destruct x; auto]).
    + cbn in *. split; [exact R|]. split; [destruct x; reflexivity|]. split; [reflexivity|congruence].
  - split; [apply relocked_refl|]. destruct x; auto.
Qed.
Lemma f_close_is v b x fu fc fr y : fd_of b (sf_fd x) = Some y ->
  exists b1, relocked b b1 (sf_fd x) /\
  let b2 := set_fd b1 (sf_fd x) (Fd (fd_node y) (fd_write y) false ONone) in
  fst (f_close v b x fu fc fr) = (if o_delete (sf_flags x) then fst (b_remove v b2 (sf_name x) fr) else b2) /\
  (snd (f_close v b x fu fc fr) = None <->
    hits (e_locks v && (0 <? sf_level x)) fu = None /\ fc = None /\
    (o_delete (sf_flags x) = true -> snd (b_remove v b2 (sf_name x) fr) = None)) /\
  (forall e, snd (f_close v b x fu fc fr) = Some e -> forall c, code_or e c = c).
Proof.
  intros Hy. unfold f_close. pose proof (f_unlock_is v b x l_none fu) as U.
  destruct (f_unlock v b x l_none fu) as [[b1 x'] e]. destruct U as (R & _ & U).
  assert (e = match hits (e_locks v && (0 <? sf_level x)) fu with Some n => Some (wrap v (EHard n)) | None => None end) as ->.
  { change l_none with 0 in U. destruct (Nat.leb_spec (sf_level x) 0) as [L|L].
    - destruct U as [_ ->]. destruct (Nat.ltb_spec 0 (sf_level x)); [lia|]. rewrite andb_false_r. reflexivity.
    - destruct U as [_ U]. destruct (Nat.ltb_spec 0 (sf_level x)); [|lia]. rewrite andb_true_r. apply U. congruence. }
  clear U x'. exists b1. split; [exact R|]. pose proof (relocked_fd b b1 (sf_fd x) (sf_fd x) R) as F. rewrite Hy in F. destruct F as [o F].
  unfold b_close. rewrite F. cbn [fd_node fd_write]. cbv zeta.
  set (b2 := set_fd b1 (sf_fd x) _).
  destruct (o_delete (sf_flags x)).
  - destruct (b_remove v b2 (sf_name x) fr) as [b3 er]. cbn [fst snd]. split; [reflexivity|].
    destruct (hits _ fu), fc, er; cbn; (split; [|congruence]) || (split; [|intros ? X; apply some_inj in X; subst; reflexivity]);
      split; intros; try discriminate; try reflexivity; repeat split; intuition discriminate.
  - cbn [fst snd]. split; [reflexivity|].
    destruct (hits _ fu), fc; cbn; (split; [|congruence]) || (split; [|intros ? X; apply some_inj in X; subst; reflexivity]);
      split; intros; try discriminate; try reflexivity; repeat split; intuition discriminate.
Qed.

Definition same_shape (s s' : sstate) : Prop :=
  (forall h k, owns s' h k <-> owns s h k) /\ (forall k, live (s_back s') k <-> live (s_back s) k).
Lemma tidy_same s s' : tidy s -> same_shape s s' -> tidy s'.
Proof.
  intros (T1 & T2 & T3) [O L]. split; [|split].
  - intros h k H. apply O in H. apply L. exact (T1 h k H).
  - intros k x H. assert (live (s_back s) k) as (y & Hy) by (apply L; exists x; exact H).
    destruct (T2 k y Hy) as [h Hh]. exists h. apply O. exact Hh.
  - intros h h' k H H'. apply O in H. apply O in H'. exact (T3 h h' k H H').
Qed.
Lemma same_shape_refl s : same_shape s s.
Proof. split; intros; reflexivity. Qed.
Lemma live_fds b b' : b_fds b' = b_fds b -> forall k, live b' k <-> live b k.
Proof. intros E k. unfold live, fd_of. rewrite E. reflexivity. Qed.
Lemma same_shape_fds s b : b_fds b = b_fds (s_back s) -> same_shape s (SState b (s_handles s)).
Proof. intros E. split; [intros; reflexivity|]. cbn. apply live_fds. exact E. Qed.

Lemma handle_of_put s b h x j : h < length (s_handles s) ->
  handle_of (set_handle s b h x) j = if j =? h then x else handle_of s j.
Proof.
  intros L. unfold handle_of, set_handle. cbn. destruct (Nat.eqb_spec j h) as [->|N].
  - apply nth_error_Some in L. destruct (nth_error (s_handles s) h) eqn:E; [|congruence]. rewrite (nth_put_same _ _ _ _ E). destruct x; reflexivity.
  - rewrite nth_put_other by congruence. reflexivity.
Qed.
Lemma handle_of_lt s h x : handle_of s h = Some x -> nth_error (s_handles s) h = Some (Some x) /\ h < length (s_handles s).
Proof.
  unfold handle_of. destruct (nth_error (s_handles s) h) as [[y|]|] eqn:E; try discriminate. intros H. apply some_inj in H. subst y.
  split; [reflexivity|]. apply nth_error_Some. congruence.
Qed.
Lemma handle_of_add s b x j : handle_of (SState b (s_handles s ++ [Some x])) j = if j =? length (s_handles s) then Some x else handle_of s j.
Proof.
  unfold handle_of. cbn. destruct (Nat.eqb_spec j (length (s_handles s))) as [->|N].
  - rewrite nth_error_app2, Nat.sub_diag by lia. reflexivity.
  - destruct (Nat.lt_ge_cases j (length (s_handles s))).
    + rewrite nth_error_app1 by assumption. reflexivity.
    + rewrite (proj2 (nth_error_None _ _)) by (rewrite app_length; cbn; lia). rewrite (proj2 (nth_error_None _ _)) by assumption. reflexivity.
Qed.

(* A handle replaced by one on the same descriptor or on memory both times. *)
Definition fd_part (x : option handle) : option nat := match x with Some (HFile f) => Some (sf_fd f) | _ => None end.
Lemma owns_part s h k : owns s h k <-> fd_part (handle_of s h) = Some k.
Proof.
  unfold owns. split.
  - intros (x & E & K). rewrite E. cbn. congruence.
  - destruct (handle_of s h) as [[d|x]|]; cbn; try discriminate. intros E. exists x. split; [reflexivity|congruence].
Qed.
Lemma same_shape_put s b h x : h < length (s_handles s) -> fd_part x = fd_part (handle_of s h) ->
  (forall k, live b k <-> live (s_back s) k) -> same_shape s (set_handle s b h x).
Proof.
  intros L E Lv. split; [|exact Lv]. intros j k. rewrite !owns_part, handle_of_put by exact L.
  destruct (Nat.eqb_spec j h) as [->|]; [rewrite E|]; reflexivity.
Qed.
Lemma relocked_live b b' k : relocked b b' k -> forall j, live b' j <-> live b j.
Proof.
  intros R j. pose proof (relocked_fd b b' k j R) as F. unfold live. destruct (fd_of b j) as [x|].
  - destruct F as [o ->]. split; intros _; eexists; reflexivity.
  - rewrite F. split; intros [? ?]; discriminate.
Qed.

Lemma tidy_add s b x k : tidy s -> k = length (b_fds (s_back s)) -> sf_fd x = k ->
  (forall j, live b j <-> live (s_back s) j \/ j = k) -> tidy (SState b (s_handles s ++ [Some (HFile x)])).
Proof.
  intros (T1 & T2 & T3) Hk Hx L.
  assert (forall h j, owns (SState b (s_handles s ++ [Some (HFile x)])) h j <-> owns s h j \/ (h = length (s_handles s) /\ j = k)) as O.
  { intros h j. rewrite !owns_part, handle_of_add. destruct (Nat.eqb_spec h (length (s_handles s))) as [->|N].
    - cbn. assert (handle_of s (length (s_handles s)) = None) as ->.
      { unfold handle_of. rewrite (proj2 (nth_error_None _ _)) by lia. reflexivity. }
      cbn. split; [intros E; right; split; congruence|intros [E|[_ ->]]; congruence].
    - split; [auto|intros [E|[E _]]; congruence]. }
  assert (forall h, ~ owns s h k) as Fresh.
  { intros h Ho. destruct (T1 h k Ho) as [y Hy]. apply fd_of_lt in Hy as (_ & _ & Hl). lia. }
  split; [|split].
  - intros h j H. apply O in H as [H|[_ ->]]; apply L; [left; exact (T1 h j H)|right; reflexivity].
  - intros j y Hy. cbn in Hy. assert (live b j) as Lj by (exists y; exact Hy). apply L in Lj as [[z Hz]| ->].
    + destruct (T2 j z Hz) as [h Hh]. exists h. apply O. left. exact Hh.
    + exists (length (s_handles s)). apply O. right. auto.
  - intros h h' j H H'. apply O in H as [H|[-> ->]]; apply O in H' as [H'|[E1 E2]].
    + exact (T3 h h' j H H').
    + subst j. exfalso. exact (Fresh h H).
    + exfalso. exact (Fresh h' H').
    + congruence.
Qed.
Lemma tidy_close s b h x : tidy s -> handle_of s h = Some (HFile x) ->
  (forall j, live b j <-> live (s_back s) j /\ j <> sf_fd x) -> tidy (set_handle s b h None).
Proof.
  intros (T1 & T2 & T3) Hh L. pose proof (handle_of_lt _ _ _ Hh) as [_ Hl].
  assert (owns s h (sf_fd x)) as Hx by (exists x; auto).
  assert (forall j k, owns (set_handle s b h None) j k <-> owns s j k /\ j <> h) as O.
  { intros j k. rewrite !owns_part, handle_of_put by exact Hl. destruct (Nat.eqb_spec j h) as [->|]; cbn; [split; [discriminate|intros [_ X]; congruence]|tauto]. }
  split; [|split].
  - intros j k H. apply O in H as [H N]. apply L. split; [exact (T1 j k H)|]. intros ->. apply N. exact (T3 j h (sf_fd x) H Hx).
  - intros k y Hy. cbn in Hy. assert (live b k) as Lk by (exists y; exact Hy). apply L in Lk as [[z Hz] N].
    destruct (T2 k z Hz) as [j Hj]. exists j. apply O. split; [exact Hj|]. intros ->.
    apply N. apply owns_part in Hj, Hx. congruence.
  - intros j j' k H H'. apply O in H as [H _]. apply O in H' as [H' _]. exact (T3 j j' k H H').
Qed.

Lemma openfile_is v b p wr cr ex f : match b_openfile v b p wr cr ex f with
  | (b', inl k) => k = length (b_fds b) /\ exists n, b_fds b' = b_fds b ++ [Fd n wr true ONone]
  | (b', inr _) => b' = b
  end.
Proof.
  unfold b_openfile. destruct f; [reflexivity|]. destruct (walk _ _ _) as [n| |]; [|destruct (cr && dir_there _ _); [|reflexivity]|reflexivity].
  - destruct (cr && ex); [reflexivity|]. destruct n; [destruct (wr || cr); [reflexivity|]|]; split; try reflexivity; eexists; reflexivity.
  - split; [reflexivity|]. eexists. reflexivity.
Qed.
Lemma opened_live b b' n w : b_fds b' = b_fds b ++ [Fd n w true ONone] ->
  forall j, live b' j <-> live b j \/ j = length (b_fds b).
Proof.
  intros E j. assert (fd_of b' j = fd_of (Backend [] [] (b_fds b ++ [Fd n w true ONone])) j) as X by (unfold fd_of; rewrite E; reflexivity).
  unfold live. rewrite X, fd_of_add. destruct (Nat.eqb_spec j (length (b_fds b))) as [->|N].
  - cbn. split; [auto|intros _; eexists; reflexivity].
  - split; [auto|]. intros [H|H]; [exact H|contradiction].
Qed.
Lemma closed_live b b1 k y : relocked b b1 k -> fd_of b k = Some y -> forall b2,
  b_fds b2 = b_fds (set_fd b1 k (Fd (fd_node y) (fd_write y) false ONone)) -> forall j, live b2 j <-> live b j /\ j <> k.
Proof.
  intros R Hy b2 E j. rewrite (live_fds _ _ E). pose proof (relocked_fd b b1 k k R) as F. rewrite Hy in F. destruct F as [o F].
  apply fd_of_lt in F as (_ & _ & L). unfold live at 1. rewrite fd_of_set by exact L. rewrite <- (relocked_live b b1 k R).
  destruct (Nat.eqb_spec j k) as [->|N]; cbn.
  - split; [intros [? ?]; discriminate|intros [_ X]; congruence].
  - unfold live. tauto.
Qed.

Lemma tidy_step v s c : tidy s -> tidy (fst (sstep v s c)).
Proof.
  intros T. destruct c; cbn [sstep].
  - unfold s_open. destruct name as [|c0 name].
    + cbn [fst]. apply (tidy_same s); [exact T|]. split; [|intros; reflexivity]. intros j k. rewrite !owns_part, handle_of_add.
      destruct (Nat.eqb_spec j (length (s_handles s))) as [->|]; [|reflexivity].
      unfold handle_of. rewrite (proj2 (nth_error_None _ _)) by lia. reflexivity.
    + pose proof (openfile_is v (s_back s) (clean_path (c0 :: name)) (o_readwrite fl) (o_create fl) (o_exclusive fl) f) as O.
      destruct (b_openfile _ _ _ _ _ _ _) as [b' [k|e]]; cbn [fst].
      * destruct O as [-> [n E]]. eapply tidy_add; [exact T|reflexivity|reflexivity|]. apply (opened_live _ _ _ _ E).
      * subst b'. destruct s; exact T.
  - unfold s_delete. pose proof (remove_fds v (s_back s) (clean_path name) f) as E.
    destruct (b_remove _ _ _ _) as [b' e]. cbn [fst] in *. apply (tidy_same s); [exact T|]. apply same_shape_fds. exact E.
  - exact T.
  - destruct (handle_of s h) as [[d|x]|]; [destruct (read_at _ _ _ _)| |]; exact T.
  - destruct (handle_of s h) as [[d|x]|] eqn:Hh; [| |exact T]; cbn [fst].
    + apply (tidy_same s); [exact T|]. apply same_shape_put; [apply (handle_of_lt _ _ _ Hh)|rewrite Hh; reflexivity|intros; reflexivity].
    + pose proof (write_fds v (s_back s) (sf_fd x) off bs f) as E. destruct (b_write _ _ _ _ _ _) as [b' e]. cbn [fst] in *.
      apply (tidy_same s); [exact T|]. apply same_shape_fds. exact E.
  - destruct (handle_of s h) as [[d|x]|] eqn:Hh; [| |exact T]; cbn [fst].
    + apply (tidy_same s); [exact T|]. apply same_shape_put; [apply (handle_of_lt _ _ _ Hh)|rewrite Hh; reflexivity|intros; reflexivity].
    + pose proof (truncate_fds v (s_back s) (sf_fd x) n f) as E. destruct (b_truncate _ _ _ _ _) as [b' e]. cbn [fst] in *.
      apply (tidy_same s); [exact T|]. apply same_shape_fds. exact E.
  - destruct (handle_of s h) as [[d|x]|]; exact T.
  - destruct (handle_of s h) as [[d|x]|]; exact T.
  - destruct (handle_of s h) as [[d|x]|] eqn:Hh; [exact T| |exact T].
    pose proof (f_lock_is v (s_back s) x l f) as U. destruct (f_lock _ _ _ _ _) as [[b' x'] e]. destruct U as (R & Ex & _). cbn [fst].
    apply (tidy_same s); [exact T|]. apply same_shape_put; [apply (handle_of_lt _ _ _ Hh)| |apply (relocked_live _ _ _ R)].
    rewrite Hh, Ex. reflexivity.
  - destruct (handle_of s h) as [[d|x]|] eqn:Hh; [exact T| |exact T].
    pose proof (f_unlock_is v (s_back s) x l f) as U. destruct (f_unlock _ _ _ _ _) as [[b' x'] e]. destruct U as (R & Ex & _). cbn [fst].
    apply (tidy_same s); [exact T|]. apply same_shape_put; [apply (handle_of_lt _ _ _ Hh)| |apply (relocked_live _ _ _ R)].
    rewrite Hh, Ex. reflexivity.
  - destruct (handle_of s h) as [[d|x]|]; exact T.
  - destruct (handle_of s h) as [[d|x]|]; exact T.
  - destruct (handle_of s h) as [[d|x]|] eqn:Hh; [| |exact T]; cbn [fst].
    + apply (tidy_same s); [exact T|]. apply same_shape_put; [apply (handle_of_lt _ _ _ Hh)|rewrite Hh; reflexivity|intros; reflexivity].
    + assert (owns s h (sf_fd x)) as Ho by (exists x; auto). destruct (proj1 T h (sf_fd x) Ho) as [y Hy].
      destruct (f_close_is v (s_back s) x fu fc fr y Hy) as (b1 & R & E & _).
      destruct (f_close v (s_back s) x fu fc fr) as [b' e]. cbn [fst] in *. apply (tidy_close s b' h x T Hh).
      apply (closed_live _ b1 _ y R Hy). subst b'. destruct (o_delete (sf_flags x)); [apply remove_fds|reflexivity].
Qed.

Lemma srun_cons v s c cs : srun v s (c :: cs) =
  (fst (srun v (fst (sstep v s c)) cs), snd (sstep v s c) :: snd (srun v (fst (sstep v s c)) cs)).
Proof. cbn [srun]. destruct (sstep v s c) as [s' a]. cbn [fst snd]. destruct (srun v s' cs); reflexivity. Qed.
Lemma prun_cons v p c cs : prun v p (c :: cs) =
  (fst (prun v (fst (pstep v p c)) cs), snd (pstep v p c) :: snd (prun v (fst (pstep v p c)) cs)).
Proof. cbn [prun]. destruct (pstep v p c) as [p' a]. cbn [fst snd]. destruct (prun v p' cs); reflexivity. Qed.

Lemma tidy_init b : b_fds b = [] -> tidy (sinit b).
Proof.
  intros E. assert (forall h, handle_of (sinit b) h = None) as N by (intros [|h]; reflexivity).
  split; [|split].
  - intros h k (x & H & _). rewrite N in H. discriminate.
  - intros k x H. unfold fd_of in H. cbn in H. rewrite E in H. destruct k; discriminate.
  - intros h h' k (x & H & _). rewrite N in H. discriminate.
Qed.
Lemma tidy_run v cs : forall s, tidy s -> tidy (fst (srun v s cs)).
Proof. induction cs as [|c cs IH]; intros s T; [exact T|]. rewrite srun_cons. cbn [fst]. apply IH, tidy_step, T. Qed.

(* ---- locks of closed descriptors ---- *)

Lemma lets_go_fds s b hs : lets_go s -> b_fds b = b_fds (s_back s) -> lets_go (SState b hs).
Proof. intros G E k x. cbn. rewrite E. apply G. Qed.
Lemma lets_go_put (l : list fdesc) k z : (fd_open z = false -> fd_lock z = ONone) ->
  (forall j x, nth_error l j = Some x -> fd_open x = false -> fd_lock x = ONone) ->
  forall j x, nth_error (put_nth l k z) j = Some x -> fd_open x = false -> fd_lock x = ONone.
Proof.
  intros Z G j x H. destruct (Nat.eq_dec k j) as [->|N].
  - destruct (nth_error l j) as [y|] eqn:E.
    + rewrite (nth_put_same _ _ _ _ E) in H. apply some_inj in H. subst x. exact Z.
    + rewrite put_over in H by (apply nth_error_None; exact E). congruence.
  - rewrite nth_put_other in H by exact N. exact (G j x H).
Qed.
Lemma lets_go_relocked b b' k : relocked b b' k ->
  (forall j x, nth_error (b_fds b) j = Some x -> fd_open x = false -> fd_lock x = ONone) ->
  forall j x, nth_error (b_fds b') j = Some x -> fd_open x = false -> fd_lock x = ONone.
Proof.
  intros (_ & _ & [E|(y & o & _ & E)]) G; rewrite E; [exact G|]. apply lets_go_put; [discriminate|exact G].
Qed.
Lemma lets_go_step v s c : tidy s -> lets_go s -> lets_go (fst (sstep v s c)).
Proof.
  intros T G. destruct c; cbn [sstep].
  - unfold s_open. destruct name as [|c0 name]; [exact G|].
    pose proof (openfile_is v (s_back s) (clean_path (c0 :: name)) (o_readwrite fl) (o_create fl) (o_exclusive fl) f) as O.
    destruct (b_openfile _ _ _ _ _ _ _) as [b' [k|e]]; cbn [fst].
    + destruct O as [-> [n E]]. intros j x. cbn. rewrite E. intros H Hx.
      destruct (Nat.lt_ge_cases j (length (b_fds (s_back s)))).
      * rewrite nth_error_app1 in H by assumption. exact (G j x H Hx).
      * rewrite nth_error_app2 in H by assumption. destruct (j - _) as [|m]; [apply some_inj in H; subst x; discriminate|destruct m; discriminate].
    + subst b'. exact G.
  - unfold s_delete. pose proof (remove_fds v (s_back s) (clean_path name) f) as E.
    destruct (b_remove _ _ _ _) as [b' e]. cbn [fst] in *. exact (lets_go_fds s b' _ G E).
  - exact G.
  - destruct (handle_of s h) as [[d|x]|]; [destruct (read_at _ _ _ _)| |]; exact G.
  - destruct (handle_of s h) as [[d|x]|]; [exact G| |exact G].
    pose proof (write_fds v (s_back s) (sf_fd x) off bs f) as E. destruct (b_write _ _ _ _ _ _) as [b' e]. exact (lets_go_fds s b' _ G E).
  - destruct (handle_of s h) as [[d|x]|]; [exact G| |exact G].
    pose proof (truncate_fds v (s_back s) (sf_fd x) n f) as E. destruct (b_truncate _ _ _ _ _) as [b' e]. exact (lets_go_fds s b' _ G E).
  - destruct (handle_of s h) as [[d|x]|]; exact G.
  - destruct (handle_of s h) as [[d|x]|]; exact G.
  - destruct (handle_of s h) as [[d|x]|]; [exact G| |exact G].
    pose proof (f_lock_is v (s_back s) x l f) as U. destruct (f_lock _ _ _ _ _) as [[b' x'] e]. destruct U as (R & _). exact (lets_go_relocked _ _ _ R G).
  - destruct (handle_of s h) as [[d|x]|]; [exact G| |exact G].
    pose proof (f_unlock_is v (s_back s) x l f) as U. destruct (f_unlock _ _ _ _ _) as [[b' x'] e]. destruct U as (R & _). exact (lets_go_relocked _ _ _ R G).
  - destruct (handle_of s h) as [[d|x]|]; exact G.
  - destruct (handle_of s h) as [[d|x]|]; exact G.
  - destruct (handle_of s h) as [[d|x]|] eqn:Hh; [exact G| |exact G].
    assert (owns s h (sf_fd x)) as Ho by (exists x; auto). destruct (proj1 T h (sf_fd x) Ho) as [y Hy].
    destruct (f_close_is v (s_back s) x fu fc fr y Hy) as (b1 & R & E & _).
    destruct (f_close v (s_back s) x fu fc fr) as [b' e]. cbn [fst] in *.
    assert (b_fds b' = put_nth (b_fds b1) (sf_fd x) (Fd (fd_node y) (fd_write y) false ONone)) as Ef
      by (subst b'; destruct (o_delete (sf_flags x)); [apply remove_fds|reflexivity]).
    intros j z. cbn. rewrite Ef. apply lets_go_put; [reflexivity|]. exact (lets_go_relocked _ _ _ R G).
Qed.
Lemma tidy_lets_go v b cs : b_fds b = [] -> tidy (fst (srun v (sinit b) cs)) /\ lets_go (fst (srun v (sinit b) cs)).
Proof.
  intros E. assert (lets_go (sinit b)) as G by (intros [|k] x H; cbn in H; rewrite E in H; discriminate).
  pose proof (tidy_init b E) as T. generalize dependent (sinit b). clear E. induction cs as [|c cs IH]; intros s G T; [auto|].
  rewrite srun_cons. cbn [fst]. apply IH; [apply lets_go_step; assumption|apply tidy_step; exact T].
Qed.

(* ---- calls on memory ---- *)

Lemma private_back v s c : private_call s c -> s_back (fst (sstep v s c)) = s_back s.
Proof.
  intros H. destruct c; cbn [private_call sstep] in *; try contradiction; [subst name; reflexivity|..];
    destruct H as [d Hd]; rewrite Hd; try reflexivity.
  destruct (read_at _ _ _ _). reflexivity.
Qed.

(* ---- refinement ---- *)

Definition hrel (b : backend) (next : nat) (a : option handle) (z : option shandle) : Prop :=
  match a, z with
  | None, None => True
  | Some (HMem d), Some x => exists c, sh_what x = WMem c /\ shows d c /\ sh_write x = true
  | Some (HFile f), Some x =>
      exists i y, sh_what x = WFile i /\ i < next /\ fd_of b (sf_fd f) = Some y /\ fd_node y = NFile i /\ fd_write y = sh_write x /\
        sh_write x = o_readwrite (sf_flags f) /\ sh_ro x = o_readonly (sf_flags f) /\ sh_delete x = o_delete (sf_flags f) /\
        sh_name x = comps (sf_name f) /\ sh_level x = sf_level f
  | _, _ => False
  end.
Definition rel (s : sstate) (p : plain) : Prop :=
  holds (s_back s) p /\ Forall2 (hrel (s_back s) (p_next p)) (s_handles s) (p_handles p).

Lemma rel_handle s p h : rel s p -> hrel (s_back s) (p_next p) (handle_of s h) (p_handle p h).
Proof.
  intros [_ F]. pose proof (F2_get _ _ _ F h) as G. unfold handle_of, p_handle.
  destruct (nth_error (s_handles s) h) as [a|], (nth_error (p_handles p) h) as [z|]; try contradiction; [|exact I].
  destruct a as [[d|f]|], z as [x|]; exact G.
Qed.

Lemma hrel_back b b' n n' a z : n <= n' ->
  (forall k y, fd_part a = Some k -> fd_of b k = Some y -> exists o, fd_of b' k = Some (Fd (fd_node y) (fd_write y) true o)) ->
  hrel b n a z -> hrel b' n' a z.
Proof.
  intros Ln H. destruct a as [[d|f]|], z as [x|]; cbn; try tauto.
  intros (i & y & H1 & H2 & H3 & H4 & H5 & R). destruct (H (sf_fd f) y eq_refl H3) as [o Ho].
  exists i. eexists. split; [exact H1|]. split; [lia|]. split; [exact Ho|]. cbn. split; [exact H4|]. split; [exact H5|exact R].
Qed.
Lemma fd_self b k y : fd_of b k = Some y -> exists o, fd_of b k = Some (Fd (fd_node y) (fd_write y) true o).
Proof. intros H. exists (fd_lock y). pose proof (fd_of_lt _ _ _ H) as (_ & O & _). destruct y; cbn in *. subst. exact H. Qed.
Lemma fd_same b b' k y : b_fds b' = b_fds b -> fd_of b k = Some y -> exists o, fd_of b' k = Some (Fd (fd_node y) (fd_write y) true o).
Proof. intros E H. destruct (fd_self b k y H) as [o Ho]. exists o. rewrite <- Ho. unfold fd_of. rewrite E. reflexivity. Qed.

Lemma rel_names s p b p' : rel s p -> b_fds b = b_fds (s_back s) -> holds b p' -> p_next p <= p_next p' -> p_handles p' = p_handles p ->
  rel (SState b (s_handles s)) p'.
Proof.
  intros [H F] E H' L Eh. split; [exact H'|]. rewrite Eh. apply (F2_imp _ _ _ _ F). intros j a z _ _. apply hrel_back; [exact L|].
  intros k y _. apply fd_same. exact E.
Qed.

Lemma p_handle_lt p h x : p_handle p h = Some x -> h < length (p_handles p).
Proof. unfold p_handle. destruct (nth_error (p_handles p) h) eqn:E; [|discriminate]. intros _. apply nth_error_Some. congruence. Qed.

Lemma holds_put b p h x : holds b (put_h p h x) <-> holds b p.
Proof. reflexivity. Qed.

Lemma rel_put s p b h a x x0 : rel s p -> h < length (s_handles s) -> p_handle p h = Some x0 ->
  holds b p ->
  (forall j k y, j <> h -> fd_part (handle_of s j) = Some k -> fd_of (s_back s) k = Some y -> exists o, fd_of b k = Some (Fd (fd_node y) (fd_write y) true o)) ->
  hrel b (p_next p) a x -> rel (set_handle s b h a) (put_h p h x).
Proof.
  intros [H F] L E Hb Hf Hx. split; [exact Hb|]. cbn [s_back s_handles set_handle p_handles put_h p_next]. rewrite <- put_split by (apply (p_handle_lt _ _ _ E)).
  apply (F2_put _ _ h a x _ _ F); [|exact Hx]. intros j a' z Hj E1 _. apply hrel_back; [lia|].
  intros k y Ha. apply Hf with (j := j); [exact Hj|]. unfold handle_of. rewrite E1. destruct a'; exact Ha.
Qed.

Lemma holds_entry b p q : holds b p -> entry b q = p_node p q.
Proof. intros H. apply H. Qed.
Lemma holds_walk b p pre q : holds b p -> walk (entry b) pre q = walk (p_node p) pre q.
Proof. intros H. apply walk_ext. apply H. Qed.
Lemma holds_dir b p q : holds b p -> dir_there (entry b) q = dir_there (p_node p) q.
Proof. intros H. unfold dir_there. rewrite (holds_walk b p [] _ H). reflexivity. Qed.
Lemma holds_root b p : holds b p -> p_node p [] = Some NDir.
Proof. intros H. rewrite <- (holds_entry _ _ _ H). reflexivity. Qed.

Lemma holds_create b p q : holds b p -> q <> [] ->
  forall fds, holds (Backend ((q, NFile (length (b_data b))) :: b_names b) (b_data b ++ [[]]) fds) (new_file_at p q).
Proof.
  intros (H1 & H2 & H3 & H4) Hq fds. split; [|split; [|split]]; cbn [p_node p_file p_next new_file_at].
  - intros r. rewrite same_as. unfold entry at 1. cbn [b_names assoc]. destruct r as [|c r].
    + destruct (path_eqb q []) eqn:E; [apply path_eqb_eq in E; congruence|]. rewrite <- H1. reflexivity.
    + destruct (path_eqb q (c :: r)); [rewrite H2; reflexivity|]. rewrite <- H1. reflexivity.
  - cbn. rewrite app_length. cbn. lia.
  - intros i Hi. unfold data_of. cbn [b_data]. destruct (Nat.eqb_spec i (p_next p)) as [->|N].
    + rewrite app_nth2 by lia. rewrite H2, Nat.sub_diag. exact shows_empty.
    + rewrite app_nth1 by lia. apply H3. lia.
  - intros r i. destruct (same_path r q); [intros X; injection X as <-; lia|]. intros X. apply H4 in X. lia.
Qed.
Lemma holds_remove b p q : holds b p -> q <> [] ->
  forall fds, holds (Backend (drop (b_names b) q) (b_data b) fds) (set_node p q None).
Proof.
  intros (H1 & H2 & H3 & H4) Hq fds. split; [|split; [|split]]; cbn [p_node p_file p_next set_node].
  - intros r. rewrite same_as. unfold entry at 1. cbn [b_names]. rewrite assoc_drop. destruct r as [|c r].
    + destruct (path_eqb q []) eqn:E; [apply path_eqb_eq in E; congruence|]. rewrite <- H1. reflexivity.
    + destruct (path_eqb q (c :: r)); [reflexivity|]. rewrite <- H1. reflexivity.
  - exact H2.
  - exact H3.
  - intros r i. destruct (same_path r q); [discriminate|]. apply H4.
Qed.
Lemma holds_fds b p fds : holds b p -> holds (Backend (b_names b) (b_data b) fds) p.
Proof. intros H. exact H. Qed.
Lemma holds_data b p i d c : holds b p -> i < p_next p -> shows d c -> holds (set_data b i d) (set_file p i c).
Proof.
  intros (H1 & H2 & H3 & H4) Hi S. split; [|split; [|split]]; cbn [p_node p_file p_next set_file].
  - exact H1.
  - cbn. rewrite put_length. exact H2.
  - intros j Hj. unfold data_of. cbn [b_data set_data]. destruct (Nat.eqb_spec j i) as [->|N].
    + rewrite put_split by lia. rewrite app_nth2 by (rewrite firstn_length; lia). rewrite firstn_length.
      replace (i - Nat.min i (length (b_data b))) with 0 by lia. exact S.
    + assert (nth j (put_nth (b_data b) i d) [] = nth j (b_data b) []) as ->; [|apply H3; exact Hj].
      pose proof (nth_put_other (b_data b) i j d (not_eq_sym N)) as E.
      destruct (nth_error (b_data b) j) as [x|] eqn:Ex.
      * rewrite (nth_error_nth _ _ [] E), (nth_error_nth _ _ [] Ex). reflexivity.
      * rewrite !nth_overflow; [reflexivity| |]; apply nth_error_None; assumption.
  - exact H4.
Qed.

Lemma hard_code v n c : code_or (wrap v (EHard n)) c = c.
Proof. apply wrap_code. reflexivity. Qed.
Lemma noent_code v c : code_or (wrap v ENoent) c = c.
Proof. apply wrap_code. reflexivity. Qed.

(* Reading bytes that show a content. *)
Lemma read_told v d c off n : shows d c ->
  (let '(r, e) := read_at v d off n in
   if length r =? n then TPage r
   else match (match e with Some e => Some (if is_eof e then EEof else e) | None => None end) with
        | Some EEof => TShort (r ++ repeat 0%N (n - length r))
        | Some e => TFail (code_or e IoRead)
        | None => TFail IoRead
        end) =
  (if (n =? 0) || (off + n <=? c_len c) then TPage (page c off n) else TShort (page c off n)).
Proof.
  intros S. pose proof (read_page d c off n S) as P. pose proof (read_length d off n) as L. pose proof (proj1 S) as Ld.
  unfold read_at. set (r := bytes_read d off n) in *.
  assert ((n =? 0) || (off + n <=? c_len c) = (length r =? n)) as ->.
  { destruct (Nat.eqb_spec (length r) n) as [E|E], (Nat.eqb_spec n 0), (Nat.leb_spec (off + n) (c_len c)); cbn; try reflexivity; lia. }
  destruct (Nat.eqb_spec (length r) n) as [E|E].
  - rewrite E, Nat.sub_diag in P. cbn in P. rewrite app_nil_r in P.
    destruct ((length r <? n) || _); rewrite E, Nat.eqb_refl, P; reflexivity.
  - assert (length r < n) as Lt by lia. destruct (Nat.ltb_spec (length r) n); [|lia]. cbn [orb].
    destruct (Nat.eqb_spec (length r) n); [contradiction|].
    rewrite wrap_eof. cbn [is_eof]. rewrite P. reflexivity.
Qed.

Definition agrees (v : env) (s : sstate) (p : plain) (c : call) : Prop :=
  told c (snd (sstep v s c)) = snd (pstep v p c) /\ rel (fst (sstep v s c)) (fst (pstep v p c)).

Lemma rel_len s p : rel s p -> length (s_handles s) = length (p_handles p).
Proof. intros [_ F]. exact (F2_len _ _ _ F). Qed.
Lemma add_forall {A B} (R : A -> B -> Prop) l m a b : Forall2 R l m -> R a b -> Forall2 R (l ++ [a]) (m ++ [b]).
Proof. intros F H. apply Forall2_app; [exact F|]. constructor; [exact H|constructor]. Qed.

Lemma canon_root p name : p_node p [] = Some NDir -> walk (p_node p) [] (canon name) <> There NDir -> canon name <> [].
Proof. intros H N E. rewrite E in N. cbn in N. rewrite H in N. congruence. Qed.

Lemma agrees_open v s p name fl f : rel s p -> fits p (KOpen name fl f) -> agrees v s p (KOpen name fl f).
Proof.
  intros R Fit. pose proof R as [H F]. pose proof (rel_len s p R) as L. unfold agrees. cbn [sstep pstep]. unfold s_open.
  destruct name as [|c0 name].
  { cbn [told snd fst]. rewrite L. split; [reflexivity|]. split; [exact H|]. apply add_forall; [exact F|].
    cbn. eexists. split; [reflexivity|]. split; [exact shows_empty|reflexivity]. }
  set (nm := c0 :: name) in *. cbn [fits] in Fit. assert (not_dir p nm) as ND by (apply Fit; discriminate). unfold not_dir in ND.
  pose proof (comps_clean nm) as C.
  assert (canon nm <> []) as Hne by exact (canon_root p nm (holds_root _ _ H) ND).
  unfold b_openfile. rewrite C, (holds_walk _ _ _ _ H), (holds_dir _ _ _ H).
  destruct f as [n|].
  { cbn [told snd fst code_or]. split; [reflexivity|]. destruct s; exact R. }
  assert (forall b p' i w, b_fds b = b_fds (s_back s) ++ [Fd (NFile i) w true ONone] -> w = o_readwrite fl -> holds b p' -> i < p_next p' -> p_next p <= p_next p' ->
    p_handles p' = p_handles p ->
    rel (SState b (s_handles s ++ [Some (HFile (SFile (length (b_fds (s_back s))) (clean_path nm) fl l_none))]))
        (add_h p' (SHandle (WFile i) (o_readwrite fl) (o_readonly fl) (o_delete fl) (canon nm) 0))) as Add.
  { intros b p' i w Eb -> Hb Hi Hn Eh. split; [exact Hb|]. cbn [s_handles p_handles add_h s_back p_next]. rewrite Eh.
    assert (forall k, fd_of b k = if k =? length (b_fds (s_back s)) then Some (Fd (NFile i) (o_readwrite fl) true ONone) else fd_of (s_back s) k) as Fk.
    { intros k. etransitivity; [|exact (fd_of_add [] [] (s_back s) (Fd (NFile i) (o_readwrite fl) true ONone) k)]. unfold fd_of. rewrite Eb. reflexivity. }
    apply add_forall.
    - apply (F2_imp _ _ _ _ F). intros j a z _ _. apply hrel_back; [exact Hn|]. intros k y _ Hy.
      pose proof (fd_of_lt _ _ _ Hy) as (_ & _ & Hl). rewrite Fk. destruct (Nat.eqb_spec k (length (b_fds (s_back s)))); [lia|]. apply fd_self. exact Hy.
    - cbn. exists i. eexists. split; [reflexivity|]. split; [exact Hi|]. split; [rewrite Fk, Nat.eqb_refl; reflexivity|].
      cbn. repeat (split; [reflexivity|]). split; [symmetry; exact C|reflexivity]. }
  destruct (walk (p_node p) [] (canon nm)) as [[|i]| |] eqn:W.
  - congruence.
  - destruct (o_create fl && o_exclusive fl).
    + cbn [told snd fst code_or]. split; [reflexivity|]. destruct s; exact R.
    + cbn [told snd fst]. rewrite L. split; [reflexivity|]. apply Add with (w := o_readwrite fl); auto.
      * apply H with (q := canon nm). apply walk_there in W. exact W.
  - destruct (o_create fl && dir_there (p_node p) (canon nm)).
    + cbn [told snd fst]. rewrite L. split; [reflexivity|].
      assert (length (b_data (s_back s)) = p_next p) as Ed by apply H.
      apply Add with (w := o_readwrite fl); try reflexivity.
      * cbn. rewrite Ed. reflexivity.
      * apply holds_create; [exact H|exact Hne].
      * cbn. lia.
      * cbn. lia.
    + cbn [told snd fst code_or]. split; [reflexivity|]. destruct s; exact R.
  - cbn [told snd fst code_or]. split; [reflexivity|]. destruct s; exact R.
Qed.

Lemma remove_told v b p q name f : holds b p -> comps name = q -> q <> [] -> walk (p_node p) [] q <> There NDir ->
  match f, walk (p_node p) [] q with
  | None, There (NFile _) => snd (b_remove v b name f) = None /\ holds (fst (b_remove v b name f)) (set_node p q None)
  | None, Missing => snd (b_remove v b name f) = Some (wrap v ENoent) /\ fst (b_remove v b name f) = b
  | Some n, _ => snd (b_remove v b name f) = Some (wrap v (EHard n)) /\ fst (b_remove v b name f) = b
  | None, _ => snd (b_remove v b name f) = Some (wrap v e_notdir) /\ fst (b_remove v b name f) = b
  end.
Proof.
  intros H C Hne ND. unfold b_remove. rewrite C, (holds_walk _ _ _ _ H).
  destruct f; [auto|]. destruct (walk (p_node p) [] q) as [[|i]| |]; try (split; reflexivity); [congruence|].
  cbn. split; [reflexivity|]. apply holds_remove; assumption.
Qed.

Lemma agrees_delete v s p name f : rel s p -> fits p (KDelete name f) -> agrees v s p (KDelete name f).
Proof.
  intros R ND. pose proof R as [H F]. unfold agrees. cbn [sstep pstep fits] in *. unfold not_dir in ND. unfold s_delete.
  pose proof (remove_told v (s_back s) p (canon name) (clean_path name) f H (comps_clean name) (canon_root p name (holds_root _ _ H) ND) ND) as X.
  pose proof (remove_fds v (s_back s) (clean_path name) f) as E.
  destruct (b_remove v (s_back s) (clean_path name) f) as [b e]. cbn [fst snd] in *.
  destruct f as [n|]; [destruct X as [-> ->]|destruct (walk (p_node p) [] (canon name)) as [[|i]| |]; destruct X as [-> X]; try subst b];
    cbn [told ok_or fst snd]; rewrite ?wrap_noent; cbn [is_noent e_notdir code_or]; rewrite ?hard_code.
  - split; [reflexivity|]. destruct s; exact R.
  - congruence.
  - split; [reflexivity|]. apply (rel_names s p); auto.
  - split; [reflexivity|]. destruct s; exact R.
  - unfold e_notdir. rewrite hard_code. split; [reflexivity|]. destruct s; exact R.
Qed.

Lemma agrees_access v s p name f : rel s p -> agrees v s p (KAccess name f).
Proof.
  intros R. pose proof R as [H F]. unfold agrees. cbn [sstep pstep fst snd]. split; [|exact R].
  unfold s_access, b_stat. rewrite comps_clean, (holds_walk _ _ _ _ H).
  destruct f as [n|]; [|destruct (walk (p_node p) [] (canon name)) as [k| |]]; rewrite ?wrap_noent; cbn [is_noent told e_notdir]; try reflexivity;
    unfold e_notdir; rewrite ?wrap_noent; cbn [is_noent told]; rewrite hard_code; reflexivity.
Qed.

Ltac use_handle h R :=
  let G := fresh "G" in
  pose proof (rel_handle _ _ h R) as G;
  match type of G with hrel ?b ?n ?a ?z =>
    let Ea := fresh "Ea" in let Ez := fresh "Ez" in
    destruct a as [[d|x]|] eqn:Ea; destruct z as [y|] eqn:Ez; cbn [hrel] in G; try contradiction;
    [destruct G as (c & Gw & Gs & Gwr)|destruct G as (i & fd & Gw & Gi & Gf & Gn & Gfw & Gwr & Gro & Gd & Gnm & Gl)|] end.

Lemma holds_shows b p i : holds b p -> i < p_next p -> shows (data_of b i) (p_file p i).
Proof. intros (_ & _ & H & _). apply H. Qed.

Lemma agrees_read v s p h off n f : rel s p -> agrees v s p (KRead h off n f).
Proof.
  intros R. pose proof R as [H F]. unfold agrees. cbn [sstep pstep]. use_handle h R.
  - unfold in_memory, bytes_of. rewrite Gw. cbn [negb andb hits].
    pose proof (read_told (Env 0 false false) d c off n Gs) as P. unfold read_at in *. cbn [e_eof andb orb] in *. rewrite orb_false_r in *.
    destruct (length (bytes_read d off n) <? n); cbn [fst snd told] in *; (split; [|exact R]); exact P.
  - unfold in_memory, bytes_of. rewrite Gw. cbn [negb andb fst snd]. split; [|exact R].
    unfold f_read, b_read. rewrite Gf, Gn. pose proof (holds_shows _ _ _ H Gi) as S.
    destruct (Nat.ltb_spec 0 n) as [Ln|Ln]; cbn [hits].
    + destruct f as [[j e]|].
      * rewrite wrap_eof. cbn [is_eof told]. rewrite firstn_length.
        destruct (Nat.eqb_spec (Nat.min (Nat.min j (n - 1)) (length (bytes_read (data_of (s_back s) i) off n))) n) as [X|X]; [lia|].
        pose proof (wrap_hard v e) as Nh. pose proof (hard_code v e IoRead) as Hc. destruct (wrap v (EHard e)); try rewrite Hc; congruence || reflexivity.
      * pose proof (read_told v _ _ off n S) as P. destruct (read_at v (data_of (s_back s) i) off n) as [r e]. destruct e; cbn [told] in *; exact P.
    + assert (n = 0) as -> by lia.
      assert (forall d e, length d = 0 -> told (KRead h off 0 f) (ARead d e) = TPage []) as X by (intros [|? ?] e Hd; [reflexivity|discriminate]).
      destruct f as [[j e]|].
      * cbn [Nat.eqb orb]. apply X. rewrite firstn_length, read_length. lia.
      * unfold read_at. cbn [Nat.eqb orb negb andb Nat.ltb Nat.leb]. rewrite andb_false_r. cbn [andb]. apply X. rewrite read_length. lia.
  - cbn. auto.
Qed.

Lemma store_mem p h x c c' : sh_what x = WMem c -> store p h x c' = put_h p h (Some (SHandle (WMem c') (sh_write x) (sh_ro x) (sh_delete x) (sh_name x) (sh_level x))).
Proof. intros E. unfold store. rewrite E. reflexivity. Qed.
Lemma store_file p h x i c : sh_what x = WFile i -> store p h x c = set_file p i c.
Proof. intros E. unfold store. rewrite E. reflexivity. Qed.
Lemma rel_store_mem s p h x c d' c' : rel s p -> h < length (s_handles s) -> p_handle p h = Some x -> sh_what x = WMem c -> sh_write x = true ->
  shows d' c' -> rel (set_handle s (s_back s) h (Some (HMem d'))) (store p h x c').
Proof.
  intros R L E W Wr S. rewrite (store_mem _ _ _ _ _ W). apply (rel_put s p _ h _ _ x R L E); [apply R| |].
  - intros j k y _ _. apply fd_self.
  - cbn. exists c'. auto.
Qed.
Lemma rel_store_file s p h x i d' c' : rel s p -> sh_what x = WFile i -> i < p_next p -> shows d' c' ->
  rel (SState (set_data (s_back s) i d') (s_handles s)) (store p h x c').
Proof.
  intros R W Hi S. rewrite (store_file _ _ _ _ _ W). apply (rel_names s p); auto. apply holds_data; [apply R|exact Hi|exact S].
Qed.

Lemma agrees_write v s p h off bs f : rel s p -> agrees v s p (KWrite h off bs f).
Proof.
  intros R. pose proof R as [H F]. unfold agrees. cbn [sstep pstep]. use_handle h R.
  - rewrite Gwr. unfold in_memory, bytes_of. rewrite Gw. cbn [negb hits fst snd told ok_or]. split; [reflexivity|].
    apply rel_store_mem with (c := c); auto; [apply (handle_of_lt _ _ _ Ea)|apply shows_write; exact Gs].
  - unfold in_memory, bytes_of. rewrite Gw. unfold b_write. rewrite Gf, Gn, Gfw.
    pose proof (holds_shows _ _ _ H Gi) as S.
    destruct (sh_write y); cbn [negb hits].
    + destruct f as [[j e]|]; cbn [fst snd told ok_or]; rewrite ?hard_code; (split; [reflexivity|]);
        (apply rel_store_file; [exact R|exact Gw|exact Gi|apply shows_write; exact S]).
    + cbn [fst snd told ok_or]. unfold e_badf. rewrite hard_code. split; [reflexivity|]. destruct s; exact R.
  - cbn. auto.
Qed.
Lemma agrees_truncate v s p h n f : rel s p -> agrees v s p (KTruncate h n f).
Proof.
  intros R. pose proof R as [H F]. unfold agrees. cbn [sstep pstep]. use_handle h R.
  - rewrite Gwr. unfold in_memory, bytes_of. rewrite Gw. cbn [negb hits fst snd told ok_or]. split; [reflexivity|].
    apply rel_store_mem with (c := c); auto; [apply (handle_of_lt _ _ _ Ea)|apply shows_cut; exact Gs].
  - unfold in_memory, bytes_of. rewrite Gw. unfold b_truncate. rewrite Gf, Gn, Gfw.
    pose proof (holds_shows _ _ _ H Gi) as S.
    destruct (sh_write y); cbn [negb hits].
    + destruct f as [e|]; cbn [fst snd told ok_or]; rewrite ?hard_code; (split; [reflexivity|]).
      * destruct s; exact R.
      * apply rel_store_file; [exact R|exact Gw|exact Gi|apply shows_cut; exact S].
    + cbn [fst snd told ok_or]. unfold e_badf. rewrite hard_code. split; [reflexivity|]. destruct s; exact R.
  - cbn. auto.
Qed.
Lemma agrees_sync v s p h f : rel s p -> agrees v s p (KSync h f).
Proof.
  intros R. pose proof R as [H F]. unfold agrees. cbn [sstep pstep]. use_handle h R; cbn [fst snd].
  - unfold in_memory. rewrite Gw. split; [reflexivity|exact R].
  - unfold in_memory. rewrite Gw. unfold b_sync. rewrite Gf. destruct f; cbn; rewrite ?hard_code; auto.
  - auto.
Qed.
Lemma agrees_size v s p h f : rel s p -> agrees v s p (KSize h f).
Proof.
  intros R. pose proof R as [H F]. unfold agrees. cbn [sstep pstep]. use_handle h R; cbn [fst snd].
  - unfold in_memory, bytes_of. rewrite Gw. cbn. split; [rewrite (proj1 Gs); reflexivity|exact R].
  - unfold in_memory, bytes_of. rewrite Gw. unfold b_size. rewrite Gf, Gn. pose proof (holds_shows _ _ _ H Gi) as [S _].
    destruct f; cbn; rewrite ?hard_code, ?S; auto.
  - auto.
Qed.

Lemma rel_level s p h x y i fd b l x' : rel s p -> handle_of s h = Some (HFile x) -> p_handle p h = Some y ->
  sh_what y = WFile i -> i < p_next p -> fd_of (s_back s) (sf_fd x) = Some fd -> fd_node fd = NFile i -> fd_write fd = sh_write y ->
  sh_write y = o_readwrite (sf_flags x) -> sh_ro y = o_readonly (sf_flags x) -> sh_delete y = o_delete (sf_flags x) -> sh_name y = comps (sf_name x) ->
  relocked (s_back s) b (sf_fd x) -> x' = with_level x l -> rel (set_handle s b h (Some (HFile x'))) (put_h p h (Some (level_to y l))).
Proof.
  intros R Hx Hy H1 H2 H3 H4 H5 H6 H7 H8 H9 Rl ->. destruct (handle_of_lt _ _ _ Hx) as [_ L].
  apply (rel_put s p b h _ _ y R L Hy).
  - destruct Rl as (E1 & E2 & _). destruct R as [(A & B & C & D) _]. split; [|split; [|split]].
    + intros q. unfold entry. rewrite E1. apply A.
    + rewrite E2. exact B.
    + intros j. unfold data_of. rewrite E2. apply C.
    + exact D.
  - intros j k z _ _ Hz. pose proof (relocked_fd _ _ _ k Rl) as X. rewrite Hz in X. exact X.
  - pose proof (relocked_fd _ _ _ (sf_fd x) Rl) as X. rewrite H3 in X. destruct X as [o Ho].
    cbn. exists i. eexists. split; [exact H1|]. split; [exact H2|]. split; [exact Ho|]. cbn. auto 10.
Qed.
Lemma put_same p h y : p_handle p h = Some y -> put_h p h (Some (level_to y (sh_level y))) = p.
Proof.
  intros E. unfold put_h. assert (level_to y (sh_level y) = y) as -> by (destruct y; reflexivity).
  unfold p_handle in E. destruct (nth_error (p_handles p) h) as [[z|]|] eqn:N; try discriminate. apply some_inj in E. subst z.
  rewrite <- put_split by (apply nth_error_Some; congruence).
  assert (put_nth (p_handles p) h (Some y) = p_handles p) as ->; [|destruct p; reflexivity].
  generalize dependent h. induction (p_handles p) as [|a l IH]; intros [|h]; cbn; try reflexivity; intros E; [congruence|]. rewrite IH by exact E. reflexivity.
Qed.

Lemma agrees_lock v s p h l f : rel s p -> agrees v s p (KLock h l f).
Proof.
  intros R. pose proof R as [H F]. unfold agrees. cbn [sstep pstep]. use_handle h R.
  - unfold in_memory. rewrite Gw. auto.
  - pose proof (f_lock_is v (s_back s) x l f) as U. destruct (f_lock v (s_back s) x l f) as [[b x'] e]. destruct U as (Rl & Ex & U).
    assert (forall l', sf_level x' = l' -> rel (set_handle s b h (Some (HFile x'))) (put_h p h (Some (level_to y l')))) as Lv.
    { intros l' El. eapply rel_level; eauto. rewrite <- El. exact Ex. }
    unfold in_memory. rewrite Gw, Gl, Gro. cbn [fst snd].
    destruct (l <=? sf_level x); [|destruct ((2 <=? l) && o_readonly (sf_flags x)); [|specialize (U ltac:(congruence)); destruct (hits (e_locks v) f)]];
      destruct U as [Ul ->]; cbn [fst snd told ok_or code_or]; rewrite ?hard_code; (split; [reflexivity|]).
    + rewrite <- (put_same p h y Ez). apply Lv. congruence.
    + rewrite <- (put_same p h y Ez). apply Lv. congruence.
    + rewrite <- (put_same p h y Ez). apply Lv. congruence.
    + apply Lv. exact Ul.
  - auto.
Qed.
Lemma agrees_unlock v s p h l f : rel s p -> agrees v s p (KUnlock h l f).
Proof.
  intros R. pose proof R as [H F]. unfold agrees. cbn [sstep pstep]. use_handle h R.
  - unfold in_memory. rewrite Gw. auto.
  - pose proof (f_unlock_is v (s_back s) x l f) as U. destruct (f_unlock v (s_back s) x l f) as [[b x'] e]. destruct U as (Rl & Ex & U).
    assert (forall l', sf_level x' = l' -> rel (set_handle s b h (Some (HFile x'))) (put_h p h (Some (level_to y l')))) as Lv.
    { intros l' El. eapply rel_level; eauto. rewrite <- El. exact Ex. }
    unfold in_memory. rewrite Gw, Gl. cbn [fst snd].
    destruct (sf_level x <=? l); destruct U as [Ul Ue].
    + subst e. cbn. split; [reflexivity|]. rewrite <- (put_same p h y Ez). apply Lv. congruence.
    + rewrite (Ue ltac:(congruence)). destruct (hits (e_locks v) f); cbn [fst snd told ok_or]; rewrite ?hard_code; (split; [reflexivity|apply Lv; exact Ul]).
  - auto.
Qed.
Lemma agrees_reserved v s p h : rel s p -> agrees v s p (KReserved h).
Proof.
  intros R. pose proof R as [H F]. unfold agrees. cbn [sstep pstep]. use_handle h R; cbn [fst snd]; unfold in_memory; try rewrite Gw; auto.
  rewrite Gl. auto.
Qed.
Lemma agrees_lockstate v s p h : rel s p -> agrees v s p (KLockState h).
Proof.
  intros R. pose proof R as [H F]. unfold agrees. cbn [sstep pstep]. use_handle h R; cbn [fst snd]; unfold in_memory; try rewrite Gw; auto.
  rewrite Gl. auto.
Qed.

Lemma holds_same b b' p : b_names b' = b_names b -> b_data b' = b_data b -> holds b p -> holds b' p.
Proof.
  intros E1 E2 (A & B & C & D). split; [|split; [|split]].
  - intros q. unfold entry. rewrite E1. apply A.
  - rewrite E2. exact B.
  - intros j. unfold data_of. rewrite E2. apply C.
  - exact D.
Qed.
Lemma agrees_close v s p h fu fc fr : rel s p -> tidy s -> fits p (KClose h fu fc fr) -> agrees v s p (KClose h fu fc fr).
Proof.
  intros R T Fit. pose proof R as [H F]. unfold agrees. cbn [sstep pstep fits] in *. use_handle h R.
  - unfold in_memory. rewrite Gw. cbn [fst snd told ok_or]. split; [reflexivity|].
    apply (rel_put s p _ h _ _ y R); [apply (handle_of_lt _ _ _ Ea)|exact Ez|exact H| |exact I]. intros j k z _ _. apply fd_self.
  - rewrite Gw in Fit. unfold in_memory. rewrite Gw.
    destruct (f_close_is v (s_back s) x fu fc fr fd Gf) as (b1 & Rl & Eb & Ee & Ec).
    set (b2 := set_fd b1 (sf_fd x) (Fd (fd_node fd) (fd_write fd) false ONone)) in *. cbv zeta in *.
    destruct (f_close v (s_back s) x fu fc fr) as [b e]. cbn [fst snd] in *.
    assert (holds b2 p) as H2 by (apply (holds_same (s_back s)); [apply Rl|apply Rl|exact H]).
    assert (forall b3 p3, b_fds b3 = b_fds b2 -> holds b3 p3 -> p_handles p3 = p_handles p -> p_next p3 = p_next p ->
              rel (set_handle s b3 h None) (put_h p3 h None)) as Rp.
    { intros b3 p3 E3 H3 Eh En. split; [exact H3|]. cbn [s_back s_handles set_handle p_handles put_h p_next]. rewrite Eh, En.
      rewrite <- put_split by (apply (p_handle_lt _ _ _ Ez)).
      apply (F2_put _ _ h None None _ _ F); [|exact I]. intros j a z Hj E1 _. apply hrel_back; [lia|].
      intros k w Ha Hw.
      assert (k <> sf_fd x) as Nk.
      { intros ->. apply Hj. destruct T as (_ & _ & T3). apply (T3 j h (sf_fd x)).
        - apply owns_part. unfold handle_of. rewrite E1. destruct a; exact Ha.
        - exists x. auto. }
      pose proof (relocked_fd _ _ _ k Rl) as X. rewrite Hw in X. destruct X as [o Ho]. exists o. rewrite <- Ho.
      assert (fd_of b3 k = fd_of b2 k) as -> by (unfold fd_of; rewrite E3; reflexivity).
      unfold b2. pose proof (relocked_fd _ _ _ (sf_fd x) Rl) as X. rewrite Gf in X. destruct X as [o' Ho']. apply fd_of_lt in Ho' as (_ & _ & Lx).
      rewrite fd_of_set by exact Lx. destruct (Nat.eqb_spec k (sf_fd x)); [contradiction|reflexivity]. }
    assert (told (KClose h fu fc fr) (AErr e) = match e with None => TOk | Some _ => TFail IoClose end) as Et.
    { cbn [told]. unfold ok_or. destruct e as [e|]; [rewrite (Ec e eq_refl)|]; reflexivity. }
    rewrite Et. rewrite <- Gl in Ee. rewrite <- Gd in *. rewrite Gnm in *.
    destruct (sh_delete y); cbn [hits].
    + specialize (Fit eq_refl). rewrite Fit.
      assert (comps (sf_name x) <> []) as Hne.
      { intros X. rewrite X in Fit. cbn in Fit. rewrite (holds_root _ _ H) in Fit. discriminate. }
      pose proof (remove_told v b2 p (comps (sf_name x)) (sf_name x) fr H2 eq_refl Hne ltac:(congruence)) as X.
      pose proof (remove_fds v b2 (sf_name x) fr) as Ef. rewrite Fit in X. rewrite <- Eb in *. rewrite Nat.eqb_refl, andb_true_r.
      destruct fr as [n|]; destruct X as [Xe Xb].
      * split.
        -- destruct e as [e|]; [destruct (hits _ fu), fc; reflexivity|].
           destruct (proj1 Ee eq_refl) as (_ & _ & Y). specialize (Y eq_refl). congruence.
        -- apply Rp; auto. rewrite Xb. exact H2.
      * split.
        -- destruct e as [e|].
           ++ destruct (hits _ fu), fc; try reflexivity. exfalso. assert (Some e = None) by (apply Ee; auto). discriminate.
           ++ destruct (proj1 Ee eq_refl) as (-> & -> & _). reflexivity.
        -- exact (Rp b (set_node p (comps (sf_name x)) None) Ef Xb eq_refl eq_refl).
    + subst b. split.
      * destruct e as [e|].
        -- destruct (hits _ fu), fc; try reflexivity. exfalso. assert (Some e = None) by (apply Ee; repeat split; discriminate). discriminate.
        -- destruct (proj1 Ee eq_refl) as (-> & -> & _). reflexivity.
      * assert (rel (set_handle s b2 h None) (put_h p h None)) as Z by (apply Rp; auto).
        destruct (walk (p_node p) [] (comps (sf_name x))) as [[|k]| |]; exact Z.
  - auto.
Qed.

Lemma agrees_step v s p c : rel s p -> tidy s -> fits p c -> agrees v s p c.
Proof.
  intros R T Fit. destruct c.
  - apply agrees_open; assumption.
  - apply agrees_delete; assumption.
  - apply agrees_access; assumption.
  - apply agrees_read; assumption.
  - apply agrees_write; assumption.
  - apply agrees_truncate; assumption.
  - apply agrees_sync; assumption.
  - apply agrees_size; assumption.
  - apply agrees_lock; assumption.
  - apply agrees_unlock; assumption.
  - apply agrees_reserved; assumption.
  - apply agrees_lockstate; assumption.
  - apply agrees_close; assumption.
Qed.

Lemma agrees_run v cs : forall s p, rel s p -> tidy s -> all_fit v p cs ->
  map (fun x => told (fst x) (snd x)) (combine cs (snd (srun v s cs))) = snd (prun v p cs) /\ rel (fst (srun v s cs)) (fst (prun v p cs)).
Proof.
  induction cs as [|c cs IH]; intros s p R T Fit; [split; [reflexivity|exact R]|].
  destruct Fit as [F1 F2]. destruct (agrees_step v s p c R T F1) as [E R'].
  destruct (IH _ _ R' (tidy_step v s c T) F2) as [E2 R2]. rewrite srun_cons, prun_cons. cbn [fst snd combine map]. rewrite E, E2. auto.
Qed.
Lemma sql_history v b p cs : b_fds b = [] -> p_handles p = [] -> holds b p -> all_fit v p cs ->
  map (fun x => told (fst x) (snd x)) (combine cs (snd (srun v (sinit b) cs))) = snd (prun v p cs) /\
  holds (s_back (fst (srun v (sinit b) cs))) (fst (prun v p cs)).
Proof.
  intros E Eh H Fit. assert (rel (sinit b) p) as R by (split; [exact H|rewrite Eh; constructor]).
  destruct (agrees_run v cs (sinit b) p R (tidy_init b E) Fit) as [A [B _]]. auto.
Qed.

(* Unnamed files in any history. *)
Lemma private_files v b cs c : private_call (fst (srun v (sinit b) cs)) c ->
  s_back (fst (sstep v (fst (srun v (sinit b) cs)) c)) = s_back (fst (srun v (sinit b) cs)).
Proof. apply private_back. Qed.
Lemma holds_plain b : sound b -> holds b (plain_of b).
Proof.
  intros [_ S]. split; [reflexivity|]. split; [reflexivity|]. split; [|exact S].
  intros i _. split; [reflexivity|]. reflexivity.
Qed.
Lemma sql_files v b cs : sound b -> all_fit v (plain_of b) cs ->
  sqlite_sees v b cs = snd (prun v (plain_of b) cs) /\ holds (left_by v b cs) (fst (prun v (plain_of b) cs)).
Proof. intros S F. apply sql_history; [apply S|reflexivity|apply holds_plain; exact S|exact F]. Qed.
Lemma sql_tidy v b cs : sound b -> tidy (fst (srun v (sinit b) cs)) /\ lets_go (fst (srun v (sinit b) cs)).
Proof. intros [E _]. apply tidy_lets_go. exact E. Qed.

(* ---- findings ---- *)

Definition rwc := Flags false true true false false.
Definition rwcd := Flags false true true false true.
Definition ro := Flags true false false false false.
Definition bare : backend := Backend [([[100%N]], NDir)] [] [].
Lemma bare_sound : sound bare.
Proof.
  split; [reflexivity|]. intros q i. unfold entry, bare. cbn [b_names assoc]. destruct q as [|c q]; [discriminate|].
  destruct (path_eqb _ _); discriminate.
Qed.
Lemma other_file_deleted :
  exists v b cs q, sound b /\ ~ In (TFail IoClose) (sqlite_sees v b cs) /\
    p_node (fst (prun v (plain_of b) cs)) q = Some (NFile 1) /\ entry (left_by v b cs) q = None.
Proof.
  exists (Env 1 false true), bare,
    [KOpen [116%N] rwcd None; KDelete [116%N] None; KOpen [116%N] rwc None; KWrite 1 0 [7%N] None; KClose 0 None None None], [[116%N]].
  split; [exact bare_sound|]. split; [vm_compute; intuition discriminate|]. split; reflexivity.
Qed.
Lemma deleted_twice :
  exists v b cs, sound b /\ sqlite_sees v b cs = [TOpened 0 false; TOk; TFail IoClose] /\
    snd (prun v (plain_of b) cs) = [TOpened 0 false; TOk; TOk].
Proof.
  exists (Env 1 false true), bare, [KOpen [116%N] rwcd None; KDelete [116%N] None; KClose 0 None None None].
  split; [exact bare_sound|]. split; reflexivity.
Qed.
Lemma directory_deleted :
  exists v b cs q, sound b /\ entry b q = Some NDir /\ entry (left_by v b cs) q = None /\ sqlite_sees v b cs = [TOk].
Proof. exists (Env 1 false true), bare, [KDelete [100%N] None], [[100%N]]. split; [exact bare_sound|]. repeat split. Qed.
Lemma directory_opened :
  exists v b cs, sound b /\ sqlite_sees v b cs = [TOpened 0 false; TFail IoRead] /\ snd (prun v (plain_of b) cs) = [TFail Cantopen; TNone].
Proof. exists (Env 1 false true), bare, [KOpen [100%N] ro None; KRead 0 0 1 None]. split; [exact bare_sound|]. split; reflexivity. Qed.

(* ---- locks ---- *)

Lemma lock_lock v b x l f y : e_locks v = true -> fd_of b (sf_fd x) = Some y -> fd_lock y = lock_for (sf_level x) ->
  let '(b', x', _) := f_lock v b x l f in
  forall y', fd_of b' (sf_fd x') = Some y' -> fd_lock y' = lock_for (sf_level x').
Proof.
  intros V E L. unfold f_lock. rewrite V.
  destruct (Nat.leb_spec l (sf_level x)) as [Hl|Hl]; [intros y' E'; congruence|].
  destruct ((l_reserved <=? l) && o_readonly (sf_flags x)); [intros y' E'; congruence|].
  unfold b_lock. rewrite E. destruct f; [intros y' E'; congruence|]. cbn [sf_fd with_level sf_level].
  intros y' E'. destruct (fd_of_lt _ _ _ E) as (_ & _ & Lt). rewrite fd_of_set, Nat.eqb_refl in E' by exact Lt. cbn in E'. apply some_inj in E'. subst y'.
  cbn. destruct l as [|[|l]]; [lia|reflexivity|reflexivity].
Qed.
Lemma lock_unlock v b x l y : e_locks v = true -> l <= 1 -> fd_of b (sf_fd x) = Some y -> fd_lock y = lock_for (sf_level x) ->
  let '(b', x', _) := f_unlock v b x l None in
  forall y', fd_of b' (sf_fd x') = Some y' -> fd_lock y' = lock_for (sf_level x').
Proof.
  intros V Hl E L. unfold f_unlock. rewrite V.
  destruct (Nat.leb_spec (sf_level x) l) as [Hx|Hx]; [intros y' E'; congruence|].
  unfold b_lock. rewrite E. cbn [sf_fd with_level sf_level].
  intros y' E'. destruct (fd_of_lt _ _ _ E) as (_ & _ & Lt). rewrite fd_of_set, Nat.eqb_refl in E' by exact Lt. cbn in E'. apply some_inj in E'. subst y'.
  cbn. destruct l as [|[|l]]; [reflexivity|reflexivity|lia].
Qed.

Lemma right_fds s b hs : locked_right s -> (forall h, handle_of (SState b hs) h = handle_of s h) -> b_fds b = b_fds (s_back s) -> locked_right (SState b hs).
Proof. intros R Hh E h x y H F. rewrite Hh in H. apply (R h x y H). unfold fd_of in *. cbn in F. rewrite E in F. exact F. Qed.
(* One handle changes and its descriptor with it. *)
Lemma right_put s b h x x' : locked_right s -> tidy s -> handle_of s h = Some (HFile x) -> relocked (s_back s) b (sf_fd x) -> sf_fd x' = sf_fd x ->
  (forall y, fd_of b (sf_fd x') = Some y -> fd_lock y = lock_for (sf_level x')) -> locked_right (set_handle s b h (Some (HFile x'))).
Proof.
  intros R T Hh Rl Ex Hx j z y Hz Hy. destruct (handle_of_lt _ _ _ Hh) as [_ L]. rewrite handle_of_put in Hz by exact L.
  destruct (Nat.eqb_spec j h) as [->|N]; [injection Hz as <-; exact (Hx y Hy)|]. cbn in Hy.
  assert (sf_fd z <> sf_fd x) as Nz.
  { intros Ez. apply N. destruct T as (_ & _ & T3). apply (T3 j h (sf_fd x)); [exists z; auto|exists x; auto]. }
  apply (R j z y Hz). destruct Rl as (_ & _ & [E|(w & o & _ & E)]); unfold fd_of in *; rewrite E in Hy; [exact Hy|].
  rewrite nth_put_other in Hy by congruence. exact Hy.
Qed.
Lemma right_close s b b2 h x : locked_right s -> tidy s -> handle_of s h = Some (HFile x) -> relocked (s_back s) b (sf_fd x) ->
  (forall k, k <> sf_fd x -> fd_of b2 k = fd_of b k) -> locked_right (set_handle s b2 h None).
Proof.
  intros R T Hh Rl Hb j z y Hz Hy. destruct (handle_of_lt _ _ _ Hh) as [_ L]. rewrite handle_of_put in Hz by exact L.
  destruct (Nat.eqb_spec j h) as [->|N]; [discriminate|]. cbn in Hy.
  assert (sf_fd z <> sf_fd x) as Nz.
  { intros Ez. apply N. destruct T as (_ & _ & T3). apply (T3 j h (sf_fd x)); [exists z; auto|exists x; auto]. }
  apply (R j z y Hz). rewrite (Hb _ Nz) in Hy. destruct Rl as (_ & _ & [E|(w & o & _ & E)]); unfold fd_of in *; rewrite E in Hy; [exact Hy|].
  rewrite nth_put_other in Hy by congruence. exact Hy.
Qed.
Lemma right_mem s h d e : locked_right s -> handle_of s h = Some (HMem d) -> (forall x, e <> Some (HFile x)) ->
  locked_right (set_handle s (s_back s) h e).
Proof.
  intros R Hh He j z y Hz Hy. destruct (handle_of_lt _ _ _ Hh) as [_ L]. rewrite handle_of_put in Hz by exact L.
  destruct (Nat.eqb_spec j h) as [->|N]; [exfalso; exact (He z Hz)|exact (R j z y Hz Hy)].
Qed.
Lemma right_step v s c : e_locks v = true -> gives_up c -> tidy s -> locked_right s -> locked_right (fst (sstep v s c)).
Proof.
  intros V G T R. destruct c; cbn [sstep gives_up] in *.
  - unfold s_open. destruct name as [|c0 name].
    + intros j z y Hz Hy. cbn [fst] in *. rewrite handle_of_add in Hz. destruct (Nat.eqb_spec j (length (s_handles s))); [discriminate|exact (R j z y Hz Hy)].
    + pose proof (openfile_is v (s_back s) (clean_path (c0 :: name)) (o_readwrite fl) (o_create fl) (o_exclusive fl) f) as O.
      destruct (b_openfile _ _ _ _ _ _ _) as [b' [k|e]]; cbn [fst].
      * destruct O as [-> [n E]]. intros j z y Hz Hy. cbn in Hy. rewrite handle_of_add in Hz.
        assert (forall q, fd_of b' q = if q =? length (b_fds (s_back s)) then Some (Fd n (o_readwrite fl) true ONone) else fd_of (s_back s) q) as Fk.
        { intros q. etransitivity; [|exact (fd_of_add [] [] (s_back s) (Fd n (o_readwrite fl) true ONone) q)]. unfold fd_of. rewrite E. reflexivity. }
        rewrite Fk in Hy. destruct (Nat.eqb_spec j (length (s_handles s))) as [->|N].
        -- injection Hz as <-. cbn in Hy. rewrite Nat.eqb_refl in Hy. apply some_inj in Hy. subst y. reflexivity.
        -- destruct (proj1 T j (sf_fd z)) as [w Hw]; [exists z; auto|]. apply fd_of_lt in Hw as (_ & _ & Lt).
           destruct (Nat.eqb_spec (sf_fd z) (length (b_fds (s_back s)))); [lia|]. exact (R j z y Hz Hy).
      * subst b'. apply (right_fds s); auto.
  - unfold s_delete. pose proof (remove_fds v (s_back s) (clean_path name) f) as E.
    destruct (b_remove _ _ _ _) as [b' e]. apply (right_fds s); auto.
  - exact R.
  - destruct (handle_of s h) as [[d|x]|]; [destruct (read_at _ _ _ _)| |]; exact R.
  - destruct (handle_of s h) as [[d|x]|] eqn:Hh; [| |exact R]; cbn [fst].
    + apply (right_mem s h d); [exact R|exact Hh|discriminate].
    + pose proof (write_fds v (s_back s) (sf_fd x) off bs f) as E. destruct (b_write _ _ _ _ _ _) as [b' e]. apply (right_fds s); auto.
  - destruct (handle_of s h) as [[d|x]|] eqn:Hh; [| |exact R]; cbn [fst].
    + apply (right_mem s h d); [exact R|exact Hh|discriminate].
    + pose proof (truncate_fds v (s_back s) (sf_fd x) n f) as E. destruct (b_truncate _ _ _ _ _) as [b' e]. apply (right_fds s); auto.
  - destruct (handle_of s h) as [[d|x]|]; exact R.
  - destruct (handle_of s h) as [[d|x]|]; exact R.
  - destruct (handle_of s h) as [[d|x]|] eqn:Hh; [exact R| |exact R].
    destruct (proj1 T h (sf_fd x)) as [y Hy]; [exists x; auto|].
    pose proof (f_lock_is v (s_back s) x l f) as U. pose proof (lock_lock v (s_back s) x l f y V Hy (R h x y Hh Hy)) as W.
    destruct (f_lock _ _ _ _ _) as [[b' x'] e]. destruct U as (Rl & Ex & _). cbn [fst].
    apply (right_put s b' h x x' R T Hh Rl); [rewrite Ex; reflexivity|exact W].
  - destruct (handle_of s h) as [[d|x]|] eqn:Hh; [exact R| |exact R]. destruct G as [Gl ->].
    destruct (proj1 T h (sf_fd x)) as [y Hy]; [exists x; auto|].
    pose proof (f_unlock_is v (s_back s) x l None) as U. pose proof (lock_unlock v (s_back s) x l y V Gl Hy (R h x y Hh Hy)) as W.
    destruct (f_unlock _ _ _ _ _) as [[b' x'] e]. destruct U as (Rl & Ex & _). cbn [fst].
    apply (right_put s b' h x x' R T Hh Rl); [rewrite Ex; reflexivity|exact W].
  - destruct (handle_of s h) as [[d|x]|]; exact R.
  - destruct (handle_of s h) as [[d|x]|]; exact R.
  - destruct (handle_of s h) as [[d|x]|] eqn:Hh; [| |exact R]; cbn [fst].
    + apply (right_mem s h d); [exact R|exact Hh|discriminate].
    + destruct (proj1 T h (sf_fd x)) as [y Hy]; [exists x; auto|].
      destruct (f_close_is v (s_back s) x fu fc fr y Hy) as (b1 & Rl & E & _).
      destruct (f_close v (s_back s) x fu fc fr) as [b' e]. cbn [fst] in *.
      apply (right_close s b1 b' h x R T Hh Rl). intros k Nk.
      assert (b_fds b' = b_fds (set_fd b1 (sf_fd x) (Fd (fd_node y) (fd_write y) false ONone))) as Ef
        by (subst b'; destruct (o_delete (sf_flags x)); [apply remove_fds|reflexivity]).
      unfold fd_of. rewrite Ef. cbn. rewrite nth_put_other by congruence. reflexivity.
Qed.
Lemma sql_locks v b cs : sound b -> e_locks v = true -> Forall gives_up cs -> locked_right (fst (srun v (sinit b) cs)).
Proof.
  intros [E _] V. assert (locked_right (sinit b)) as R by (intros [|h] x y H; discriminate H).
  pose proof (tidy_init b E) as T. generalize dependent (sinit b). clear E. induction cs as [|c cs IH]; intros s R T F; [exact R|].
  inversion F as [|? ? F1 F2]; subst. rewrite srun_cons. cbn [fst]. apply IH; [apply right_step; assumption|apply tidy_step; exact T|exact F2].
Qed.
