(* C52 for overlayfs: the tracker counts the open handles. *)
From Verif Require Import Common CommonLemmas ContentRange_Model ContentRange_Proofs PathLex_Model PathLex_Proofs TempName_Model TempName_Proofs Overlay_Model Overlay_Proofs Masks_Model Masks_Spec Masks_Proofs MasksPaths_Proofs Handles_Model Handles_Spec.
Open Scope nat_scope.

Definition sum (t : tracker) (f : list byte -> bool) : nat := fold_right (fun e acc => (if f (fst e) then snd e else 0) + acc) 0 t.
Lemma sum_cons k c t f : sum ((k, c) :: t) f = (if f k then c else 0) + sum t f.
Proof. reflexivity. Qed.
Lemma sum_forget t n f : NoDup (map fst t) -> sum t f = (if f n then count t n else 0) + sum (forget t n) f.
Proof.
  induction t as [|[k c] t IH]; intros N; [cbn; destruct (f n); reflexivity|]. cbn [map fst] in N. inversion N as [|? ? Nk Nt]; subst.
  specialize (IH Nt). cbn [count forget filter fst]. destruct (beq_cases n k) as [[E B]|[E B]]; rewrite B; cbn [negb].
  - subst k. rewrite sum_cons. f_equal. fold (forget t n). rewrite IH.
    replace (count t n) with 0; [destruct (f n); reflexivity|]. clear - Nk.
    induction t as [|[k c'] t IH]; [reflexivity|]. cbn. destruct (beq_cases n k) as [[E B]|[E B]]; rewrite B.
    + exfalso. apply Nk. left. auto.
    + apply IH. intros H. apply Nk. right. exact H.
  - fold (forget t n). rewrite !sum_cons, IH. lia.
Qed.
Lemma forget_nodup t n : NoDup (map fst t) -> NoDup (n :: map fst (forget t n)) .
Proof.
  intros N. constructor.
  - intros H. apply in_map_iff in H. destruct H as ([k c] & E & H). cbn in E. subst k. apply filter_In in H. cbn in H.
    rewrite beq_refl in H. destruct H; discriminate.
  - induction t as [|[k c] t IH]; [constructor|]. cbn [map fst] in N. inversion N as [|? ? Nk Nt]; subst. cbn.
    destruct (negb (bytes_eqb n k)); cbn; [|apply IH; exact Nt]. constructor; [|apply IH; exact Nt].
    intros H. apply Nk. apply in_map_iff in H. destruct H as (e & E & H). apply filter_In in H. rewrite <- E. apply in_map. tauto.
Qed.
Lemma count_sum t n : NoDup (map fst t) -> count t n = sum t (fun k => bytes_eqb n k).
Proof.
  intros N. rewrite (sum_forget t n _ N), beq_refl.
  replace (sum (forget t n) _) with 0; [lia|]. clear. symmetry. induction t as [|[k c] t IH]; [reflexivity|]. cbn.
  destruct (bytes_eqb n k) eqn:E; cbn; [exact IH|]. rewrite E. exact IH.
Qed.
Lemma sum_acquire t n f : NoDup (map fst t) -> sum (acquire t n) f = (if f n then 1 else 0) + sum t f.
Proof. intros N. unfold acquire. rewrite sum_cons, (sum_forget t n f N). destruct (f n); lia. Qed.
Lemma sum_release t n f : NoDup (map fst t) -> 0 < count t n -> sum t f = (if f n then 1 else 0) + sum (release t n) f.
Proof.
  intros N C. unfold release. rewrite (sum_forget t n f N). destruct (count t n - 1) as [|c] eqn:E.
  - destruct (f n); lia.
  - rewrite sum_cons. destruct (f n); lia.
Qed.
Lemma acquire_nodup t n : NoDup (map fst t) -> NoDup (map fst (acquire t n)).
Proof. intros N. apply forget_nodup. exact N. Qed.
Lemma release_nodup t n : NoDup (map fst t) -> NoDup (map fst (release t n)).
Proof.
  intros N. pose proof (forget_nodup t n N) as F. unfold release. destruct (count t n - 1); [inversion F; assumption|exact F].
Qed.

Definition by_key (f : list byte -> bool) (h : handle) : bool := h_open h && f (key (h_key h)).
Definition in_count (s : ostate) : Prop :=
  NoDup (map fst (o_track s)) /\ Forall (fun h => nameable (h_key h)) (o_handles s) /\
  forall f, sum (o_track s) f = how_many (by_key f) (o_handles s).

Lemma how_many_app f a b : how_many f (a ++ b) = how_many f a + how_many f b.
Proof. unfold how_many. rewrite filter_app, app_length. reflexivity. Qed.
Lemma how_many_cons f h hs : how_many f (h :: hs) = (if f h then 1 else 0) + how_many f hs.
Proof. unfold how_many. cbn. destruct (f h); reflexivity. Qed.
Lemma how_many_ext f g hs : (forall h, In h hs -> f h = g h) -> how_many f hs = how_many g hs.
Proof.
  intros H. unfold how_many. induction hs as [|h hs IH]; [reflexivity|]. cbn. rewrite (H h) by (left; reflexivity).
  destruct (g h); cbn; rewrite IH; auto; intros x Hx; apply H; right; exact Hx.
Qed.
Lemma how_many_shut f i hs h : nth_error hs i = Some h -> h_open h = true ->
  how_many (by_key f) hs = (if f (key (h_key h)) then 1 else 0) + how_many (by_key f) (shut_at i hs).
Proof.
  revert i. induction hs as [|a hs IH]; intros [|i] H O; try discriminate; cbn [nth_error shut_at] in *; rewrite !how_many_cons.
  - apply some_inj in H. subst a. unfold by_key at 1 3. rewrite O. cbn. reflexivity.
  - rewrite (IH i H O). lia.
Qed.
Lemma how_many_follow f c hs : how_many (by_key f) (map (follow c) hs) = how_many (by_key f) hs.
Proof. induction hs as [|h hs IH]; [reflexivity|]. cbn [map]. rewrite !how_many_cons, IH. reflexivity. Qed.
Lemma keys_shut (P : path -> Prop) i hs : Forall (fun h => P (h_key h)) hs -> Forall (fun h => P (h_key h)) (shut_at i hs).
Proof.
  revert i. induction hs as [|h hs IH]; intros [|i] H; inversion H as [|? ? Hh Hr]; subst; cbn; constructor; auto.
Qed.
Lemma how_many_pos f hs i h : nth_error hs i = Some h -> f h = true -> 0 < how_many f hs.
Proof.
  revert i. induction hs as [|a hs IH]; intros [|i] H F; try discriminate; cbn in H; rewrite how_many_cons.
  - apply some_inj in H. subst a. rewrite F. lia.
  - specialize (IH i H F). lia.
Qed.

Lemma track_in_count p s : nameable p -> in_count s -> in_count (track p s).
Proof.
  intros Hp (N & K & C). split; [apply acquire_nodup, N|]. split; [apply Forall_app; split; [exact K|constructor; [exact Hp|constructor]]|].
  intros f. cbn [track o_track o_handles]. rewrite (sum_acquire _ _ _ N), how_many_app, (C f), how_many_cons.
  replace (by_key f {| h_key := p; h_open := true; h_now := Some p |}) with (f (key p)) by reflexivity.
  change (how_many (by_key f) []) with 0. lia.
Qed.
Lemma hstep_in_count s e : Forall nameable (hnames e) -> in_count s -> in_count (hstep s e).
Proof.
  intros Hn I. destruct e as [be p opens|be p cr ex tr m|i|be c]; cbn [hnames] in Hn; unfold hstep.
  - assert (Hp : nameable p) by (inversion Hn; assumption).
    destruct (lookup be (o_stack s) p); try exact I. destruct opens; [apply track_in_count; assumption|exact I].
  - assert (Hp : nameable p) by (inversion Hn; assumption). cbn zeta.
    destruct (err_opt _); [exact I|]. apply track_in_count; [exact Hp|exact I].
  - destruct (nth_error (o_handles s) i) as [h|] eqn:E; [|exact I]. destruct (h_open h) eqn:O; [|exact I].
    destruct I as (N & K & C). split; [apply release_nodup, N|]. split; [apply keys_shut, K|].
    intros f. cbn [o_track o_handles].
    assert (P : 0 < count (o_track s) (key (h_key h))).
    { rewrite (count_sum _ _ N), C. apply (how_many_pos _ _ i h E). unfold by_key. rewrite O, beq_refl. reflexivity. }
    pose proof (sum_release _ _ f N P) as S. pose proof (how_many_shut f i _ h E O) as M. rewrite C in S. lia.
  - destruct I as (N & K & C). cbn zeta. split; [exact N|]. cbn [o_handles o_track]. split.
    + destruct (err_opt _); [exact K|]. apply Forall_map. exact K.
    + intros f. rewrite (C f). destruct (err_opt _); [reflexivity|]. rewrite how_many_follow. reflexivity.
Qed.
Lemma hrun_in_count es : forall s, sound_names es -> in_count s -> in_count (hrun s es).
Proof.
  induction es as [|e es IH]; intros s H I; [exact I|]. inversion H as [|? ? He Hes]; subst. cbn [hrun fold_left].
  apply (IH (hstep s e)); [exact Hes|]. apply hstep_in_count; assumption.
Qed.
Lemma mounted_in_count s : in_count (mounted s).
Proof. split; [constructor|]. split; [constructor|]. intros f. reflexivity. Qed.

Lemma counted_key p q : nameable p -> nameable q -> counted (key p) (key q) = within p q.
Proof.
  intros Hp Hq. rewrite within_or. unfold counted. rewrite <- (key_below p q Hp Hq). unfold under.
  destruct (beq_cases (key q) (key p)) as [[E B]|[E B]]; rewrite B; cbn [negb andb orb].
  - apply key_inj in E; [|assumption..]. subst. rewrite path_eqb_refl. reflexivity.
  - destruct (path_eqb p q) eqn:P; [|reflexivity]. apply path_eqb_eq in P. subst. congruence.
Qed.
Lemma counts_handles s p : in_count s -> nameable p ->
  count (o_track s) (key p) = how_many (opened_as p) (o_handles s) /\
  count_subtree (o_track s) (key p) = how_many (opened_in p) (o_handles s).
Proof.
  intros (N & K & C) Hp. rewrite Forall_forall in K. split.
  - rewrite (count_sum _ _ N), C. apply how_many_ext. intros h Hh. unfold by_key, opened_as. f_equal.
    apply eq_true_iff_eq. rewrite bytes_eqb_eq, path_eqb_eq. split; [|congruence]. apply key_inj; auto.
  - change (count_subtree (o_track s) (key p)) with (sum (o_track s) (counted (key p))). rewrite C. apply how_many_ext.
    intros h Hh. unfold by_key, opened_in. f_equal. apply counted_key; auto.
Qed.
Lemma counts st es p : sound_names es -> nameable p ->
  count (o_track (hrun (mounted st) es)) (key p) = how_many (opened_as p) (o_handles (hrun (mounted st) es)) /\
  count_subtree (o_track (hrun (mounted st) es)) (key p) = how_many (opened_in p) (o_handles (hrun (mounted st) es)).
Proof. intros H Hp. apply counts_handles; [|exact Hp]. apply hrun_in_count; [exact H|apply mounted_in_count]. Qed.

(* The gate. *)
Lemma remove_found be p s : err_opt (remove be p s) = None -> is_nil p = false /\ exists i n, lookup be s p = LFound i n.
Proof.
  unfold remove. destruct (is_nil p); [discriminate|]. destruct (lookup be s p); try discriminate. eauto.
Qed.
Lemma gated_remove st es be p : sound_names es -> nameable p ->
  let s := hrun (mounted st) es in
  err_opt (gated (o_track s) be (CRemove p) (o_stack s)) = None -> how_many (opened_as p) (o_handles s) = 0.
Proof.
  intros H Hp s E. pose proof (proj1 (counts st es p H Hp)) as C. fold s in C. rewrite <- C. clear C.
  cbn [gated] in E. unfold gate in E. destruct (is_nil p) eqn:P; [apply remove_found in E; destruct E; congruence|].
  destruct (lookup be (o_stack s) p) eqn:L; try (apply remove_found in E; destruct E as (_ & i & n & E); congruence).
  destruct (removable (o_track s) p) eqn:R; [|discriminate]. apply Nat.eqb_eq in R. exact R.
Qed.
Lemma gated_remove_all st es be p : sound_names es -> nameable p ->
  let s := hrun (mounted st) es in
  err_opt (gated (o_track s) be (CRemoveAll p) (o_stack s)) = None ->
  how_many (opened_in p) (o_handles s) = 0 \/ (lookup be (o_stack s) p = LMissing /\ gated (o_track s) be (CRemoveAll p) (o_stack s) = ret (o_stack s)).
Proof.
  intros H Hp s E. pose proof (proj2 (counts st es p H Hp)) as C. fold s in C. rewrite <- C. clear C.
  cbn [gated] in *. unfold gate, remove_all in *. destruct (is_nil p) eqn:P; [discriminate|].
  destruct (lookup be (o_stack s) p) eqn:L; try discriminate; [|right; auto].
  destruct (removable_tree (o_track s) p) eqn:R; [|discriminate]. apply Nat.eqb_eq in R. left. exact R.
Qed.
Lemma refused_unchanged st es be p : sound_names es -> nameable p ->
  let s := hrun (mounted st) es in
  (0 < how_many (opened_as p) (o_handles s) -> states_of (gated (o_track s) be (CRemove p) (o_stack s)) = [] /\ end_of (gated (o_track s) be (CRemove p) (o_stack s)) = o_stack s) /\
  (0 < how_many (opened_in p) (o_handles s) -> states_of (gated (o_track s) be (CRemoveAll p) (o_stack s)) = [] /\ end_of (gated (o_track s) be (CRemoveAll p) (o_stack s)) = o_stack s).
Proof.
  intros H Hp s. pose proof (counts st es p H Hp) as [C1 C2]. fold s in C1, C2. rewrite <- C1, <- C2.
  cbn [gated]. unfold gate, remove, remove_all, removable, removable_tree. destruct (is_nil p); [split; split; reflexivity|].
  split; intros Q; (destruct (lookup be (o_stack s) p); try (split; reflexivity)); rewrite (proj2 (Nat.eqb_neq _ 0)) by lia; split; reflexivity.
Qed.
Lemma gate_open st es be p : sound_names es -> nameable p ->
  let s := hrun (mounted st) es in
  (how_many (opened_as p) (o_handles s) = 0 -> gated (o_track s) be (CRemove p) (o_stack s) = run_call be (CRemove p) (o_stack s)) /\
  (how_many (opened_in p) (o_handles s) = 0 -> gated (o_track s) be (CRemoveAll p) (o_stack s) = run_call be (CRemoveAll p) (o_stack s)).
Proof.
  intros H Hp s. pose proof (counts st es p H Hp) as [C1 C2]. fold s in C1, C2. rewrite <- C1, <- C2.
  cbn [gated run_call]. unfold gate, removable, removable_tree.
  split; intros ->; (destruct (is_nil p); [reflexivity|]); destruct (lookup be (o_stack s) p); reflexivity.
Qed.
Lemma shut_nth i hs : nth_error (shut_at i hs) i = option_map shut (nth_error hs i).
Proof. revert i. induction hs as [|h hs IH]; intros [|i]; cbn; auto. Qed.
Lemma double_close s i : hstep (hstep s (HClose i)) (HClose i) = hstep s (HClose i).
Proof.
  unfold hstep at 2 3. destruct (nth_error (o_handles s) i) as [h|] eqn:E.
  - destruct (h_open h) eqn:O; [|unfold hstep; rewrite E, O; reflexivity].
    unfold hstep. cbn [o_handles]. rewrite shut_nth, E. reflexivity.
  - unfold hstep. rewrite E. reflexivity.
Qed.

(* Without renames a handle's file keeps the name it was opened under. *)
Definition stays (s : ostate) : Prop := Forall (fun h => h_now h = None \/ h_now h = Some (h_key h)) (o_handles s).
Lemma stays_shut i hs : Forall (fun h => h_now h = None \/ h_now h = Some (h_key h)) hs -> Forall (fun h => h_now h = None \/ h_now h = Some (h_key h)) (shut_at i hs).
Proof. revert i. induction hs as [|h hs IH]; intros [|i] H; inversion H as [|? ? Hh Hr]; subst; cbn; constructor; auto. Qed.
Lemma hstep_stays s e : renames e = false -> stays s -> stays (hstep s e).
Proof.
  intros R I. unfold stays in *. destruct e as [be p opens|be p cr ex tr m|i|be c]; unfold hstep.
  - destruct (lookup be (o_stack s) p); try exact I. destruct opens; [|exact I]. apply Forall_app. split; [exact I|]. constructor; [right; reflexivity|constructor].
  - cbn zeta. destruct (err_opt _); [exact I|]. apply Forall_app. split; [exact I|]. constructor; [right; reflexivity|constructor].
  - destruct (nth_error (o_handles s) i) as [h|]; [|exact I]. destruct (h_open h); [|exact I]. apply stays_shut. exact I.
  - cbn zeta. cbn [o_handles]. destruct (err_opt _); [exact I|]. apply Forall_map. eapply Forall_impl; [|exact I].
    intros h [E|E]; cbn [follow h_now h_key]; rewrite E; unfold moved; destruct c; try discriminate R; auto;
      match goal with |- context [within ?a ?b] => destruct (within a b); auto end.
Qed.
Lemma hrun_stays es : forall s, existsb renames es = false -> stays s -> stays (hrun s es).
Proof.
  induction es as [|e es IH]; intros s H I; [exact I|]. cbn [existsb] in H. apply orb_false_iff in H. destruct H as [He Hes].
  cbn [hrun fold_left]. apply (IH (hstep s e)); [exact Hes|]. apply hstep_stays; assumption.
Qed.
Lemma how_many_le f g hs : (forall h, In h hs -> f h = true -> g h = true) -> how_many f hs <= how_many g hs.
Proof.
  intros H. induction hs as [|h hs IH]; [cbn; lia|]. rewrite !how_many_cons.
  assert (how_many f hs <= how_many g hs) by (apply IH; intros x Hx; apply H; right; exact Hx).
  specialize (H h (or_introl eq_refl)). destruct (f h); [rewrite H by reflexivity; lia|destruct (g h); lia].
Qed.
Lemma no_rename_guards st es be p : sound_names es -> nameable p -> existsb renames es = false ->
  let s := hrun (mounted st) es in
  (err_opt (gated (o_track s) be (CRemove p) (o_stack s)) = None -> how_many (open_now p) (o_handles s) = 0) /\
  (err_opt (gated (o_track s) be (CRemoveAll p) (o_stack s)) = None -> lookup be (o_stack s) p <> LMissing -> how_many (open_now_in p) (o_handles s) = 0).
Proof.
  intros H Hp R s. assert (I : stays s) by (apply hrun_stays; [exact R|constructor]). unfold stays in I. rewrite Forall_forall in I. split.
  - intros E. apply (gated_remove st es be p H Hp) in E. fold s in E.
    assert (how_many (open_now p) (o_handles s) <= how_many (opened_as p) (o_handles s)); [|lia].
    apply how_many_le. intros h Hh. unfold open_now, opened_as. destruct (h_open h); [|discriminate].
    destruct (I h Hh) as [-> | ->]; [discriminate|auto].
  - intros E L. apply (gated_remove_all st es be p H Hp) in E. fold s in E. destruct E as [E|[E _]]; [|contradiction].
    assert (how_many (open_now_in p) (o_handles s) <= how_many (opened_in p) (o_handles s)); [|lia].
    apply how_many_le. intros h Hh. unfold open_now_in, opened_in. destruct (h_open h); [|discriminate].
    destruct (I h Hh) as [-> | ->]; [discriminate|auto].
Qed.

(* A rename carries the file away from the name its handles are counted under. *)
Definition plain_be : backend := {| through := fun _ _ => AMissing; broken := fun _ _ => false; followed := fun _ _ => None; rmorder := [] |}.
Definition name_a : path := [[97%N]].
Definition name_b : path := [[98%N]].
Definition one_file : stack := [{| l_tree := [(name_a, OFile 420 1)]; l_wh := []; l_op := [] |}].
Lemma nameable_a : nameable name_a.
Proof. constructor; [|constructor]. split; [discriminate|]. split; [discriminate|]. split; [discriminate|]. intros [H|[]]; discriminate. Qed.
Lemma nameable_b : nameable name_b.
Proof. constructor; [|constructor]. split; [discriminate|]. split; [discriminate|]. split; [discriminate|]. intros [H|[]]; discriminate. Qed.
Definition carried : list hevent := [HRead plain_be name_a true; HCall plain_be (CRename name_a name_b)].
Definition replaced : list hevent := carried ++ [HWrite plain_be name_a true false true 420; HClose 1].
Lemma carried_sound : sound_names carried.
Proof. constructor; [constructor; [exact nameable_a|constructor]|]. constructor; [constructor|constructor]. Qed.
Lemma replaced_sound : sound_names replaced.
Proof. apply Forall_app. split; [exact carried_sound|]. constructor; [constructor; [exact nameable_a|constructor]|]. constructor; [constructor|constructor]. Qed.
Lemma rename_loses_handle : exists st es be p, sound_names es /\ nameable p /\
  let s := hrun (mounted st) es in
  err_opt (gated (o_track s) be (CRemove p) (o_stack s)) = None /\ 0 < how_many (open_now p) (o_handles s).
Proof.
  exists one_file, carried, plain_be, name_b. split; [exact carried_sound|]. split; [exact nameable_b|]. vm_compute. split; [reflexivity|lia].
Qed.
Lemma stale_name : exists st es be p, sound_names es /\ nameable p /\
  let s := hrun (mounted st) es in
  how_many (open_now p) (o_handles s) = 0 /\ err_opt (run_call be (CRemove p) (o_stack s)) = None /\
  err_opt (gated (o_track s) be (CRemove p) (o_stack s)) <> None.
Proof.
  exists one_file, replaced, plain_be, name_a. split; [exact replaced_sound|]. split; [exact nameable_a|]. vm_compute.
  split; [reflexivity|]. split; [reflexivity|discriminate].
Qed.
