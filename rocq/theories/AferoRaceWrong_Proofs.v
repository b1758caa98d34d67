From Verif Require Import Common CommonLemmas AferoRace_Model AferoRace_Spec AferoRace_Proofs AferoRaceApart_Proofs.
Open Scope nat_scope.

Lemma fresh_ok : tidy fresh /\ nobodys fresh.
Proof.
  split.
  - apply tidy_new; [|reflexivity | reflexivity]. intros d n es E. discriminate.
  - intros i n. unfold fresh. rewrite set_other; [reflexivity | discriminate].
Qed.

Lemma goroutines_apart h mine top home scripts sched i :
  tidy h -> apart (length scripts) h mine top home -> i < length scripts ->
  (forall j cs, nth_error scripts j = Some cs -> Forall (works_below (top j)) cs) ->
  let m := run (machine_of h scripts) sched in
  let alone := run (machine_of h scripts) (filter (Nat.eqb i) sched) in
  (forall rs, returned m i rs <-> returned alone i rs) /\ forall u, mine i u -> m_heap m u = m_heap alone u.
Proof. intros T A B W. exact (run_alone (length scripts) h mine top home T A scripts sched i eq_refl B W). Qed.

(* A file system with entries in its root, and nothing in them. *)
Definition base_heap (es : list (nat * id)) : heap := set (fun _ => None) root (Dir 0 es).
Definition two_homes : heap := set (set (base_heap [(7, (0, 1)); (8, (0, 2))]) (0, 1) (Dir 7 [])) (0, 2) (Dir 8 []).
Definition two_mine (i : nat) (u : id) : Prop := u = (0, S i) \/ fst u = S i.
Definition two_top (i : nat) : nat := 7 + i.
Definition two_home (i : nat) : id := (0, S i).

Ltac objects E d :=
  unfold two_homes, base_heap, set in E;
  repeat match type of E with
  | (if id_eqb d ?x then _ else _) = _ => let B := fresh "B" in destruct (id_eqb d x) eqn:B; [apply id_eqb_eq in B; subst d|]
  end; try discriminate.
Lemma two_homes_tidy : tidy two_homes.
Proof.
  intros d n es E. objects E d; apply some_inj in E; injection E as <- <-.
  - split; [constructor | intros c u []].
  - split; [constructor | intros c u []].
  - split.
    + cbn. repeat constructor; cbn; intuition discriminate.
    + intros c u [I|[I|[]]]; injection I as <- <-; right; eexists; reflexivity.
Qed.
Lemma two_homes_nobodys : nobodys two_homes.
Proof. intros i n. reflexivity. Qed.
Lemma two_homes_ok :
  let scripts := [[MkdirAll [7; 1]; Open ([7], 2) true true true; Rename ([7], 2) ([7; 1], 2); Remove ([7; 1], 2)];
                  [Open ([8], 2) true true true]] in
  tidy two_homes /\ apart (length scripts) two_homes two_mine two_top two_home /\
  forall j cs, nth_error scripts j = Some cs -> Forall (works_below (two_top j)) cs.
Proof.
  intros scripts. split; [exact two_homes_tidy|]. split; [split; [|split; [|split; [|split; [|split]]]]|].
  - intros i L. exists 0, [(7, (0, 1)); (8, (0, 2))]. split; [reflexivity|].
    destruct i as [|[|i]]; [left | right; left | cbn in L; lia]; reflexivity.
  - intros i _. left. reflexivity.
  - intros i _ [E|E]; discriminate.
  - intros i n _. right. reflexivity.
  - intros i j u _ _ [E|E] [F|F]; subst; cbn in *; congruence.
  - intros i d c u L M (n & es & E & I). objects E d; apply some_inj in E; injection E as <- <-; try (destruct I; fail);
      destruct M as [M|M]; discriminate.
  - intros [|[|j]] cs E; cbn in E; [apply some_inj in E; subst cs | apply some_inj in E; subst cs | destruct j; discriminate];
      repeat constructor.
Qed.

Definition result_of (m : machine) (i : nat) : option (list res) :=
  match nth_error (m_gors m) i with Some g => match g_proc g with Ret r => Some r | _ => None end | None => None end.
Lemma result_returned m i rs : result_of m i = Some rs -> returned m i rs.
Proof.
  unfold result_of, returned. destruct (nth_error (m_gors m) i) as [g|]; [|discriminate]. intros E. exists g. split; [reflexivity|].
  destruct (g_proc g); try discriminate. apply some_inj in E. subst. reflexivity.
Qed.
Ltac ran := apply result_returned; vm_compute; reflexivity.

Lemma kept_example :
  let scripts := [[MkdirAll [1; 2]; Open ([1], 3) true true true]; [Open ([], 4) true true true; Stat ([1; 2], 3); Stat ([], 1)]] in
  nobodys fresh /\ a_dir fresh root /\ own_names scripts /\ Forall (Forall only_makes) scripts /\
  exists sched, returned (run (machine_of fresh scripts) sched) 0 [Done; Got (1, 2)] /\
                returned (run (machine_of fresh scripts) sched) 1 [Got (2, 0); Fail ENoEnt; Got (1, 0)].
Proof.
  intros scripts. split; [apply fresh_ok|]. split; [exists 0, []; reflexivity|]. split; [|split].
  - intros i j cs cs' c c' a N E E' I I' M M'.
    assert (forall i, match i with 0 | 1 => True | _ => nth_error scripts i = None end) as D by (intros [|[|[|]]]; exact I || reflexivity).
    destruct i as [|[|i]]; [| |specialize (D (S (S i))); cbn in D, E; congruence];
    (destruct j as [|[|j]]; [| |specialize (D (S (S j))); cbn in D, E'; congruence]); try congruence;
    cbn in E, E'; apply some_inj in E; apply some_inj in E'; subst cs cs'; cbn in I, I';
    repeat match goal with H : _ \/ _ |- _ => destruct H as [<-|H] | H : False |- _ => destruct H end; cbn in M, M'; intuition congruence.
  - repeat constructor.
  - exists (flat_map (fun _ => [0; 1]) (repeat tt 20)). split; ran.
Qed.

Lemma exclusive_wrong : ~ exclusive.
Proof.
  intros H. apply (H ([], 1) [0; 1; 0; 0; 1; 1] (1, 0) (2, 0)); ran.
Qed.

Lemma keeps_wrong : ~ keeps.
Proof.
  intros H.
  specialize (H [[Mkdir ([], 1); Open ([1], 2) true true true]; [Mkdir ([], 1)]] [1; 0; 0; 0; 0; 0; 0; 0; 0; 1; 1] 0 _ [Done; Got (1, 1)]
    ltac:(repeat constructor) eq_refl).
  cbv zeta in H. specialize (H ltac:(ran)).
  inversion H as [|a b l l' _ H2 E1 E2]. subst. inversion H2 as [|a b l l' H3 _ E1 E2]. subst. cbn [holds fst snd app] in H3.
  destruct H3 as [(x & (n & es & E & I) & y & (n' & es' & E' & I') & _) _].
  vm_compute in E. apply some_inj in E. injection E as <- <-. destruct I as [I|[]]. injection I as <-.
  vm_compute in E'. apply some_inj in E'. injection E' as <- <-. destruct I'.
Qed.

Lemma removes_wrong : ~ removes_empty.
Proof.
  intros H.
  specialize (H two_homes 7 2 [1; 1; 1; 0; 0; 0; 1; 1; 0] (2, 0) two_homes_tidy two_homes_nobodys). cbv zeta in H.
  specialize (H ltac:(ran) ltac:(ran)). destruct H as (x & (n & es & E & I) & _).
  vm_compute in E. apply some_inj in E. injection E as <- <-. destruct I as [I|[]]. discriminate.
Qed.

Lemma lead_7 : leads two_homes root [7] (0, 1).
Proof. exists (0, 1). split; [|reflexivity]. exists 0, [(7, (0, 1)); (8, (0, 2))]. split; [reflexivity | left; reflexivity]. Qed.
Lemma lead_8 : leads two_homes root [8] (0, 2).
Proof. exists (0, 2). split; [|reflexivity]. exists 0, [(7, (0, 1)); (8, (0, 2))]. split; [reflexivity | right; left; reflexivity]. Qed.

Lemma renames_wrong : ~ renames_at_once.
Proof.
  intros H.
  destruct (H two_homes 7 8 [0; 0; 0; 0; 0; 1; 1; 1; 1; 0] (0, 1) (Fail ENoEnt) two_homes_tidy two_homes_nobodys lead_7 (ex_intro _ _ lead_8)) as [u E];
    [ran | ran | discriminate].
Qed.

Lemma two_homes_one : one_place two_homes.
Proof.
  intros d c d' c' u (n & es & E & I) (n' & es' & E' & I'). objects E d; apply some_inj in E; injection E as <- <-; try destruct I;
    objects E' d'; apply some_inj in E'; injection E' as <- <-; try (destruct I'; fail);
    repeat match goal with H : _ \/ _ |- _ => destruct H | H : In _ _ |- _ => destruct H | H : False |- _ => destruct H end; try congruence;
    split; congruence.
Qed.

(* A file and two directories. *)
Definition file_two_dirs : heap := set two_homes root (Dir 0 [(7, (0, 1)); (8, (0, 2)); (9, (0, 3))]).
Definition three : heap := set file_two_dirs (0, 3) (File 9).
Lemma three_ok : tidy three /\ nobodys three /\ one_place three.
Proof.
  split; [|split; [intros i n; reflexivity|]].
  - intros d n es E. unfold three, file_two_dirs in E. objects E d; try (apply some_inj in E; injection E as <- <-).
    + split.
      * cbn. repeat constructor; cbn; intuition discriminate.
      * intros c u [I|[I|[I|[]]]]; injection I as <- <-; [right; eexists; reflexivity | right; eexists; reflexivity | left; reflexivity].
    + split; [constructor | intros c u []].
    + split; [constructor | intros c u []].
  - intros d c d' c' u (n & es & E & I) (n' & es' & E' & I'). unfold three, file_two_dirs in E, E'.
    objects E d; apply some_inj in E; injection E as <- <-; try destruct I;
    objects E' d'; apply some_inj in E'; injection E' as <- <-; try (destruct I'; fail);
    repeat match goal with H : _ \/ _ |- _ => destruct H | H : In _ _ |- _ => destruct H | H : False |- _ => destruct H end; try congruence;
    split; congruence.
Qed.

Lemma one_place_wrong : ~ stays_in_one_place.
Proof.
  intros H. destruct three_ok as (T & N & O).
  specialize (H three [[Rename ([], 9) ([7], 9)]; [Rename ([], 9) ([8], 9)]] [0; 0; 0; 0; 1; 1; 1; 1; 0; 0; 1; 1] T N O).
  destruct (H (0, 1) 9 (0, 2) 9 (0, 3)) as [E _].
  - exists 7, [(9, (0, 3))]. split; [vm_compute; reflexivity | left; reflexivity].
  - exists 8, [(9, (0, 3))]. split; [vm_compute; reflexivity | left; reflexivity].
  - discriminate.
Qed.

Lemma cycle_wrong : ~ renames_lose_nothing.
Proof.
  intros H.
  specialize (H two_homes 7 8 [0; 0; 0; 0; 1; 1; 1; 1; 0; 0; 1; 1] (0, 1) (0, 2) two_homes_tidy two_homes_nobodys two_homes_one lead_7 lead_8).
  cbv zeta in H. destruct (H ltac:(ran) ltac:(ran)) as [[|c ps] P].
  - discriminate.
  - destruct P as (x & (n & es & E & I) & _). vm_compute in E. apply some_inj in E. injection E as <- <-. destruct I.
Qed.
