From Verif Require Import Common CommonLemmas ContentRange_Model SftpErr_Model SftpErr_Spec.
Open Scope nat_scope.

(* ---- errors ---- *)
Lemma is_matches e t : is_sentinel e t = true <-> matches e t.
Proof.
  split.
  - induction e as [i|c m|e IH|a IHa b IHb]; cbn [is_sentinel]; intros H; [|discriminate| |].
    + apply Nat.eqb_eq in H. subst. constructor.
    + constructor. auto.
    + apply orb_true_iff in H as [H|H]; [apply m_left|apply m_right]; auto.
  - induction 1; cbn [is_sentinel]; [apply Nat.eqb_refl|assumption| |]; apply orb_true_iff; auto.
Qed.
Lemma as_none e : as_status e = None <-> unstated e.
Proof.
  split.
  - induction e as [i|c m|e IH|a IHa b IHb]; cbn [as_status]; intros H; [constructor|discriminate|constructor; auto|].
    destruct (as_status a); [discriminate|]. constructor; auto.
  - induction 1; cbn [as_status]; [reflexivity|assumption|]. rewrite IHunstated1. exact IHunstated2.
Qed.
Lemma as_some e c m : as_status e = Some (c, m) <-> first_status e c m.
Proof.
  split.
  - induction e as [i|c' m'|e IH|a IHa b IHb]; cbn [as_status]; intros H; [discriminate| |constructor; auto|].
    + injection H as -> ->. constructor.
    + destruct (as_status a) as [[c0 m0]|] eqn:Ea; [injection H as -> ->; apply f_left; auto|]. apply f_right; [apply as_none; exact Ea|auto].
  - induction 1; cbn [as_status]; [reflexivity|assumption|now rewrite IHfirst_status|]. apply as_none in H. now rewrite H.
Qed.

Lemma starts_iff p s : starts_with p s = true <-> exists b, s = p ++ b.
Proof.
  revert s. induction p as [|a p IH]; intros s; cbn [starts_with].
  - split; [intros _; exists s; reflexivity|reflexivity].
  - destruct s as [|b s]; [split; [discriminate|intros [x K]; discriminate]|].
    rewrite andb_true_iff, N.eqb_eq, IH. split.
    + intros [-> [x ->]]. exists x. reflexivity.
    + intros [x K]. cbn [app] in K. injection K as <- ->. split; [reflexivity|exists x; reflexivity].
Qed.
Lemma contains_iff s p : contains s p = true <-> within p s.
Proof.
  induction s as [|c s IH]; cbn [contains]; rewrite orb_true_iff, starts_iff.
  - split.
    + intros [[b E]|K]; [exists [], b; exact E|discriminate].
    + intros (a & b & E). left. destruct a; [exists b; exact E|discriminate].
  - rewrite IH. split.
    + intros [[b E]|(a & b & E)]; [exists [], b; exact E|]. exists (c :: a), b. cbn [app]. congruence.
    + intros (a & b & E). destruct a as [|x a]; [left; exists b; exact E|]. right. cbn [app] in E. injection E as <- ->. exists a, b. reflexivity.
Qed.
Lemma exists_iff s : contains s t_exists || contains s t_already = true <-> says_exists s.
Proof. rewrite orb_true_iff, !contains_iff. reflexivity. Qed.

Lemma map_exact e t : result_is (map_err e) t <->
  result_is e t \/ (t = s_exist /\ exists e0 m, e = Some e0 /\ first_status e0 fx_failure m /\ says_exists m).
Proof.
  destruct e as [e|]; cbn [map_err].
  2:{ split; [intros H; left; exact H|]. intros [H|(_ & e0 & m & K & _)]; [exact H|discriminate]. }
  assert (forall x, result_is (Some x) t <-> matches x t) as R.
  { intros x. split; [intros (y & E & M); injection E as <-; exact M|intros M; exists x; auto]. }
  assert (forall (P : Prop), (t = s_exist /\ (exists e0 m, Some e = Some e0 /\ first_status e0 fx_failure m /\ says_exists m) -> P) -> 
          (t = s_exist /\ (exists m, first_status e fx_failure m /\ says_exists m) -> P)) as W.
  { intros P HP (Ht & m & F & S). apply HP. split; [exact Ht|]. exists e, m. auto. }
  destruct (as_status e) as [[c m]|] eqn:E.
  - destruct (Nat.eqb_spec c fx_failure) as [->|Hc]; cbn [negb].
    + destruct (contains m t_exists || contains m t_already) eqn:Ec.
      * rewrite !R. split.
        -- intros K. inversion K as [| |a b t' Ka|a b t' Kb]; subst; [left; exact Ka|]. inversion Kb; subst. right. split; [reflexivity|].
           exists e, m. split; [reflexivity|]. split; [apply as_some; exact E|apply exists_iff; exact Ec].
        -- intros [K|(-> & _)]; [apply m_left; exact K|apply m_right; constructor].
      * rewrite R. split; [intros K; left; exact K|]. intros [K|(-> & e0 & m' & K & F & Sx)]; [exact K|]. injection K as <-.
        apply as_some in F. rewrite E in F. injection F as <-. apply exists_iff in Sx. congruence.
    + rewrite R. split; [intros K; left; exact K|]. intros [K|(-> & e0 & m' & K & F & Sx)]; [exact K|]. injection K as <-.
      apply as_some in F. rewrite E in F. congruence.
  - rewrite R. split; [intros K; left; exact K|]. intros [K|(-> & e0 & m' & K & F & Sx)]; [exact K|]. injection K as <-.
    apply as_some in F. congruence.
Qed.
Lemma map_nil e : map_err e = None <-> e = None.
Proof.
  destruct e as [e|]; cbn [map_err]; [|split; reflexivity]. split; [|discriminate].
  destruct (as_status e) as [[c m]|]; [|discriminate]. destruct (c =? fx_failure); cbn [negb]; [|discriminate].
  destruct (contains m t_exists || contains m t_already); discriminate.
Qed.

Lemma not_exist_exact e : is_not_exist e = true <->
  result_is e s_not_exist \/ exists e0 m, e = Some e0 /\ first_status e0 fx_no_such_file m.
Proof.
  destruct e as [e|]; cbn [is_not_exist].
  2:{ split; [discriminate|]. intros [(x & K & _)|(x & m & K & _)]; discriminate. }
  destruct (is_sentinel e s_not_exist) eqn:Es.
  - split; [intros _; left; exists e; split; [reflexivity|apply is_matches; exact Es]|reflexivity].
  - assert (~ result_is (Some e) s_not_exist) as Hn.
    { intros (x & E & M). injection E as <-. apply is_matches in M. congruence. }
    destruct (as_status e) as [[c m]|] eqn:E.
    + rewrite Nat.eqb_eq. split.
      * intros ->. right. exists e, m. split; [reflexivity|apply as_some; exact E].
      * intros [K|(x & m' & K & F)]; [contradiction|]. injection K as <-. apply as_some in F. rewrite E in F. congruence.
    + split; [discriminate|]. intros [K|(x & m' & K & F)]; [contradiction|]. injection K as <-. apply as_some in F. congruence.
Qed.

Lemma sync_exact e : (sync_err e = None <-> e = None \/ exists e0 m, e = Some e0 /\ first_status e0 fx_unsupported m) /\
  (sync_err e <> None -> sync_err e = e).
Proof.
  destruct e as [e|]; cbn [sync_err]; [|split; [tauto|congruence]].
  destruct (as_status e) as [[c m]|] eqn:E.
  - destruct (Nat.eqb_spec c fx_unsupported) as [->|Hc].
    + split; [|congruence]. split; [intros _; right; exists e, m; split; [reflexivity|apply as_some; exact E]|reflexivity].
    + split; [|reflexivity]. split; [discriminate|]. intros [K|(x & m' & K & F)]; [discriminate|]. injection K as <-. apply as_some in F. rewrite E in F. congruence.
  - split; [|reflexivity]. split; [discriminate|]. intros [K|(x & m' & K & F)]; [discriminate|]. injection K as <-. apply as_some in F. congruence.
Qed.

(* ---- texts ---- *)
Lemma prefix_cut p (c : N) w v b : ~ In c p -> w ++ c :: v = p ++ b -> exists b', w = p ++ b'.
Proof.
  revert w. induction p as [|z p IHp]; intros w Hc E; [exists w; reflexivity|].
  destruct w as [|w0 w]; cbn [app] in E.
  - injection E as -> _. exfalso. apply Hc. left; reflexivity.
  - injection E as -> E. destruct (IHp w (fun K => Hc (or_intror K)) E) as [b' ->]. exists b'. reflexivity.
Qed.
(* a byte the phrase does not have cuts the text in two *)
Lemma within_cut p c u v : p <> [] -> ~ In c p -> within p (u ++ c :: v) <-> within p u \/ within p v.
Proof.
  intros Hp Hc. split.
  - intros (a & b & E). revert a E. induction u as [|x u IH]; intros a E.
    + cbn [app] in E. destruct a as [|y a].
      * cbn [app] in E. destruct p as [|z p]; [congruence|]. cbn [app] in E. injection E as -> _. exfalso. apply Hc. left; reflexivity.
      * cbn [app] in E. injection E as _ ->. right. exists a, b. reflexivity.
    + destruct a as [|y a].
      * cbn [app] in E. left. exists []. apply (prefix_cut p c (x :: u) v b Hc) in E as [b' K]. exists b'. exact K.
      * cbn [app] in E. injection E as -> E. destruct (IH a E) as [(a' & b' & ->)|K]; [|right; exact K].
        left. exists (y :: a'), b'. reflexivity.
  - intros [(a & b & ->)|(a & b & ->)].
    + exists a, (b ++ c :: v). rewrite <- !app_assoc. reflexivity.
    + exists (u ++ c :: a), b. rewrite <- !app_assoc. reflexivity.
Qed.

Lemma says_cut c u v : ~ In c t_exists -> ~ In c t_already -> says_exists (u ++ c :: v) <-> says_exists u \/ says_exists v.
Proof.
  intros H1 H2. unfold says_exists. fold t_exists. fold t_already.
  rewrite (within_cut t_exists c u v) by (discriminate || assumption). rewrite (within_cut t_already c u v) by (discriminate || assumption). tauto.
Qed.
Lemma says_not s : contains s t_exists || contains s t_already = false -> ~ says_exists s.
Proof. intros H K. apply exists_iff in K. congruence. Qed.

Lemma status_says q op abs text r : q abs = 47%N :: r -> ~ says_exists op -> ~ says_exists (q abs) ->
  says_exists (status_text q op abs text) <-> says_exists text.
Proof.
  intros Hq Hop Hqa. unfold status_text.
  assert (forall c, In c [34; 47; 58]%N -> ~ In c t_exists /\ ~ In c t_already) as Hc.
  { intros c H. split; intros K; cbn in H, K; repeat (destruct H as [<-|H]; [repeat (destruct K as [K|K]; [discriminate|]); contradiction|]); contradiction. }
  assert (forall c u v, In c [34; 47; 58]%N -> says_exists (u ++ c :: v) <-> says_exists u \/ says_exists v) as C.
  { intros c u v H. destruct (Hc c H). now apply says_cut. }
  assert (In 34%N [34; 47; 58]%N) as I1 by (cbn; tauto). assert (In 47%N [34; 47; 58]%N) as I2 by (cbn; tauto). assert (In 58%N [34; 47; 58]%N) as I3 by (cbn; tauto).
  rewrite Hq in Hqa |- *.
  (* the text up to the slash, the path, the errno text, the rest *)
  match goal with |- says_exists ?x <-> _ => replace x with
    ([115; 102; 116; 112; 58; 32]%N ++ 34%N :: (op ++ [32]%N) ++ 47%N :: r ++ 58%N :: ([32]%N ++ text) ++ 34%N :: [32; 40; 83; 83; 72; 95; 70; 88; 95; 70; 65; 73; 76; 85; 82; 69; 41]%N)
    by (repeat (rewrite <- app_assoc || cbn [app]); reflexivity) end.
  rewrite (C 34%N [115; 102; 116; 112; 58; 32]%N _ I1), (C 47%N (op ++ [32]%N) _ I2), (C 58%N r _ I3), (C 34%N ([32]%N ++ text) _ I1).
  assert (~ says_exists [115; 102; 116; 112; 58; 32]%N) as N1 by (apply says_not; reflexivity).
  assert (~ says_exists [32; 40; 83; 83; 72; 95; 70; 88; 95; 70; 65; 73; 76; 85; 82; 69; 41]%N) as N2 by (apply says_not; reflexivity).
  assert (~ says_exists r) as N3.
  { intros K. apply Hqa. change (47%N :: r) with ([] ++ 47%N :: r). apply C; [assumption|]. right; exact K. }
  assert (~ says_exists (op ++ [32]%N)) as N4.
  { intros K. apply Hop. revert K. unfold says_exists. intros [(a & b & E)|(a & b & E)]; [left|right]; exists a;
    (destruct b as [|x b _] using rev_ind; [exfalso; rewrite app_nil_r in E; match type of E with _ = a ++ ?p => assert (last (a ++ p) 0%N = 32%N) as L by (rewrite <- E; apply last_last) end;
       match type of L with last (a ++ ?p) _ = _ => let p1 := eval cbv in (removelast p) in let l1 := eval cbv in (last p 0%N) in change p with (p1 ++ [l1]) in L; rewrite app_assoc, last_last in L; discriminate end|]);
    exists b; rewrite !app_assoc in E; apply app_inj_tail in E as [-> _]; rewrite <- app_assoc; reflexivity. }
  assert (says_exists ([32]%N ++ text) <-> says_exists text) as T.
  { split.
    - unfold says_exists. intros [(a & b & E)|(a & b & E)]; [left|right]; (destruct a as [|x a]; [discriminate|]); cbn [app] in E; injection E as _ ->; exists a, b; reflexivity.
    - unfold says_exists. intros [(a & b & ->)|(a & b & ->)]; [left|right]; exists (32%N :: a), b; reflexivity. }
  rewrite T. tauto.
Qed.

Lemma stock_exists q op abs n c r : q abs = 47%N :: r -> ~ says_exists op -> ~ says_exists (q abs) ->
  (forall text, n = Other text -> ~ says_exists text) -> In c [EMkdir; EOpenFile; ESymlink] ->
  (result_is (returned c (Some (stock q op abs n))) s_exist <-> n = Exist) /\
  (result_is (returned c (Some (stock q op abs n))) s_not_exist <-> n = NoEnt) /\
  (result_is (returned c (Some (stock q op abs n))) s_permission <-> n = NoPerm).
Proof.
  intros Hq Hop Hqa Ho Hc.
  assert (returned c (Some (stock q op abs n)) = map_err (Some (stock q op abs n))) as ->.
  { destruct Hc as [<-|[<-|[<-|[]]]]; reflexivity. }
  assert (forall t, result_is (Some (stock q op abs n)) t <-> matches (stock q op abs n) t) as R.
  { intros t. split; [intros (y & E & M); injection E as <-; exact M|intros M; eexists; eauto]. }
  rewrite !map_exact, !R.
  split; [|split].
  - split.
    + intros [K|(_ & e0 & m & E & F & Sx)].
      * destruct n; cbn [stock] in K; inversion K.
      * injection E as <-. destruct n as [| | |text]; cbn [stock] in F; inversion F; subst; [reflexivity|].
        apply (status_says q op abs text r) in Sx; [|assumption..]. exfalso. exact (Ho text eq_refl Sx).
    + intros ->. right. split; [reflexivity|]. do 2 eexists. split; [reflexivity|]. split; [constructor|].
      apply (status_says q op abs t_exists r); [assumption..|]. left. exists [], []. reflexivity.
  - split; [intros [K|(K & _)]; [|discriminate]; destruct n; cbn [stock] in K; inversion K; reflexivity|intros ->; left; constructor].
  - split; [intros [K|(K & _)]; [|discriminate]; destruct n; cbn [stock] in K; inversion K; reflexivity|intros ->; left; constructor].
Qed.

(* ---- listings ---- *)
Lemma all_handed_snoc {A} (log : list (nat * Z * dres A)) x : all_handed (log ++ [x]) = all_handed log ++ handed x.
Proof. unfold all_handed. rewrite map_app, concat_app. cbn. rewrite app_nil_r. reflexivity. Qed.

Lemma take_right {A} n (d : dirst A) d' r : take n d = (d', r) ->
  right_answer (d_entries d) n r /\ d_entries d = match r with DOk l => l | _ => [] end ++ d_entries d' /\
  d_loaded d' = d_loaded d /\ d_err d' = d_err d /\ d_asked d' = d_asked d /\ (forall e, r <> DErr e).
Proof.
  unfold take, right_answer. destruct (n <=? 0)%Z eqn:En.
  - intros H. injection H as <- <-. cbn. rewrite app_nil_r. repeat split; try reflexivity. discriminate.
  - apply Z.leb_gt in En. destruct (d_entries d) as [|x l] eqn:E.
    + intros H. injection H as <- <-. rewrite E. repeat split; try reflexivity. discriminate.
    + set (k := if (n >? Z.of_nat (length (x :: l)))%Z then length (x :: l) else Z.to_nat n).
      intros H. injection H as <- <-. cbn [d_entries d_loaded d_err d_asked].
      assert (0 < k <= length (x :: l) /\ (Z.of_nat k <= n)%Z /\ (k < length (x :: l) -> Z.of_nat k = n)) as (K1 & K2 & K3).
      { unfold k. destruct (Z.gtb_spec n (Z.of_nat (length (x :: l)))); cbn [length] in *; lia. }
      assert (length (firstn k (x :: l)) = k) as Hl by (apply firstn_length_le; lia).
      split; [|split; [symmetry; apply firstn_skipn|split; [reflexivity|split; [reflexivity|split; [reflexivity|discriminate]]]]].
      exists (firstn k (x :: l)), (skipn k (x :: l)). split; [reflexivity|]. split; [symmetry; apply firstn_skipn|].
      split; [intros K; rewrite K in Hl; cbn in Hl; lia|]. rewrite Hl. split; [exact K2|]. intros K. apply K3.
      destruct (Nat.eq_dec k (length (x :: l))) as [E'|]; [|lia]. exfalso. apply K. rewrite E'. apply skipn_all.
Qed.

Section run.
Context {A : Type}.
Variable srv : nat -> list A * option nat.
Variable calls : list (list Z).

Record dinv (m : mach A) : Prop := {
  dv_asked : d_asked (m_dir m) = if d_loaded (m_dir m) then 1 else 0;
  dv_fresh : d_loaded (m_dir m) = false -> m_log m = [] /\ (forall i g, nth_error (m_gors m) i = Some g -> g_half g = false);
  dv_err : d_loaded (m_dir m) = true -> d_err (m_dir m) = snd (srv 0);
  dv_half : forall e i g, snd (srv 0) = Some e -> nth_error (m_gors m) i = Some g -> g_half g = false;
  dv_fail : forall e x, snd (srv 0) = Some e -> In x (m_log m) -> snd x = DErr e;
  dv_all : snd (srv 0) = None -> d_loaded (m_dir m) = true -> fst (srv 0) = all_handed (m_log m) ++ d_entries (m_dir m);
  dv_right : snd (srv 0) = None -> forall pre i n r post, m_log m = pre ++ (i, n, r) :: post ->
      right_answer (skipn (length (all_handed pre)) (fst (srv 0))) n r;
  dv_calls : length (m_gors m) = length calls /\
     forall i l, nth_error calls i = Some l -> exists g, nth_error (m_gors m) i = Some g /\ l = ns_of i (m_log m) ++ g_todo g }.

Lemma replace_length {B} (l : list B) i x : length (replace l i x) = length l.
Proof. revert i. induction l as [|y l IH]; intros [|i]; cbn; auto. Qed.
Lemma replace_same {B} (l : list B) i x : i < length l -> nth_error (replace l i x) i = Some x.
Proof. revert i. induction l as [|y l IH]; intros [|i] H; cbn in *; try lia; [reflexivity|]. apply IH. lia. Qed.
Lemma replace_other {B} (l : list B) i j x : i <> j -> nth_error (replace l i x) j = nth_error l j.
Proof. revert i j. induction l as [|y l IH]; intros [|i] [|j] H; cbn; try reflexivity; try congruence. apply IH. congruence. Qed.

Lemma start_inv : dinv (dstart calls).
Proof.
  constructor; cbn; try reflexivity; try discriminate; try contradiction.
  - intros _. split; [reflexivity|]. intros i g H. rewrite nth_error_map in H. destruct (nth_error calls i); [|discriminate]. injection H as <-. reflexivity.
  - intros e i g _ H. rewrite nth_error_map in H. destruct (nth_error calls i); [|discriminate]. injection H as <-. reflexivity.
  - intros _ pre i n r post K. destruct pre; discriminate.
  - split; [apply map_length|]. intros i l H. exists {| g_todo := l; g_half := false |}. rewrite nth_error_map, H. split; reflexivity.
Qed.

Lemma ns_snoc i (log : list (nat * Z * dres A)) j n r : ns_of i ((log : list (nat * Z * dres A)) ++ [(j, n, r)]) = ns_of i log ++ if j =? i then [n] else [].
Proof. unfold ns_of. rewrite filter_app, map_app. cbn. destruct (j =? i); reflexivity. Qed.

Lemma half_kept gors i g0 g : (forall j g1, nth_error gors j = Some g1 -> g_half g1 = false) -> g_half g = false ->
  forall j, nth_error (replace gors i g) j = Some g0 -> g_half g0 = false.
Proof.
  intros H Hg j E. destruct (Nat.eq_dec i j) as [->|Hne].
  - destruct (lt_dec j (length gors)) as [Hl|Hl].
    + rewrite replace_same in E by exact Hl. injection E as <-. exact Hg.
    + assert (nth_error (replace gors j g) j = None) as K by (apply nth_error_None; rewrite replace_length; lia). congruence.
  - rewrite replace_other in E by exact Hne. exact (H _ _ E).
Qed.

(* the calls a goroutine has still to make, after it goes on *)
Lemma calls_on gors (log : list (nat * Z * dres A)) i n todo h : nth_error gors i = Some {| g_todo := n :: todo; g_half := h |} ->
  (length gors = length calls /\ forall j l, nth_error calls j = Some l -> exists g, nth_error gors j = Some g /\ l = ns_of j log ++ g_todo g) ->
  (forall r, length (replace gors i {| g_todo := todo; g_half := false |}) = length calls /\
     forall j l, nth_error calls j = Some l -> exists g, nth_error (replace gors i {| g_todo := todo; g_half := false |}) j = Some g /\ l = ns_of j (log ++ [(i, n, r)]) ++ g_todo g) /\
  (length (replace gors i {| g_todo := n :: todo; g_half := true |}) = length calls /\
     forall j l, nth_error calls j = Some l -> exists g, nth_error (replace gors i {| g_todo := n :: todo; g_half := true |}) j = Some g /\ l = ns_of j log ++ g_todo g).
Proof.
  intros Hi [Hlen Hc]. assert (i < length gors) as Hlt by (apply nth_error_Some; congruence).
  split.
  - intros r. split; [rewrite replace_length; exact Hlen|]. intros j l Hj. destruct (Hc j l Hj) as (g & Hg & El).
    rewrite ns_snoc. destruct (Nat.eq_dec i j) as [->|Hne].
    + rewrite replace_same by exact Hlt. eexists. split; [reflexivity|]. rewrite Hi in Hg. injection Hg as <-. cbn [g_todo] in *.
      rewrite Nat.eqb_refl, <- app_assoc. exact El.
    + rewrite replace_other by exact Hne. exists g. split; [exact Hg|]. destruct (Nat.eqb_spec i j); [congruence|]. rewrite app_nil_r. exact El.
  - split; [rewrite replace_length; exact Hlen|]. intros j l Hj. destruct (Hc j l Hj) as (g & Hg & El).
    destruct (Nat.eq_dec i j) as [->|Hne].
    + rewrite replace_same by exact Hlt. eexists. split; [reflexivity|]. rewrite Hi in Hg. injection Hg as <-. exact El.
    + rewrite replace_other by exact Hne. exists g. auto.
Qed.

Lemma snoc_split {B} (l : list B) x pre y post : l ++ [x] = pre ++ y :: post -> (exists post', post = post' ++ [x] /\ l = pre ++ y :: post') \/ (post = [] /\ pre = l /\ y = x).
Proof.
  intros E. destruct post as [|z post _] using rev_ind.
  - right. apply app_inj_tail in E as [-> ->]. auto.
  - left. exists post. split.
    + replace (pre ++ y :: post ++ [z]) with ((pre ++ y :: post) ++ [z]) in E by (rewrite <- app_assoc; reflexivity). apply app_inj_tail in E as [_ ->]. reflexivity.
    + replace (pre ++ y :: post ++ [z]) with ((pre ++ y :: post) ++ [z]) in E by (rewrite <- app_assoc; reflexivity). apply app_inj_tail in E as [-> _]. reflexivity.
Qed.

Lemma step_inv m i : dinv m -> dinv (dstep srv m i).
Proof.
  intros I. unfold dstep. destruct (nth_error (m_gors m) i) as [[[|n todo] half]|] eqn:Ei; try exact I.
  destruct half.
  - (* the second half *)
    assert (d_loaded (m_dir m) = true) as Hl.
    { destruct (d_loaded (m_dir m)) eqn:E; [reflexivity|]. pose proof (proj2 (dv_fresh m I E) i _ Ei) as K. discriminate K. }
    assert (snd (srv 0) = None) as Hs.
    { destruct (snd (srv 0)) as [e|] eqn:E; [|reflexivity]. pose proof (dv_half m I e i _ E Ei) as K. discriminate K. }
    destruct (take n (m_dir m)) as [d' r] eqn:Et. destruct (take_right _ _ _ _ Et) as (Hr & He & T1 & T2 & T3 & T4).
    pose proof (dv_all m I Hs Hl) as Hall.
    constructor; cbn [m_dir m_gors m_log].
    + rewrite T1, T3. apply (dv_asked m I).
    + rewrite T1, Hl. discriminate.
    + rewrite T1, T2. apply (dv_err m I).
    + intros e. rewrite Hs. discriminate.
    + intros e x. rewrite Hs. discriminate.
    + intros _ _. rewrite all_handed_snoc, <- app_assoc. unfold handed at 1. cbn [snd]. rewrite <- He. exact Hall.
    + intros _ pre j n' r' post E. apply snoc_split in E as [(post' & -> & E)|(-> & -> & E)].
      * exact (dv_right m I Hs _ _ _ _ _ E).
      * injection E as -> -> ->. rewrite Hall, skipn_app, skipn_all, Nat.sub_diag. exact Hr.
    + apply (calls_on _ _ _ _ _ _ Ei (dv_calls m I)).
  - (* the first half *)
    unfold load. destruct (d_loaded (m_dir m)) eqn:El.
    + destruct (d_err (m_dir m)) as [e|] eqn:Ee.
      * assert (snd (srv 0) = Some e) as Hs by (rewrite <- (dv_err m I El); exact Ee).
        constructor; cbn [m_dir m_gors m_log].
        -- rewrite El. rewrite (dv_asked m I), El. reflexivity.
        -- rewrite El. discriminate.
        -- intros _. congruence.
        -- intros e' j g E. apply half_kept; [|reflexivity]. intros k g1. apply (dv_half m I e' k g1 E).
        -- intros e' x E Hin. apply in_app_or in Hin as [Hin|[<-|[]]]; [exact (dv_fail m I e' x E Hin)|]. cbn. congruence.
        -- rewrite Hs. discriminate.
        -- rewrite Hs. discriminate.
        -- apply (calls_on _ _ _ _ _ _ Ei (dv_calls m I)).
      * assert (snd (srv 0) = None) as Hs by (rewrite <- (dv_err m I El); exact Ee).
        constructor; cbn [m_dir m_gors m_log].
        -- apply (dv_asked m I).
        -- rewrite El. discriminate.
        -- apply (dv_err m I).
        -- rewrite Hs. discriminate.
        -- rewrite Hs. discriminate.
        -- apply (dv_all m I).
        -- apply (dv_right m I).
        -- apply (calls_on _ _ _ _ _ _ Ei (dv_calls m I)).
    + pose proof (dv_asked m I) as Ha. rewrite El in Ha. rewrite Ha. destruct (dv_fresh m I El) as [Hlog Hh].
      destruct (srv 0) as [l [e|]] eqn:Es.
      * constructor; cbn [m_dir m_gors m_log d_loaded d_err d_asked d_entries]; rewrite ?Es; cbn [fst snd]; try reflexivity; try discriminate.
        -- intros e' j g E. apply half_kept; [exact Hh|reflexivity].
        -- intros e' x E Hin. rewrite Hlog in Hin. destruct Hin as [<-|[]]. cbn. congruence.
        -- apply (calls_on _ _ _ _ _ _ Ei (dv_calls m I)).
      * constructor; cbn [m_dir m_gors m_log d_loaded d_err d_asked d_entries]; rewrite ?Es; cbn [fst snd]; try reflexivity; try discriminate.
        -- intros _ _. rewrite Hlog. reflexivity.
        -- intros _ pre j n' r' post E. rewrite Hlog in E. destruct pre; discriminate.
        -- apply (calls_on _ _ _ _ _ _ Ei (dv_calls m I)).
Qed.

Lemma run_inv sched : dinv (drun srv (dstart calls) sched).
Proof.
  unfold drun. assert (forall m, dinv m -> dinv (fold_left (dstep srv) sched m)) as G.
  { induction sched as [|i sched IH]; intros m Hm; [exact Hm|]. cbn [fold_left]. apply IH, step_inv, Hm. }
  apply G, start_inv.
Qed.
End run.

Lemma listing_served {A} (srv : nat -> list A * option nat) calls sched l : srv 0 = (l, None) ->
  let m := drun srv (dstart calls) sched in
  d_asked (m_dir m) <= 1 /\ (exists rest, l = all_handed (m_log m) ++ rest) /\
  (forall pre i n r post, m_log m = pre ++ (i, n, r) :: post -> right_answer (skipn (length (all_handed pre)) l) n r) /\
  (forall i ns, nth_error calls i = Some ns -> exists g, nth_error (m_gors m) i = Some g /\ ns = ns_of i (m_log m) ++ g_todo g).
Proof.
  intros E. cbn zeta. pose proof (run_inv srv calls sched) as I. set (m := drun srv (dstart calls) sched) in *.
  split; [rewrite (dv_asked _ _ _ I); destruct (d_loaded (m_dir m)); lia|].
  split.
  - destruct (d_loaded (m_dir m)) eqn:El.
    + exists (d_entries (m_dir m)). pose proof (dv_all _ _ _ I) as K. rewrite E in K. exact (K eq_refl El).
    + destruct (dv_fresh _ _ _ I El) as [-> _]. exists l. reflexivity.
  - split; [|exact (proj2 (dv_calls _ _ _ I))]. pose proof (dv_right _ _ _ I) as K. rewrite E in K. exact (K eq_refl).
Qed.
Lemma listing_failed {A} (srv : nat -> list A * option nat) calls sched l e : srv 0 = (l, Some e) ->
  let m := drun srv (dstart calls) sched in d_asked (m_dir m) <= 1 /\ forall x, In x (m_log m) -> snd x = DErr e.
Proof.
  intros E. cbn zeta. pose proof (run_inv srv calls sched) as I. set (m := drun srv (dstart calls) sched) in *.
  split; [rewrite (dv_asked _ _ _ I); destruct (d_loaded (m_dir m)); lia|]. intros x. pose proof (dv_fail _ _ _ I e x) as K. rewrite E in K. exact (K eq_refl).
Qed.
