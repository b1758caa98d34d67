(* RemoveAll, OpenFile and MkdirAll from the caller's name. *)
From Verif Require Import Common CommonLemmas ContentRange_Model ContentRange_Proofs PathLex_Model PathLex_Proofs Sftp_Model Sftp_Spec Sftp_Proofs SftpRemove_Proofs.
Open Scope nat_scope.

Lemma base_proper base : rooted base = true -> Forall proper (clean_comps true (split_sep base)).
Proof.
  intros Hb. destruct (clean_normal base) as (k & l & E & H & K). rewrite Hb in *. rewrite (K eq_refl) in E. cbn in E. rewrite E. exact H.
Qed.
Lemma below_proper base l : rooted base = true -> l <> [] -> Forall proper l ->
  below_text base l = render true (clean_comps true (split_sep base) ++ l) /\ clean_comps true (split_sep base) ++ l <> [] /\ Forall proper (clean_comps true (split_sep base) ++ l).
Proof.
  intros Hb Hn Hl. split; [reflexivity|]. split; [|apply Forall_app; split; [apply base_proper; exact Hb|exact Hl]].
  intros E. apply app_eq_nil in E. apply Hn. apply E.
Qed.
Lemma call_cases ans hops fuel base name st st' x : rooted base = true -> remove_all_of ans hops fuel base name st = Some (st', x) ->
  (x = RmRefused /\ st' = st) \/
  (exists l r, l <> [] /\ Forall proper l /\ resolve_path base name = Some (below_text base l) /\ remove_all ans hops fuel st (below_text base l) = Some (st', r) /\ x = RmDone r).
Proof.
  intros Hb. unfold remove_all_of. destruct (ends_with_dot name); [intros E; left; split; congruence|].
  destruct (resolve_path base name) as [abs|] eqn:R; [|intros E; left; split; congruence].
  destruct (bytes_eqb abs base) eqn:B; [intros E; left; split; congruence|]. intros E. right.
  destruct (resolve_inside base name abs Hb R) as [-> | (l & Hn & Hl & ->)].
  - exfalso. assert (bytes_eqb base base = true) by (apply bytes_eqb_eq; reflexivity). congruence.
  - exists l. destruct (remove_all ans hops fuel st (below_text base l)) as [[s r]|]; [|discriminate]. exists r. split; [exact Hn|]. split; [exact Hl|]. split; [reflexivity|]. split; congruence.
Qed.
Lemma call_sent ans hops fuel base name st st' x : rooted base = true -> names_ok (r_fs st) -> remove_all_of ans hops fuel base name st = Some (st', x) ->
  exists more, r_sent st' = r_sent st ++ more /\ Forall (strictly_inside base) more.
Proof.
  intros Hb Ok E. destruct (call_cases _ _ _ _ _ _ _ _ Hb E) as [[_ ->] | (l & r & Hn & Hl & _ & E' & _)]; [exists []; rewrite app_nil_r; auto|].
  destruct (below_proper base l Hb Hn Hl) as (T & N & P). rewrite T in E'. apply remove_all_tame in E'; try assumption. destruct E' as (_ & _ & more & S & F).
  exists more. split; [exact S|]. eapply Forall_impl; [|exact F]. cbn. intros p (l' & Hl' & ->). exists (l ++ l'). split; [|split].
  - destruct l; [contradiction|discriminate].
  - apply Forall_app. auto.
  - unfold below_text. rewrite app_assoc. reflexivity.
Qed.
Lemma call_only ans hops fuel base name st st' x : rooted base = true -> names_ok (r_fs st) -> remove_all_of ans hops fuel base name st = Some (st', x) ->
  match resolve_path base name with
  | Some abs => only_removed (place_of hops (r_fs st) abs) (r_fs st) (r_fs st')
  | None => st' = st
  end.
Proof.
  intros Hb Ok E. destruct (call_cases _ _ _ _ _ _ _ _ Hb E) as [[_ ->] | (l & r & Hn & Hl & -> & E' & _)].
  - destruct (resolve_path base name); [apply only_refl|reflexivity].
  - destruct (below_proper base l Hb Hn Hl) as (T & N & P). rewrite T in *. rewrite (place_of_text hops _ _ N P). apply remove_all_tame in E'; try assumption. apply E'.
Qed.
Lemma call_refuses ans hops fuel base name st : rooted base = true ->
  ends_with_dot name = true \/ relative name = None \/ relative name = Some [] -> remove_all_of ans hops fuel base name st = Some (st, RmRefused).
Proof.
  intros Hb H. unfold remove_all_of. destruct (ends_with_dot name); [reflexivity|]. rewrite (resolve_exact base name Hb). destruct H as [H | [-> | ->]]; [discriminate|reflexivity|].
  assert (bytes_eqb base base = true) as -> by (apply bytes_eqb_eq; reflexivity). reflexivity.
Qed.
Lemma leads_spot hops fs base l p : rooted base = true -> l <> [] -> Forall proper l -> leads_to hops fs (below_text base l) p ->
  spot hops (prune fs p) (clean_comps true (split_sep base) ++ l) = WAt p.
Proof.
  intros Hb Hn Hl [_ H]. destruct (below_proper base l Hb Hn Hl) as (T & N & P). rewrite T, (place_of_text hops _ _ N P) in H. exact H.
Qed.
Lemma call_gone ans hops fuel base name abs st st' p : rooted base = true -> names_ok (r_fs st) -> well_formed (r_fs st) -> honest ans ->
  resolve_path base name = Some abs -> leads_to hops (r_fs st) abs p ->
  remove_all_of ans hops fuel base name st = Some (st', RmDone None) -> gone p (r_fs st').
Proof.
  intros Hb Ok W Hh R L E. destruct (call_cases _ _ _ _ _ _ _ _ Hb E) as [[D _] | (l & r & Hn & Hl & R' & E' & D)]; [discriminate|].
  assert (abs = below_text base l) as -> by congruence. assert (r = None) as -> by congruence. apply leads_spot in L; try assumption.
  destruct (below_proper base l Hb Hn Hl) as (T & N & P). rewrite T in E'. apply (remove_all_gone ans hops Hh fuel st _ st' p Ok W N P L E').
Qed.
Lemma call_served ans hops fuel base name abs st st' r p : rooted base = true -> names_ok (r_fs st) -> well_formed (r_fs st) -> (forall k, ans k = Serve) ->
  resolve_path base name = Some abs -> leads_to hops (r_fs st) abs p ->
  remove_all_of ans hops fuel base name st = Some (st', RmDone r) -> r = None /\ gone p (r_fs st').
Proof.
  intros Hb Ok W Hs R L E. assert (r = None) as ->.
  { destruct (call_cases _ _ _ _ _ _ _ _ Hb E) as [[D _] | (l & r' & Hn & Hl & R' & E' & D)]; [discriminate|].
    assert (abs = below_text base l) as -> by congruence. assert (r' = r) as -> by congruence. apply leads_spot in L; try assumption.
    destruct (below_proper base l Hb Hn Hl) as (T & N & P). rewrite T in E'. apply (remove_all_served ans hops Hs fuel st _ st' r p Ok W N P L E'). }
  split; [reflexivity|]. apply (call_gone ans hops fuel base name abs st st' p Hb Ok W (serves_honest ans Hs) R L E).
Qed.
Lemma call_ends ans hops fuel base name st : rooted base = true -> names_ok (r_fs st) -> height (r_fs st) + 1 < fuel ->
  exists x, remove_all_of ans hops fuel base name st = Some x.
Proof.
  intros Hb Ok F. unfold remove_all_of. destruct (ends_with_dot name); [eauto|]. destruct (resolve_path base name) as [abs|] eqn:R; [|eauto].
  destruct (bytes_eqb abs base) eqn:B; [eauto|]. destruct (resolve_inside base name abs Hb R) as [-> | (l & Hn & Hl & ->)].
  - exfalso. assert (bytes_eqb base base = true) by (apply bytes_eqb_eq; reflexivity). congruence.
  - destruct (below_proper base l Hb Hn Hl) as (T & N & P). rewrite T.
    destruct (remove_all_ends ans hops (height (r_fs st)) fuel st _ Ok (fun q n => height_ge (r_fs st) q n) N P) as [[s r] E]; [lia| |rewrite E; eauto].
    intros p Hp. pose proof (spot_nonempty _ _ _ _ Hp). destruct p; [contradiction|]. cbn. lia.
Qed.

(* base /b; l is a link to d/e/k and k, inside d/e, a link back to d: l/e is d/e, found through itself. *)
Definition nm (c : N) : list byte := [c].
Definition loop_base : list byte := [sep; 98%N].
Definition loop_fs : rfs :=
  [([nm 98], RDir 493); ([nm 98; nm 108], RLink [100; sep; 101; sep; 107]%N); ([nm 98; nm 100], RDir 493);
   ([nm 98; nm 100; nm 101], RDir 493); ([nm 98; nm 100; nm 101; nm 107], RLink [dot; dot]);
   ([nm 98; nm 100; nm 101; nm 102], RFile 420 [1%N])].
Definition ready (fs : rfs) : srv := {| r_fs := fs; r_tick := 0; r_sent := [] |}.
Lemma rget_not_none fs p : rget fs p <> None -> p = [] \/ In p (map fst fs).
Proof.
  intros H. destruct p as [|x p]; [left; reflexivity|right]. unfold rget in H. destruct (rfind fs (x :: p)) as [n|] eqn:E; [|contradiction].
  apply rfind_in in E. apply (in_map fst) in E. exact E.
Qed.
Definition parent_dirs (fs : rfs) : bool := forallb (fun e => match rget fs (removelast (fst e)) with Some (RDir _) => true | _ => false end) fs.
Lemma parent_dirs_wf fs : parent_dirs fs = true -> well_formed fs.
Proof.
  intros H q c G. destruct (rget_not_none _ _ G) as [E | E]; [exfalso; apply (snoc_not_nil q c E)|]. apply in_map_iff in E. destruct E as ([p n] & E1 & E2). cbn in E1. subst p.
  unfold parent_dirs in H. rewrite forallb_forall in H. specialize (H _ E2). cbn [fst] in H. rewrite removelast_last in H. destruct (rget fs q) as [[m|m d|t]|]; try discriminate. eauto.
Qed.
Lemma names_ok_by fs : forallb (fun e => forallb (fun c => negb (is_empty c || is_dot c || is_dotdot c) && forallb (fun b => negb (N.eqb b sep)) c) (fst e)) fs = true -> names_ok fs.
Proof.
  intros H. unfold names_ok. rewrite Forall_forall. intros e He. rewrite forallb_forall in H. specialize (H e He). rewrite Forall_forall. intros c Hc. rewrite forallb_forall in H. specialize (H c Hc).
  apply andb_true_iff in H. destruct H as [H1 H2]. split; [intros ->; discriminate|]. split; [intros ->; discriminate|]. split; [intros ->; discriminate|].
  intros Hs. rewrite forallb_forall in H2. specialize (H2 _ Hs). rewrite N.eqb_refl in H2. discriminate.
Qed.
Lemma loop_survives : exists fs base name abs st' p, names_ok fs /\ well_formed fs /\ rooted base = true /\ resolve_path base name = Some abs /\ place_of 40 fs abs = WAt p /\
  remove_all_of (fun _ => Serve) 40 (height fs + 2) base name (ready fs) = Some (st', RmDone None) /\ rget (r_fs st') p <> None.
Proof.
  exists loop_fs, loop_base, [108; sep; 101]%N. do 3 eexists. split; [apply names_ok_by; vm_compute; reflexivity|]. split; [apply parent_dirs_wf; vm_compute; reflexivity|].
  split; [reflexivity|]. split; [vm_compute; reflexivity|]. split; [vm_compute; reflexivity|]. split; [vm_compute; reflexivity|]. vm_compute. discriminate.
Qed.

(* ---- permissions ---- *)
Lemma rget_set fs p n q : p <> [] -> rget (rset fs p n) q = if place_eqb p q then Some n else rget fs q.
Proof.
  intros Np. unfold rset. destruct q as [|x q]; [destruct p; [contradiction|reflexivity]|]. cbn [rget rfind]. destruct (place_eqb p (x :: q)) eqn:E; [reflexivity|].
  pose proof (rget_del fs p (x :: q) Np) as D. rewrite E in D. exact D.
Qed.
Lemma set_same_but fs p n : p <> [] -> same_but p fs (rset fs p n).
Proof. intros Np q Hq. rewrite (rget_set _ _ _ _ Np), place_eqb_neq; [reflexivity|congruence]. Qed.
Lemma open_existing_mode hops fs base name abs p m d perm dflt excl : resolve_path base name = Some abs -> target_of hops fs abs = WAt p -> p <> [] -> rget fs p = Some (RFile m d) ->
  perm <> 0%N -> excl = false -> exists fs', open_file hops fs base name true excl perm dflt = Some fs' /\ rget fs' p = Some (RFile perm d) /\ same_but p fs fs'.
Proof.
  intros R T Np G Hp ->. unfold open_file. rewrite R. unfold do_open. rewrite T, G. cbn [andb]. apply N.eqb_neq in Hp. rewrite Hp. cbn [negb andb].
  unfold do_chmod. rewrite T, G. cbn [chmod_node]. eexists. split; [reflexivity|]. split; [rewrite (rget_set _ _ _ _ Np), place_eqb_refl; reflexivity|apply set_same_but; exact Np].
Qed.
Lemma open_existing_kept hops fs base name abs p n create excl perm dflt : resolve_path base name = Some abs -> target_of hops fs abs = WAt p -> rget fs p = Some n ->
  perm = 0%N \/ create = false -> open_file hops fs base name create excl perm dflt = if create && excl then None else Some fs.
Proof.
  intros R T G H. unfold open_file. rewrite R. unfold do_open. rewrite T, G. destruct (create && excl); [reflexivity|]. destruct H as [-> | ->]; cbn; [reflexivity|]. rewrite andb_false_r. reflexivity.
Qed.
Lemma follow_mono a b hops x : sub a b -> (forall t, rget b x <> Some (RLink t)) -> forall n p, follow n hops a p = WAt x -> follow n hops b p = WAt x.
Proof.
  intros S X n. induction n as [|n IH]; intros p E.
  - cbn [follow] in *. destruct (rget a p) as [[m|m d|t]|] eqn:G; try (rewrite (sub_some _ _ _ _ S G); exact E); try discriminate.
    assert (p = x) as -> by congruence. destruct (rget b x) as [[m|m d|t]|]; auto. exfalso. apply (X t). reflexivity.
  - cbn [follow] in *. destruct (rget a p) as [[m|m d|t]|] eqn:G; try (rewrite (sub_some _ _ _ _ S G); exact E).
    + rewrite (sub_some _ _ _ _ S G). cbv zeta in *. match type of E with context[walk hops a ?d ?k] => destruct (walk hops a d k) as [q| |] eqn:W; try discriminate end.
      apply (walk_mono _ _ S) in W. match goal with |- context[walk hops b ?d ?k] => replace (walk hops b d k) with (WAt q) by (symmetry; exact W) end. destruct (is_empty _ || is_dot _); [exact E|]. destruct (is_dotdot _); [exact E|]. apply IH. exact E.
    + assert (p = x) as -> by congruence. destruct (rget b x) as [[m|m d|t]|]; auto. exfalso. apply (X t). reflexivity.
Qed.
Lemma target_mono a b hops abs x : sub a b -> (forall t, rget b x <> Some (RLink t)) -> target_of hops a abs = WAt x -> target_of hops b abs = WAt x.
Proof.
  intros S X. unfold target_of, place_of. cbv zeta. destruct (is_empty _ || is_dot _ || is_dotdot _); [discriminate|].
  destruct (walk hops a [] (removelast (split_sep abs))) as [q| |] eqn:W; try discriminate. rewrite (walk_mono _ _ S _ _ _ _ W). apply (follow_mono _ _ _ _ S X).
Qed.
Lemma open_new_mode hops fs base name abs p perm dflt excl : resolve_path base name = Some abs -> target_of hops fs abs = WAt p -> p <> [] -> rget fs p = None -> perm <> 0%N ->
  exists fs', open_file hops fs base name true excl perm dflt = Some fs' /\ rget fs' p = Some (RFile perm []) /\ same_but p fs fs'.
Proof.
  intros R T Np G Hp. unfold open_file. rewrite R. unfold do_open. rewrite T, G. apply N.eqb_neq in Hp. rewrite Hp. cbn [negb andb].
  set (f1 := rset fs p (RFile dflt [])). assert (G1 : rget f1 p = Some (RFile dflt [])) by (unfold f1; rewrite (rget_set _ _ _ _ Np), place_eqb_refl; reflexivity).
  assert (T1 : target_of hops f1 abs = WAt p).
  { apply (target_mono fs f1); [|intros t; rewrite G1; discriminate|exact T]. intros q. unfold f1. rewrite (rget_set _ _ _ _ Np). destruct (place_eqb p q) eqn:Q; [|auto]. apply place_eqb_eq in Q. subst q. auto. }
  unfold do_chmod. rewrite T1, G1. cbn [chmod_node]. eexists. split; [reflexivity|]. split; [rewrite (rget_set _ _ _ _ Np), place_eqb_refl; reflexivity|].
  intros q Hq. rewrite (set_same_but f1 p _ Np q Hq). apply (set_same_but fs p _ Np q Hq).
Qed.
Lemma mkdir_all_mode hops fs base name abs p m perm : resolve_path base name = Some abs -> target_of hops fs abs = WAt p -> p <> [] -> rget fs p = Some (RDir m) -> perm <> 0%N ->
  exists fs', mkdir_all_there hops fs base name perm = Some fs' /\ rget fs' p = Some (RDir perm) /\ same_but p fs fs'.
Proof.
  intros R T Np G Hp. unfold mkdir_all_there. rewrite R, T, G. apply N.eqb_neq in Hp. rewrite Hp. cbn [negb]. unfold do_chmod. rewrite T, G. cbn [chmod_node].
  eexists. split; [reflexivity|]. split; [rewrite (rget_set _ _ _ _ Np), place_eqb_refl; reflexivity|apply set_same_but; exact Np].
Qed.
