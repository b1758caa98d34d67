(* RemoveAll over SFTP: it ends, and what success means. *)
From Verif Require Import Common CommonLemmas ContentRange_Model ContentRange_Proofs PathLex_Model PathLex_Proofs Sftp_Model Sftp_Spec Sftp_Proofs.
Open Scope nat_scope.

(* removeAll past its first request. *)
Definition rest_of (ans : nat -> answer) (hops fuel : nat) (st1 : srv) (err : serr) (abs : list byte) : option (srv * option serr) :=
  let '(st2, l0) := req_lstat ans hops st1 abs in
  match l0 with
  | inr ENoent => Some (st2, None) | inr lerr => Some (st2, Some lerr) | inl false => Some (st2, Some err)
  | inl true =>
      let '(st3, (entries, first)) := req_readdir ans hops st2 abs in
      match first with
      | Some ENoent => Some (st3, None)
      | _ => match each (remove_all ans hops fuel) abs entries st3 first with
             | None => None
             | Some (st4, first) => let '(st5, r) := req_remove ans hops st4 abs in
                 Some (st5, match r with Some (EFail c) => first_of first (Some (EFail c)) | _ => first end)
             end
      end
  end.
Lemma remove_all_eq ans hops fuel st abs : remove_all ans hops (S fuel) st abs =
  let '(st1, r) := req_remove ans hops st abs in
  match r with None | Some ENoent => Some (st1, None) | Some err => rest_of ans hops fuel st1 err abs end.
Proof. cbn [remove_all]. destruct (req_remove ans hops st abs) as [st1 [[|c]|]]; reflexivity. Qed.

(* ---- it ends ---- *)
Lemma height_ge fs q n : In (q, n) fs -> length q <= height fs.
Proof.
  induction fs as [|[p m] fs IH]; [intros []|]. unfold height in *. cbn [fold_right fst]. intros [E | H]; [assert (p = q) as -> by congruence; lia|]. specialize (IH H). lia.
Qed.
Definition bounded (k : nat) (fs : rfs) : Prop := forall q n, In (q, n) fs -> length q <= k.
Lemma rget_in fs p n : p <> [] -> rget fs p = Some n -> In (p, n) fs.
Proof. destruct p as [|x p]; [contradiction|]. intros _. apply rfind_in. Qed.

Lemma each_ends ans hops fuel k l p : l <> [] -> Forall proper l ->
  (forall st e, names_ok (r_fs st) -> bounded k (r_fs st) -> proper e -> (forall p', spot hops (r_fs st) (l ++ [e]) = WAt p' -> k + 2 <= fuel + length p') ->
     exists x, remove_all ans hops fuel st (render true (l ++ [e])) = Some x) ->
  forall es st first, names_ok (r_fs st) -> bounded k (r_fs st) -> Forall proper es -> (forall d, walk hops (r_fs st) [] l = WAt d -> d = p) -> k + 2 <= fuel + S (length p) ->
    exists x, each (remove_all ans hops fuel) (render true l) es st first = Some x.
Proof.
  intros Hn Hl F. induction es as [|e es IH]; intros st first Ok B He W K; cbn [each]; [eauto|].
  rewrite text_child by exact Hn. inversion He as [|? ? He1 He2]; subst.
  destruct (F st e Ok B He1) as [[st1 r1] E1].
  { intros p' Ep. rewrite spot_child in Ep. destruct (walk hops (r_fs st) [] l) as [d| |] eqn:Ew; try discriminate.
    assert (p' = d ++ [e]) as -> by congruence. rewrite (W d eq_refl), app_length. cbn. lia. }
  rewrite E1. apply remove_all_tame in E1; [|exact Ok|apply snoc_not_nil|apply Forall_app; auto]. destruct E1 as (O & I & _). apply IH; [apply (incl_ok _ _ I Ok)| |exact He2| |exact K].
  - intros q n H. apply (B q n), I, H.
  - intros d Hd. apply W. apply (walk_mono _ _ (only_sub _ _ _ O) _ _ _ _ Hd).
Qed.
Lemma remove_all_ends ans hops k : forall fuel st l, names_ok (r_fs st) -> bounded k (r_fs st) -> l <> [] -> Forall proper l ->
  0 < fuel -> (forall p, spot hops (r_fs st) l = WAt p -> k + 2 <= fuel + length p) -> exists x, remove_all ans hops fuel st (render true l) = Some x.
Proof.
  induction fuel as [|fuel IH]; intros st l Ok B Hn Hl F K; [lia|]. rewrite remove_all_eq.
  pose proof (req_remove_tame ans hops st l Hn Hl) as T1. destruct (req_remove ans hops st (render true l)) as [st1 r1]. cbn [fst] in T1.
  destruct r1 as [[|c]|]; [eauto| |eauto]. destruct T1 as (O1 & I1 & _).
  assert (Ok1 : names_ok (r_fs st1)) by apply (incl_ok _ _ I1 Ok).
  unfold rest_of. pose proof (lstat_dir ans hops st1 l) as LD. assert (S2 : fst (req_lstat ans hops st1 (render true l)) = sent st1 (render true l)) by reflexivity.
  destruct (req_lstat ans hops st1 (render true l)) as [st2 l0]. cbn [fst] in S2. subst st2.
  destruct l0 as [[]|[]]; try (eexists; reflexivity). destruct (LD _ Hn Hl eq_refl) as (p & m & Sp & G & _).
  destruct (req_readdir ans hops (sent st1 (render true l)) (render true l)) as [st3 [es first]] eqn:R.
  apply readdir_proper in R; [|exact Ok1]. destruct R as [Hes ->].
  pose proof (spot_mono _ _ _ _ _ (only_sub _ _ _ O1) Sp) as Sp0. specialize (K p Sp0).
  pose proof (rget_in _ _ _ (spot_nonempty _ _ _ _ Sp) G) as Hin. apply I1 in Hin. apply B in Hin.
  assert (E : exists x, each (remove_all ans hops fuel) (render true l) es (sent (sent st1 (render true l)) (render true l)) first = Some x).
  { apply (each_ends ans hops fuel k l p Hn Hl); try assumption.
    - intros s e Ok' B' He K'. apply IH; try assumption; [apply snoc_not_nil|apply Forall_app; auto|]. lia.
    - intros q n H. apply (B q n), I1, H.
    - intros d Hd. rewrite (spot_walk hops _ l p m Hn Hl Sp G : walk hops (r_fs (sent (sent st1 (render true l)) (render true l))) [] l = WAt p) in Hd. congruence.
    - lia. }
  destruct E as [[st4 first4] E]. rewrite E. destruct first as [[|c']|]; [eauto| |]; destruct (req_remove ans hops st4 (render true l)); eauto.
Qed.

(* ---- what success means ---- *)
Lemma wf_gone fs p : well_formed fs -> rget fs p = None -> gone p fs.
Proof.
  intros W N l. induction l as [|c l IH] using rev_ind; [rewrite app_nil_r; exact N|]. rewrite app_assoc.
  destruct (rget fs ((p ++ l) ++ [c])) eqn:E; [|reflexivity]. destruct (W (p ++ l) c) as [m H]; [congruence|]. congruence.
Qed.
Lemma del_wf fs p : p <> [] -> well_formed fs -> (forall c, rget fs (p ++ [c]) = None) -> well_formed (rdel fs p).
Proof.
  intros Np W L q c. rewrite !(rget_del fs p) by exact Np. destruct (place_eqb p (q ++ [c])); [congruence|]. intros H. destruct (W q c H) as [m E].
  destruct (place_eqb p q) eqn:Q; [|eauto]. apply place_eqb_eq in Q. subst q. rewrite L in H. contradiction.
Qed.
Lemma rlist_nil fs p : rlist fs p = [] -> forall c, rget fs (p ++ [c]) = None.
Proof. intros E c. destruct (rget fs (p ++ [c])) eqn:G; [|reflexivity]. exfalso. assert (H : In c (rlist fs p)) by (apply rlist_iff; congruence). rewrite E in H. exact H. Qed.
Lemma del_gone fs p : p <> [] -> well_formed fs -> (forall c, rget fs (p ++ [c]) = None) -> well_formed (rdel fs p) /\ gone p (rdel fs p).
Proof.
  intros Np W L. pose proof (del_wf fs p Np W L) as W'. split; [exact W'|]. apply (wf_gone _ _ W'). rewrite (rget_del _ _ _ Np), place_eqb_refl. reflexivity.
Qed.
Lemma leaf_kids fs p n : well_formed fs -> rget fs p = Some n -> (forall m, n <> RDir m) -> forall c, rget fs (p ++ [c]) = None.
Proof. intros W G N c. destruct (rget fs (p ++ [c])) eqn:E; [|reflexivity]. destruct (W p c) as [m H]; [congruence|]. exfalso. apply (N m). congruence. Qed.
Lemma do_remove_wf hops fs l : l <> [] -> Forall proper l -> well_formed fs -> well_formed (fst (do_remove hops fs (render true l))).
Proof.
  intros Hn Hl W. unfold do_remove. rewrite (place_of_text hops fs l Hn Hl). destruct (spot hops fs l) as [p| |] eqn:E; try exact W.
  pose proof (spot_nonempty _ _ _ _ E) as Np. destruct (rget fs p) as [[m|m d|t]|] eqn:G; try exact W.
  - destruct (rlist fs p) eqn:L; [|exact W]. apply del_wf; [exact Np|exact W|apply rlist_nil; exact L].
  - apply del_wf; [exact Np|exact W|]. apply (leaf_kids fs p _ W G). discriminate.
  - apply del_wf; [exact Np|exact W|]. apply (leaf_kids fs p _ W G). discriminate.
Qed.
Lemma do_remove_gone hops fs l p : l <> [] -> Forall proper l -> well_formed fs -> spot hops fs l = WAt p ->
  (snd (do_remove hops fs (render true l)) = None \/ snd (do_remove hops fs (render true l)) = Some ENoent) -> gone p (fst (do_remove hops fs (render true l))).
Proof.
  intros Hn Hl W E. unfold do_remove. rewrite (place_of_text hops fs l Hn Hl), E. pose proof (spot_nonempty _ _ _ _ E) as Np.
  destruct (rget fs p) as [[m|m d|t]|] eqn:G.
  - destruct (rlist fs p) eqn:L; cbn; [|intros [H | H]; discriminate]. intros _. apply del_gone; [exact Np|exact W|apply rlist_nil; exact L].
  - intros _. apply del_gone; [exact Np|exact W|]. apply (leaf_kids fs p _ W G). discriminate.
  - intros _. apply del_gone; [exact Np|exact W|]. apply (leaf_kids fs p _ W G). discriminate.
  - intros _. apply (wf_gone _ _ W G).
Qed.
Section honest_server.
Variable ans : nat -> answer.
Variable hops : nat.
Hypothesis fair : honest ans.
Lemma fair_noent k : match ans k with Serve => True | Refuse e | Late e _ => is_noent e = false end.
Proof. pose proof (fair k) as H. destruct (ans k) as [|e|e n]; [exact I| |]; (destruct e; [now destruct H|reflexivity]). Qed.

Lemma req_remove_wf st l : l <> [] -> Forall proper l -> well_formed (r_fs st) -> well_formed (r_fs (fst (req_remove ans hops st (render true l)))).
Proof.
  intros Hn Hl W. pose proof (do_remove_wf hops (r_fs st) l Hn Hl W) as H. unfold req_remove. destruct (ans (r_tick st)).
  - destruct (do_remove hops (r_fs st) (render true l)). exact H.
  - exact W.
  - exact H.
Qed.
Lemma req_remove_gone st l p : l <> [] -> Forall proper l -> well_formed (r_fs st) -> spot hops (r_fs st) l = WAt p ->
  (snd (req_remove ans hops st (render true l)) = None \/ snd (req_remove ans hops st (render true l)) = Some ENoent) -> gone p (r_fs (fst (req_remove ans hops st (render true l)))).
Proof.
  intros Hn Hl W E. pose proof (do_remove_gone hops (r_fs st) l p Hn Hl W E) as H. pose proof (fair_noent (r_tick st)) as A. unfold req_remove. destruct (ans (r_tick st)) as [|e|e k].
  - destruct (do_remove hops (r_fs st) (render true l)) as [fs r]. exact H.
  - cbn. intros [H1 | H1]; [discriminate|]. assert (e = ENoent) as -> by congruence. discriminate.
  - cbn. intros [H1 | H1]; [discriminate|]. assert (e = ENoent) as -> by congruence. discriminate.
Qed.
Lemma each_wf f l : l <> [] -> Forall proper l ->
  (forall st e st' r, names_ok (r_fs st) -> well_formed (r_fs st) -> proper e -> f st (render true (l ++ [e])) = Some (st', r) -> names_ok (r_fs st') /\ well_formed (r_fs st')) ->
  forall es st first st' r, names_ok (r_fs st) -> well_formed (r_fs st) -> Forall proper es -> each f (render true l) es st first = Some (st', r) -> well_formed (r_fs st').
Proof.
  intros Hn Hl F. induction es as [|e es IH]; intros st first st' r Ok W He E; cbn [each] in E; [replace st' with st by congruence; exact W|].
  rewrite text_child in E by exact Hn. inversion He as [|? ? He1 He2]; subst. destruct (f st (render true (l ++ [e]))) as [[st1 r1]|] eqn:E1; [|discriminate].
  destruct (F _ _ _ _ Ok W He1 E1) as [Ok1 W1]. apply (IH _ _ _ _ Ok1 W1 He2 E).
Qed.
Lemma remove_all_wf fuel : forall st l st' r, names_ok (r_fs st) -> well_formed (r_fs st) -> l <> [] -> Forall proper l ->
  remove_all ans hops fuel st (render true l) = Some (st', r) -> well_formed (r_fs st').
Proof.
  induction fuel as [|fuel IH]; intros st l st' r Ok W Hn Hl E; [discriminate|]. rewrite remove_all_eq in E.
  pose proof (req_remove_tame ans hops st l Hn Hl) as T1. pose proof (req_remove_wf st l Hn Hl W) as W1.
  destruct (req_remove ans hops st (render true l)) as [st1 r1]. cbn [fst] in T1, W1.
  assert (Ok1 : names_ok (r_fs st1)) by (destruct T1 as (_ & I & _); apply (incl_ok _ _ I Ok)).
  destruct r1 as [[|c]|]; [replace st' with st1 by congruence; exact W1| |replace st' with st1 by congruence; exact W1]. unfold rest_of in E.
  assert (S2 : fst (req_lstat ans hops st1 (render true l)) = sent st1 (render true l)) by reflexivity.
  destruct (req_lstat ans hops st1 (render true l)) as [st2 l0]. cbn [fst] in S2. subst st2.
  destruct l0 as [[]|[]]; try (replace st' with (sent st1 (render true l)) by congruence; exact W1).
  destruct (req_readdir ans hops (sent st1 (render true l)) (render true l)) as [st3 [es first]] eqn:R.
  apply readdir_proper in R; [|exact Ok1]. destruct R as [Hes ->]. set (st3 := sent (sent st1 (render true l)) (render true l)) in *.
  destruct (each (remove_all ans hops fuel) (render true l) es st3 first) as [[st4 first4]|] eqn:Ea.
  - assert (W4 : well_formed (r_fs st4)).
    { apply (each_wf (remove_all ans hops fuel) l Hn Hl) with (es := es) (st := st3) (first := first) (r := first4); try assumption.
      intros s e s' r' Ok' W' He E'. split.
      - apply remove_all_tame in E'; [|exact Ok'|apply snoc_not_nil|apply Forall_app; auto]. destruct E' as (_ & I & _). apply (incl_ok _ _ I Ok').
      - apply (IH _ _ _ _ Ok' W' (snoc_not_nil l e) (proj2 (Forall_app _ _ _) (conj Hl (Forall_cons _ He (Forall_nil _)))) E'). }
    pose proof (req_remove_wf st4 l Hn Hl W4) as W5. destruct (req_remove ans hops st4 (render true l)) as [st5 r5]. cbn [fst] in W5.
    destruct first as [[|c']|]; [replace st' with st3 by congruence; exact W1| |]; (replace st' with st5 by congruence; exact W5).
  - destruct first as [[|c']|]; [replace st' with st3 by congruence; exact W1|discriminate|discriminate].
Qed.
(* The subtree at p is not needed to find p. *)
Lemma sub_prune fs p : p <> [] -> sub (prune fs p) fs.
Proof. intros Np q. rewrite (rget_prune _ _ _ Np). destruct (prefixb p q); auto. Qed.
Lemma still_leads a b l p : p <> [] -> only_removed (WAt p) a b -> spot hops (prune a p) l = WAt p -> spot hops b l = WAt p.
Proof.
  intros Np O. apply spot_mono. intros q. rewrite (rget_prune _ _ _ Np). destruct (prefixb p q) eqn:P; [auto|]. left.
  destruct (O q) as [-> | (_ & p' & Ep & B)]; [reflexivity|]. assert (p' = p) as -> by congruence. apply prefixb_iff in B. congruence.
Qed.
Lemma lstat_noent st l p : l <> [] -> Forall proper l -> spot hops (r_fs st) l = WAt p -> snd (req_lstat ans hops st (render true l)) = inr ENoent -> rget (r_fs st) p = None.
Proof.
  intros Hn Hl Sp. pose proof (fair_noent (r_tick st)) as A. unfold req_lstat. rewrite (place_of_text hops _ l Hn Hl), Sp. cbn [snd]. destruct (ans (r_tick st)) as [|e|e k].
  - destruct (rget (r_fs st) p) as [[m|m d|t]|]; [discriminate..|reflexivity].
  - intros H. assert (e = ENoent) as -> by congruence. discriminate.
  - intros H. assert (e = ENoent) as -> by congruence. discriminate.
Qed.
Lemma list_dir fs l p m : l <> [] -> Forall proper l -> spot hops fs l = WAt p -> rget fs p = Some (RDir m) -> do_list hops fs (render true l) = (rlist fs p, None).
Proof.
  intros Hn Hl Sp G. unfold do_list, target_of. rewrite (place_of_text hops fs l Hn Hl), Sp.
  assert (follow hops hops fs p = WAt p) as -> by (destruct hops; cbn [follow]; rewrite G; reflexivity). rewrite G. reflexivity.
Qed.
Lemma readdir_noent st l p m : l <> [] -> Forall proper l -> spot hops (r_fs st) l = WAt p -> rget (r_fs st) p = Some (RDir m) -> snd (snd (req_readdir ans hops st (render true l))) <> Some ENoent.
Proof.
  intros Hn Hl Sp G. pose proof (fair_noent (r_tick st)) as A. unfold req_readdir. rewrite (list_dir _ _ _ _ Hn Hl Sp G). cbn [snd]. destruct (ans (r_tick st)) as [|e|e k]; cbn.
  - discriminate.
  - intros H. assert (e = ENoent) as -> by congruence. discriminate.
  - intros H. assert (e = ENoent) as -> by congruence. discriminate.
Qed.
Lemma remove_all_gone fuel st l st' p : names_ok (r_fs st) -> well_formed (r_fs st) -> l <> [] -> Forall proper l ->
  spot hops (prune (r_fs st) p) l = WAt p -> remove_all ans hops fuel st (render true l) = Some (st', None) -> gone p (r_fs st').
Proof.
  intros Ok W Hn Hl Sp E. pose proof (spot_nonempty _ _ _ _ Sp) as Np.
  pose proof (spot_mono _ _ _ _ _ (sub_prune (r_fs st) p Np) Sp) as Sp0. destruct fuel as [|fuel]; [discriminate|].
  rewrite remove_all_eq in E. pose proof (req_remove_tame ans hops st l Hn Hl) as T1. pose proof (req_remove_wf st l Hn Hl W) as W1. pose proof (req_remove_gone st l p Hn Hl W Sp0) as G1.
  destruct (req_remove ans hops st (render true l)) as [st1 r1]. cbn [fst snd] in T1, W1, G1. destruct T1 as (O1 & I1 & _). rewrite Sp0 in O1.
  destruct r1 as [[|c]|]; [replace st' with st1 by congruence; apply G1; auto| |replace st' with st1 by congruence; apply G1; auto]. clear G1.
  pose proof (incl_ok _ _ I1 Ok) as Ok1. pose proof (still_leads _ _ _ _ Np O1 Sp) as Sp1. unfold rest_of in E.
  pose proof (lstat_noent st1 l p Hn Hl Sp1) as LN. pose proof (lstat_dir ans hops st1 l) as LD.
  assert (S2 : fst (req_lstat ans hops st1 (render true l)) = sent st1 (render true l)) by reflexivity.
  destruct (req_lstat ans hops st1 (render true l)) as [st2 l0]. cbn [fst snd] in S2, LN. subst st2.
  destruct l0 as [[]|[]]; [|discriminate|replace st' with (sent st1 (render true l)) by congruence; apply (wf_gone _ _ W1 (LN eq_refl))|discriminate].
  destruct (LD _ Hn Hl eq_refl) as (p' & m & Sp1' & G & _). assert (p' = p) as -> by congruence. clear LD LN Sp1'.
  pose proof (readdir_noent (sent st1 (render true l)) l p m Hn Hl Sp1 G) as RN.
  destruct (req_readdir ans hops (sent st1 (render true l)) (render true l)) as [st3 [es first]] eqn:R. cbn [snd] in RN.
  apply readdir_proper in R; [|exact Ok1]. destruct R as [Hes ->]. set (st3 := sent (sent st1 (render true l)) (render true l)) in *.
  assert (E' : match each (remove_all ans hops fuel) (render true l) es st3 first with None => None
      | Some (st4, first) => let '(st5, r) := req_remove ans hops st4 (render true l) in
          Some (st5, match r with Some (EFail c) => first_of first (Some (EFail c)) | _ => first end) end = Some (st', None)).
  { destruct first as [[|c']|]; [contradiction|exact E|exact E]. }
  clear E. destruct (each (remove_all ans hops fuel) (render true l) es st3 first) as [[st4 first4]|] eqn:Ea; [|discriminate].
  assert (T4 : tame (WAt p) l st3 st4).
  { apply (each_tame hops (remove_all ans hops fuel) l p m (r_fs st1) Hn Hl Sp1 G) with (es := es) (first := first) (r := first4); try assumption.
    - intros s e s' r' Ok' He E''. apply remove_all_tame with (fuel := fuel) (ans := ans) (r := r'); [exact Ok'|apply snoc_not_nil|apply Forall_app; auto|exact E''].
    - apply sub_refl. }
  assert (W4 : well_formed (r_fs st4)).
  { apply (each_wf (remove_all ans hops fuel) l Hn Hl) with (es := es) (st := st3) (first := first) (r := first4); try assumption.
    intros s e s' r' Ok' W' He E''. assert (Hle : Forall proper (l ++ [e])) by (apply Forall_app; auto). split.
    - apply remove_all_tame in E''; [|exact Ok'|apply snoc_not_nil|exact Hle]. destruct E'' as (_ & I & _). apply (incl_ok _ _ I Ok').
    - apply (remove_all_wf _ _ _ _ _ Ok' W' (snoc_not_nil l e) Hle E''). }
  assert (Sp4 : spot hops (r_fs st4) l = WAt p).
  { apply (still_leads (r_fs st) _ _ _ Np); [|exact Sp]. destruct T4 as (O4 & _). apply (only_trans _ _ _ _ O1 O4). }
  pose proof (req_remove_gone st4 l p Hn Hl W4 Sp4) as G5. destruct (req_remove ans hops st4 (render true l)) as [st5 r5]. cbn [fst snd] in G5.
  assert (st' = st5) as -> by congruence. apply G5. destruct r5 as [[|c5]|]; auto. exfalso. destruct first4; discriminate.
Qed.
End honest_server.

(* ---- and when nothing fails ---- *)
Section serving.
Variable ans : nat -> answer.
Variable hops : nat.
Hypothesis serves : forall k, ans k = Serve.
Lemma serves_honest : honest ans.
Proof. intros k. rewrite serves. exact I. Qed.

Lemma each_served f l p : l <> [] -> Forall proper l ->
  (forall st e st' r, proper e -> names_ok (r_fs st) -> well_formed (r_fs st) -> spot hops (prune (r_fs st) (p ++ [e])) (l ++ [e]) = WAt (p ++ [e]) -> f st (render true (l ++ [e])) = Some (st', r) ->
     r = None /\ gone (p ++ [e]) (r_fs st') /\ names_ok (r_fs st') /\ well_formed (r_fs st') /\ only_removed (WAt (p ++ [e])) (r_fs st) (r_fs st')) ->
  forall es st st' r, names_ok (r_fs st) -> well_formed (r_fs st) -> Forall proper es ->
    spot hops (prune (r_fs st) p) l = WAt p -> (exists m, rget (r_fs st) p = Some (RDir m)) -> each f (render true l) es st None = Some (st', r) ->
    r = None /\ (forall e, In e es -> gone (p ++ [e]) (r_fs st')) /\ sub (r_fs st') (r_fs st) /\ (exists m, rget (r_fs st') p = Some (RDir m)).
Proof.
  intros Hn Hl F. induction es as [|e es IH]; intros st st' r Ok W He Sp D E; cbn [each] in E.
  - assert (st' = st) as -> by congruence. split; [congruence|]. split; [intros e []|]. split; [apply sub_refl|exact D].
  - rewrite text_child in E by exact Hn. inversion He as [|? ? He1 He2]; subst. destruct D as [m D]. pose proof (spot_nonempty _ _ _ _ Sp) as Np.
    assert (Npe : p ++ [e] <> []) by apply snoc_not_nil.
    assert (Ln : prefixb (p ++ [e]) p = false).
    { destruct (prefixb (p ++ [e]) p) eqn:B; [|reflexivity]. apply prefixb_iff in B. destruct B as [k B]. apply (f_equal (@length _)) in B. rewrite !app_length in B. cbn in B. lia. }
    assert (Spe : spot hops (prune (r_fs st) (p ++ [e])) (l ++ [e]) = WAt (p ++ [e])).
    { rewrite spot_child. rewrite (spot_walk hops (prune (r_fs st) (p ++ [e])) l p m Hn Hl); [reflexivity| |rewrite (rget_prune _ _ _ Npe), Ln; exact D].
      apply (spot_mono hops (prune (r_fs st) p)); [|exact Sp]. intros q. rewrite (rget_prune _ _ _ Np), (rget_prune _ _ _ Npe).
      destruct (prefixb p q) eqn:P; [auto|]. destruct (prefixb (p ++ [e]) q) eqn:P2; [|auto]. apply prefixb_iff in P2. destruct P2 as [k ->].
      assert (prefixb p ((p ++ [e]) ++ k) = true) by (apply prefixb_iff; exists ([e] ++ k); rewrite app_assoc; reflexivity). congruence. }
    destruct (f st (render true (l ++ [e]))) as [[st1 r1]|] eqn:E1; [|discriminate].
    destruct (F _ _ _ _ He1 Ok W Spe E1) as (-> & G1 & Ok1 & W1 & O1). cbn [first_of] in E.
    assert (O1p : only_removed (WAt p) (r_fs st) (r_fs st1)).
    { intros q. destruct (O1 q) as [Q | (Q & p' & Ep & B)]; [auto|]. right. split; [exact Q|]. exists p. split; [reflexivity|].
      assert (p' = p ++ [e]) as -> by congruence. destruct B as [k ->]. exists (e :: k). rewrite <- app_assoc. reflexivity. }
    assert (D1 : rget (r_fs st1) p = Some (RDir m)).
    { destruct (O1 p) as [-> | (_ & p' & Ep & B)]; [exact D|]. assert (p' = p ++ [e]) as -> by congruence. apply prefixb_iff in B. congruence. }
    assert (Sp1 : spot hops (prune (r_fs st1) p) l = WAt p).
    { apply (spot_mono hops (prune (r_fs st) p)); [|exact Sp]. intros q. rewrite !(rget_prune _ _ _ Np). destruct (prefixb p q) eqn:P; [auto|].
      destruct (O1p q) as [-> | (_ & p' & Ep & B)]; [auto|]. assert (p' = p) as -> by congruence. apply prefixb_iff in B. congruence. }
    destruct (IH _ _ _ Ok1 W1 He2 Sp1 (ex_intro _ m D1) E) as (-> & G & Sb & D'). split; [reflexivity|]. split; [|split; [|exact D']].
    + intros e' [<- | H]; [|apply G; exact H]. intros k. destruct (Sb ((p ++ [e]) ++ k)) as [-> | ->]; [apply G1|reflexivity].
    + eapply sub_trans; [exact Sb|apply (only_sub _ _ _ O1)].
Qed.
Lemma remove_all_served fuel : forall st l st' r p, names_ok (r_fs st) -> well_formed (r_fs st) -> l <> [] -> Forall proper l ->
  spot hops (prune (r_fs st) p) l = WAt p -> remove_all ans hops fuel st (render true l) = Some (st', r) -> r = None.
Proof.
  induction fuel as [|fuel IH]; intros st l st' r p Ok W Hn Hl Sp E; [discriminate|]. pose proof (spot_nonempty _ _ _ _ Sp) as Np.
  pose proof (spot_mono _ _ _ _ _ (sub_prune (r_fs st) p Np) Sp) as Sp0. rewrite remove_all_eq in E. unfold req_remove at 1 in E. rewrite serves in E.
  unfold do_remove at 1 in E. rewrite (place_of_text hops _ l Hn Hl), Sp0 in E.
  destruct (rget (r_fs st) p) as [[m|m d|t]|] eqn:G; [|congruence|congruence|congruence].
  destruct (rlist (r_fs st) p) as [|k0 ks] eqn:Lk; [congruence|].
  set (st1 := with_fs (sent st (render true l)) (r_fs st)) in *. unfold rest_of, req_lstat in E. rewrite serves, (place_of_text hops _ l Hn Hl) in E.
  change (r_fs st1) with (r_fs st) in E. rewrite Sp0, G in E. unfold req_readdir in E. rewrite serves in E. change (r_fs (sent st1 (render true l))) with (r_fs st) in E.
  rewrite (list_dir hops _ l p m Hn Hl Sp0 G) in E. set (st3 := sent (sent st1 (render true l)) (render true l)) in *.
  destruct (each (remove_all ans hops fuel) (render true l) (rlist (r_fs st) p) st3 None) as [[st4 first4]|] eqn:Ea; [|discriminate].
  assert (H := each_served (remove_all ans hops fuel) l p Hn Hl).
  assert (Q : first4 = None /\ (forall e, In e (rlist (r_fs st) p) -> gone (p ++ [e]) (r_fs st4)) /\ sub (r_fs st4) (r_fs st3) /\ (exists m, rget (r_fs st4) p = Some (RDir m))).
  { apply (H) with (es := rlist (r_fs st) p) (st := st3); [ |exact Ok|exact W|apply rlist_proper; exact Ok|exact Sp|exists m; exact G|exact Ea].
    intros s e s' r' He Ok' W' Sp' E'. assert (Hle : Forall proper (l ++ [e])) by (apply Forall_app; auto).
    assert (r' = None) as -> by apply (IH _ _ _ _ _ Ok' W' (snoc_not_nil l e) Hle Sp' E'). split; [reflexivity|].
    pose proof (remove_all_tame _ _ _ _ _ _ _ Ok' (snoc_not_nil l e) Hle E') as (O & I & _).
    rewrite (spot_mono _ _ _ _ _ (sub_prune (r_fs s) (p ++ [e]) (snoc_not_nil p e)) Sp') in O.
    split; [apply (remove_all_gone ans hops serves_honest fuel s (l ++ [e])); try assumption; apply snoc_not_nil|].
    split; [apply (incl_ok _ _ I Ok')|]. split; [apply (remove_all_wf ans hops fuel s (l ++ [e]) s' None); try assumption; apply snoc_not_nil|exact O]. }
  destruct Q as (-> & Gk & Sb & m' & D4).
  assert (Sp4 : spot hops (r_fs st4) l = WAt p).
  { pose proof (each_tame hops (remove_all ans hops fuel) l p m (r_fs st) Hn Hl Sp0 G) as ET.
    assert (T4 : tame (WAt p) l st3 st4).
    { apply ET with (es := rlist (r_fs st) p) (first := None) (r := None); [|exact Ok|apply sub_refl|apply rlist_proper; exact Ok|exact Ea].
      intros s e s' r' Ok' He E''. apply remove_all_tame with (fuel := fuel) (ans := ans) (r := r'); [exact Ok'|apply snoc_not_nil|apply Forall_app; auto|exact E'']. }
    destruct T4 as (O4 & _). apply (still_leads hops (r_fs st) _ _ _ Np O4 Sp). }
  assert (L4 : rlist (r_fs st4) p = []).
  { destruct (rlist (r_fs st4) p) as [|k ks4] eqn:L4; [reflexivity|]. exfalso.
    assert (Hk : In k (rlist (r_fs st4) p)) by (rewrite L4; left; reflexivity). pose proof (proj1 (rlist_iff _ _ _) Hk) as Hk'.
    assert (Hk3 : In k (rlist (r_fs st) p)).
    { apply rlist_iff. change (r_fs st) with (r_fs st3). destruct (Sb (p ++ [k])) as [Q | Q]; congruence. }
    specialize (Gk k Hk3 []). rewrite app_nil_r in Gk. congruence. }
  unfold req_remove in E. rewrite serves in E. unfold do_remove in E. rewrite (place_of_text hops _ l Hn Hl), Sp4, D4, L4 in E. congruence.
Qed.
End serving.
