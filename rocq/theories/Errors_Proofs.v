From Verif Require Import Common CommonLemmas ContentRange_Model ContentRange_Proofs Errors_Model Errors_Spec.
Open Scope nat_scope.

Lemma causes_eq n : unwraps n = causes n.
Proof. destruct n; reflexivity. Qed.
Lemma cause1_eq n : unwrap1 n = cause1 n.
Proof. destruct n; reflexivity. Qed.
Lemma is_path_iff n : is_path n = true <-> path_error n.
Proof. split; [destruct n; intros H; try discriminate; unfold path_error; eauto|intros (a & b & c & ->); reflexivity]. Qed.
Lemma is_link_iff n : is_link n = true <-> link_error n.
Proof. split; [destruct n; intros H; try discriminate; unfold link_error; eauto 6|intros (a & b & c & d & ->); reflexivity]. Qed.
Lemma join_eq l : join l = listed l.
Proof. induction l as [|x l IH]; [reflexivity|]. destruct l as [|y l]; [cbn; rewrite app_nil_r; reflexivity|]. change (join (x :: y :: l)) with (x ++ sep_comma ++ join (y :: l)). rewrite IH. reflexivity. Qed.
Lemma nth_lt {A} (l : list A) a x : nth_error l a = Some x -> a < length l.
Proof. intros H. apply nth_error_Some. rewrite H. discriminate. Qed.
Lemma nth_here {A} (l : list A) x : nth_error (l ++ [x]) (length l) = Some x.
Proof. rewrite nth_error_app2 by lia. rewrite Nat.sub_diag. reflexivity. Qed.
Lemma kept_app h n : kept h (h ++ [n]).
Proof. intros x m H. rewrite nth_error_app1 by exact (nth_lt _ _ _ H). exact H. Qed.
Lemma kept_trans h1 h2 h3 : kept h1 h2 -> kept h2 h3 -> kept h1 h3.
Proof. intros H1 H2 x n H. apply H2, H1. exact H. Qed.
Lemma kept_refl h : kept h h.
Proof. intros x n H. exact H. Qed.

Lemma wf_child h a n b : wf h -> nth_error h a = Some n -> In (Some b) (causes n) -> b < a /\ b < length h.
Proof. intros Hw Hn Hb. pose proof (Hw _ _ _ Hn Hb). pose proof (nth_lt _ _ _ Hn). lia. Qed.
Lemma wf_app h n : wf h -> (forall b, In (Some b) (causes n) -> b < length h) -> wf (h ++ [n]).
Proof.
  intros Hw Hn a m b Ha Hb. destruct (Nat.lt_ge_cases a (length h)) as [Hlt|Hge].
  - rewrite nth_error_app1 in Ha by exact Hlt. exact (Hw _ _ _ Ha Hb).
  - rewrite nth_error_app2 in Ha by exact Hge. destruct (a - length h) as [|k] eqn:E; [|destruct k; discriminate]. cbn in Ha. apply some_inj in Ha. subst m.
    specialize (Hn b Hb). lia.
Qed.

(* Reaching is the same in a heap with the same links. *)
Definition same_links (h h' : heap) : Prop :=
  length h <= length h' /\ forall x n, nth_error h x = Some n -> exists n', nth_error h' x = Some n' /\ causes n' = causes n /\ (forall m, n = NLeaf m <-> n' = NLeaf m).
Lemma kept_links h h' : length h <= length h' -> kept h h' -> same_links h h'.
Proof. intros Hl Hk. split; [exact Hl|]. intros x n H. exists n. split; [exact (Hk _ _ H)|]. split; [reflexivity|]. intros m. reflexivity. Qed.

Lemma reaches_lt h a b : reaches h a b -> a < length h /\ b < length h.
Proof. induction 1 as [a H|a n b c Hn Hb Hr [IH1 IH2]]; [auto|]. split; [exact (nth_lt _ _ _ Hn)|exact IH2]. Qed.
Lemma reaches_to h h' : same_links h h' -> forall a b, reaches h a b -> reaches h' a b.
Proof.
  intros (Hl & Hs). induction 1 as [a H|a n b c Hn Hb Hr IH]; [apply R_self; lia|].
  destruct (Hs _ _ Hn) as (n' & Hn' & Hu & _). apply (R_step h' a n' b c Hn'); [rewrite Hu; exact Hb|exact IH].
Qed.
Lemma reaches_from h h' : wf h -> same_links h h' -> forall a b, reaches h' a b -> a < length h -> reaches h a b.
Proof.
  intros Hw (Hl & Hs). induction 1 as [a H|a n b c Hn Hb Hr IH]; intros Ha; [apply R_self; exact Ha|].
  destruct (nth_error h a) as [m|] eqn:E; [|apply nth_error_None in E; lia]. destruct (Hs _ _ E) as (n' & Hn' & Hu & _).
  rewrite Hn in Hn'. apply some_inj in Hn'. subst n'. rewrite Hu in Hb. apply (R_step h a m b c E Hb). apply IH. exact (proj2 (wf_child h a m b Hw E Hb)).
Qed.
Lemma caused_same also h h' e t : wf h -> same_links h h' -> valid h e -> (caused also h' e t <-> caused also h e t).
Proof.
  intros Hw Hs Hv. pose proof Hs as (Hl & Hn). split; intros (a & b & -> & Hr & Hc); exists a, b; (split; [reflexivity|]).
  - specialize (Hv a eq_refl). apply (reaches_from h h' Hw Hs) in Hr; [|exact Hv]. split; [exact Hr|]. destruct Hc as [->|(m & Hm & Ha)]; [left; reflexivity|]. right. exists m. split; [|exact Ha].
    pose proof (proj2 (reaches_lt _ _ _ Hr)) as Hb. destruct (nth_error h b) as [k|] eqn:E; [|apply nth_error_None in E; lia].
    destruct (Hn _ _ E) as (n' & Hn' & _ & Hk). rewrite Hm in Hn'. apply some_inj in Hn'. subst n'. f_equal. apply Hk. reflexivity.
  - split; [exact (reaches_to h h' Hs _ _ Hr)|]. destruct Hc as [->|(m & Hm & Ha)]; [left; reflexivity|]. right. exists m. split; [|exact Ha].
    destruct (Hn _ _ Hm) as (n' & Hn' & _ & Hk). rewrite Hn'. f_equal. apply Hk. reflexivity.
Qed.

(* A new error with one or several causes. *)
Lemma caused_new also h n t : wf h -> (forall m, n <> NLeaf m) -> (forall b, In (Some b) (causes n) -> b < length h) -> t < length h ->
  (caused also (h ++ [n]) (Some (length h)) t <-> exists e, In e (causes n) /\ caused also h e t).
Proof.
  intros Hw Hl Hv Ht. assert (same_links h (h ++ [n])) as Hs by (apply kept_links; [rewrite app_length; lia|apply kept_app]). split.
  - intros (a & b & E & Hr & Hc). apply some_inj in E. subst a. inversion Hr as [? Ha|? m c ? Hm Hcm Hrc]; subst.
    + exfalso. destruct Hc as [Hc|(m & Hm & _)]; [lia|]. rewrite nth_here in Hm. apply some_inj in Hm. exact (Hl m Hm).
    + rewrite nth_here in Hm. apply some_inj in Hm. subst m. exists (Some c). split; [exact Hcm|].
      apply (caused_same also h (h ++ [n]) (Some c) t Hw Hs); [intros x Ex; apply some_inj in Ex; subst x; exact (Hv c Hcm)|].
      exists c, b. auto.
  - intros (e & He & a & b & -> & Hr & Hc).
    assert (caused also (h ++ [n]) (Some a) t) as (a' & b' & Ea & Hr' & Hc').
    { apply (caused_same also h (h ++ [n]) (Some a) t Hw Hs); [intros x Ex; apply some_inj in Ex; subst x; exact (Hv a He)|]. exists a, b. auto. }
    apply some_inj in Ea. subst a'. exists (length h), b'. split; [reflexivity|]. split; [|exact Hc']. exact (R_step _ _ n a b' (nth_here h n) He Hr').
Qed.

(* errors.Is computes it. *)
Lemma is_err_spec also h t : wf h -> forall fuel e, (forall a, e = Some a -> a < fuel /\ a < length h) -> (is_err also h fuel e t = true <-> caused also h e t).
Proof.
  intros Hw. induction fuel as [|fuel IH]; intros e He.
  - destruct e as [a|]; [destruct (He a eq_refl); lia|]. cbn. split; [discriminate|]. intros (a & b & E & _). discriminate.
  - destruct e as [a|]; [|cbn; split; [discriminate|]; intros (a & b & E & _); discriminate].
    destruct (He a eq_refl) as (Hf & Hl). cbn [is_err]. destruct (nth_error h a) as [n|] eqn:E; [|apply nth_error_None in E; lia].
    rewrite causes_eq, !orb_true_iff, existsb_exists. rewrite Nat.eqb_eq. split.
    + intros [[->|Ha]|(x & Hx & Hi)].
      * exists t, t. split; [reflexivity|]. split; [apply R_self; exact Hl|left; reflexivity].
      * destruct n as [m| | | |]; try discriminate. exists a, a. split; [reflexivity|]. split; [apply R_self; exact Hl|]. right. exists m. auto.
      * apply IH in Hi.
        -- destruct Hi as (b & c & -> & Hr & Hc). exists a, c. split; [reflexivity|]. split; [exact (R_step h a n b c E Hx Hr)|exact Hc].
        -- intros b ->. destruct (wf_child h a n b Hw E Hx). lia.
    + intros (a' & c & Ea & Hr & Hc). apply some_inj in Ea. subst a'. inversion Hr as [? Ha|? m b ? Hm Hb Hrb]; subst.
      * destruct Hc as [->|(m & Hm & Ha')]; [left; left; reflexivity|]. rewrite E in Hm. apply some_inj in Hm. subst n. left. right. exact Ha'.
      * rewrite E in Hm. apply some_inj in Hm. subst m. right. exists (Some b). split; [exact Hb|]. apply IH.
        -- intros x Ex. apply some_inj in Ex. subst x. destruct (wf_child h a n b Hw E Hb). lia.
        -- exists b, c. auto.
Qed.
Lemma errors_is_spec also h e t : wf h -> valid h e -> (errors_is also h e t = true <-> caused also h e t).
Proof. intros Hw Hv. apply is_err_spec; [exact Hw|]. intros a Ha. specialize (Hv a Ha). lia. Qed.

(* Texts: enough fuel, and the same in a larger heap. *)
Lemma text_fuel h h' : wf h -> kept h h' -> forall f1 f2 e, (forall a, e = Some a -> a < f1 /\ a < f2 /\ a < length h) -> 0 < f1 -> 0 < f2 -> text_of h f1 e = text_of h' f2 e.
Proof.
  intros Hw Hk. induction f1 as [|f1 IH]; intros f2 e He H1 H2; [lia|]. destruct f2 as [|f2]; [lia|]. destruct e as [a|]; [|reflexivity].
  destruct (He a eq_refl) as (Ha1 & Ha2 & Hl). cbn [text_of]. destruct (nth_error h a) as [n|] eqn:E; [|apply nth_error_None in E; lia].
  rewrite (Hk _ _ E).
  assert (forall e, In e (causes n) -> text_of h f1 e = text_of h' f2 e) as Hsub.
  { intros e Hin. destruct e as [b|].
    - destruct (wf_child h a n b Hw E Hin). apply IH; [|lia|lia]. intros x Ex. apply some_inj in Ex. subst x. lia.
    - destruct f1, f2; reflexivity. }
  destruct n as [m|op path e|op old new_ e|p e|es]; cbn [causes] in Hsub; try reflexivity; try (rewrite (Hsub e (or_introl eq_refl)); reflexivity).
  f_equal. apply map_ext_in. exact Hsub.
Qed.
Lemma text_kept h h' e : wf h -> kept h h' -> length h <= length h' -> valid h e -> error_text h' e = error_text h e.
Proof. intros Hw Hk Hl Hv. symmetry. apply text_fuel; [exact Hw|exact Hk| |lia|lia]. intros a Ha. specialize (Hv a Ha). lia. Qed.

(* ---- wrapping ---- *)

Lemma set_node_len h a n : length (set_node h a n) = length h.
Proof. revert a. induction h as [|x h IH]; intros [|a]; cbn; congruence. Qed.
Lemma set_node_nth h a n x : nth_error (set_node h a n) x = if Nat.eqb x a then (match nth_error h a with Some _ => Some n | None => None end) else nth_error h x.
Proof.
  revert a x. induction h as [|y h IH]; intros a x; [destruct x, a; cbn; try reflexivity; destruct (Nat.eqb x a); reflexivity|].
  destruct a as [|a], x as [|x]; cbn [set_node nth_error Nat.eqb]; try reflexivity. rewrite IH. reflexivity.
Qed.
Lemma set_links h a n n0 : nth_error h a = Some n0 -> causes n = causes n0 -> (forall m, n0 <> NLeaf m) -> (forall m, n <> NLeaf m) -> same_links h (set_node h a n).
Proof.
  intros Ha Hu H0 H1. split; [rewrite set_node_len; lia|]. intros x m Hx. rewrite set_node_nth. destruct (Nat.eqb_spec x a) as [->|_].
  - rewrite Ha in Hx |- *. apply some_inj in Hx. subst m. exists n. split; [reflexivity|]. split; [exact Hu|]. intros k. split; intros Hk; [destruct (H0 k Hk)|destruct (H1 k Hk)].
  - exists m. split; [exact Hx|]. split; [reflexivity|]. intros k. reflexivity.
Qed.
Lemma links_wf h h' : length h = length h' -> same_links h h' -> wf h -> wf h'.
Proof.
  intros Hl (_ & Hs) Hw a n b Ha Hb. pose proof (nth_lt _ _ _ Ha) as Hlt. rewrite <- Hl in Hlt. destruct (nth_error h a) as [m|] eqn:E; [|apply nth_error_None in E; lia].
  destruct (Hs _ _ E) as (n' & Hn' & Hu & _). rewrite Ha in Hn'. apply some_inj in Hn'. subst n'. rewrite Hu in Hb. exact (Hw _ _ _ E Hb).
Qed.

(* The common part: the result is a fresh node over e, or e's own node with other strings. *)
Definition wrapped (h : heap) (e : option nat) (mine : node -> bool) (h' : heap) (r : option nat) : Prop :=
  (e = None /\ r = None /\ h' = h) \/
  (exists a n0 n, e = Some a /\ nth_error h a = Some n0 /\ mine n0 = true /\ r = e /\ h' = set_node h a n /\ mine n = true /\ causes n = causes n0) \/
  (exists a n, e = Some a /\ (forall n0, nth_error h a = Some n0 -> mine n0 = false) /\ h' = h ++ [n] /\ r = Some (length h) /\ mine n = true /\ causes n = [e]).

Lemma wrapped_facts also mine h e h' r : (forall m, mine (NLeaf m) = false) -> wf h -> valid h e -> wrapped h e mine h' r ->
  wf h' /\ valid h' r /\ (r = None <-> e = None) /\
  (forall t, t < length h -> (caused also h' r t <-> caused also h e t)) /\
  (forall x t, x < length h -> (caused also h' (Some x) t <-> caused also h (Some x) t)) /\
  (forall x n, nth_error h x = Some n -> nth_error h' x = Some n \/ (e = Some x /\ mine n = true)).
Proof.
  intros Hm Hw Hv [(-> & -> & ->)|[(a & n0 & n & -> & Ha & Hn0 & -> & -> & Hn & Hu)|(a & n & -> & Hnot & -> & -> & Hn & Hu)]].
  - split; [exact Hw|]. split; [exact Hv|]. split; [reflexivity|]. split; [reflexivity|]. split; [reflexivity|]. intros x n H. left. exact H.
  - assert (same_links h (set_node h a n)) as Hs.
    { apply (set_links h a n n0 Ha Hu); intros m E; subst; rewrite Hm in *; discriminate. }
    assert (forall x t, x < length h -> (caused also (set_node h a n) (Some x) t <-> caused also h (Some x) t)) as Hc.
    { intros x t Hx. apply caused_same; [exact Hw|exact Hs|]. intros y E. apply some_inj in E. subst y. exact Hx. }
    split; [exact (links_wf h _ (eq_sym (set_node_len h a n)) Hs Hw)|]. split; [intros x E; rewrite set_node_len; exact (Hv x E)|]. split; [reflexivity|].
    split; [intros t _; apply Hc; exact (Hv a eq_refl)|]. split; [exact Hc|].
    intros x m Hx. rewrite set_node_nth. destruct (Nat.eqb_spec x a) as [->|_]; [right|left; exact Hx]. rewrite Ha in Hx. apply some_inj in Hx. subst m. auto.
  - specialize (Hv a eq_refl).
    assert (forall b, In (Some b) (causes n) -> b < length h) as Hb by (rewrite Hu; intros b [E|[]]; apply some_inj in E; subst b; exact Hv).
    split; [exact (wf_app h n Hw Hb)|]. split; [intros x E; apply some_inj in E; subst x; rewrite app_length; cbn [length]; lia|]. split; [split; discriminate|].
    split; [|split; [|intros x m H; left; exact (kept_app h n x m H)]].
    + intros t Ht. rewrite (caused_new also h n t Hw); [|intros m ->; rewrite Hm in Hn; discriminate|exact Hb|exact Ht]. rewrite Hu. split.
      * intros (e & [<-|[]] & H). exact H.
      * intros H. exists (Some a). split; [left; reflexivity|exact H].
    + intros x t Hx. apply caused_same; [exact Hw|apply kept_links; [rewrite app_length; lia|apply kept_app]|]. intros y E. apply some_inj in E. subst y. exact Hx.
Qed.

Lemma given_is s old : (if is_empty s then old else s) = given s old.
Proof. destruct s; reflexivity. Qed.

Lemma wrap_path_wrapped h op path e h' r : valid h e -> wrap_path_err h op path e = (h', r) -> wrapped h e is_path h' r.
Proof.
  intros Hv H. unfold wrap_path_err in H. destruct e as [a|]; [|left; apply pair_equal_spec in H; destruct H; subst; auto]. right.
  pose proof (Hv a eq_refl) as Hl. destruct (nth_error h a) as [n0|] eqn:E; [|apply nth_error_None in E; lia].
  destruct n0 as [m|op0 path0 e0|op0 o1 n1 e0|p e0|es]; unfold alloc in H; apply pair_equal_spec in H; destruct H as (<- & <-).
  2: { left. exists a, (NPath op0 path0 e0). eexists. split; [reflexivity|]. split; [exact E|]. split; [reflexivity|]. split; [reflexivity|]. split; [reflexivity|]. split; reflexivity. }
  all: right; exists a; eexists; split; [reflexivity|]; split; [intros n0 H0; rewrite E in H0; apply some_inj in H0; subst n0; reflexivity|]; split; [reflexivity|]; split; [reflexivity|]; split; reflexivity.
Qed.
Lemma wrap_link_wrapped h op old new_ e h' r : valid h e -> wrap_link_err h op old new_ e = (h', r) -> wrapped h e is_link h' r.
Proof.
  intros Hv H. unfold wrap_link_err in H. destruct e as [a|]; [|left; apply pair_equal_spec in H; destruct H; subst; auto]. right.
  pose proof (Hv a eq_refl) as Hl. destruct (nth_error h a) as [n0|] eqn:E; [|apply nth_error_None in E; lia].
  destruct n0 as [m|op0 path0 e0|op0 o1 n1 e0|p e0|es]; unfold alloc in H; apply pair_equal_spec in H; destruct H as (<- & <-).
  3: { left. exists a, (NLink op0 o1 n1 e0). eexists. split; [reflexivity|]. split; [exact E|]. split; [reflexivity|]. split; [reflexivity|]. split; [reflexivity|]. split; reflexivity. }
  all: right; exists a; eexists; split; [reflexivity|]; split; [intros n0 H0; rewrite E in H0; apply some_inj in H0; subst n0; reflexivity|]; split; [reflexivity|]; split; [reflexivity|]; split; reflexivity.
Qed.

Lemma wrap_path_fields h op path a h' r : a < length h -> wrap_path_err h op path (Some a) = (h', r) ->
  exists b, r = Some b /\
  match nth_error h a with
  | Some (NPath op0 path0 e0) => b = a /\ nth_error h' b = Some (NPath (given op op0) (given path path0) e0)
  | _ => b = length h /\ nth_error h' b = Some (NPath op path (Some a))
  end.
Proof.
  intros Ha H. unfold wrap_path_err in H. destruct (nth_error h a) as [n0|] eqn:E; [|apply nth_error_None in E; lia].
  destruct n0 as [m|op0 path0 e0|op0 o1 n1 e0|p e0|es]; unfold alloc in H; apply pair_equal_spec in H; destruct H as (<- & <-); eexists; (split; [reflexivity|]); (split; [reflexivity|]); try apply nth_here.
  rewrite set_node_nth, Nat.eqb_refl, E, !given_is. reflexivity.
Qed.
Lemma wrap_link_fields h op old new_ a h' r : a < length h -> wrap_link_err h op old new_ (Some a) = (h', r) ->
  exists b, r = Some b /\
  match nth_error h a with
  | Some (NLink op0 old0 new0 e0) => b = a /\ nth_error h' b = Some (NLink (given op op0) (given old old0) (given new_ new0) e0)
  | _ => b = length h /\ nth_error h' b = Some (NLink op old new_ (Some a))
  end.
Proof.
  intros Ha H. unfold wrap_link_err in H. destruct (nth_error h a) as [n0|] eqn:E; [|apply nth_error_None in E; lia].
  destruct n0 as [m|op0 path0 e0|op0 o1 n1 e0|p e0|es]; unfold alloc in H; apply pair_equal_spec in H; destruct H as (<- & <-); eexists; (split; [reflexivity|]); (split; [reflexivity|]); try apply nth_here.
  rewrite set_node_nth, Nat.eqb_refl, E, !given_is. reflexivity.
Qed.

Lemma wrap_path_spec also h op path e h' r : wf h -> valid h e -> wrap_path_err h op path e = (h', r) ->
  wf h' /\ valid h' r /\ (r = None <-> e = None) /\
  (forall t, t < length h -> (caused also h' r t <-> caused also h e t)) /\
  (forall x t, x < length h -> (caused also h' (Some x) t <-> caused also h (Some x) t)) /\
  (forall x n, nth_error h x = Some n -> nth_error h' x = Some n \/ (e = Some x /\ is_path n = true)).
Proof. intros Hw Hv H. apply (wrapped_facts also is_path); [reflexivity|exact Hw|exact Hv|exact (wrap_path_wrapped _ _ _ _ _ _ Hv H)]. Qed.
Lemma wrap_link_spec also h op old new_ e h' r : wf h -> valid h e -> wrap_link_err h op old new_ e = (h', r) ->
  wf h' /\ valid h' r /\ (r = None <-> e = None) /\
  (forall t, t < length h -> (caused also h' r t <-> caused also h e t)) /\
  (forall x t, x < length h -> (caused also h' (Some x) t <-> caused also h (Some x) t)) /\
  (forall x n, nth_error h x = Some n -> nth_error h' x = Some n \/ (e = Some x /\ is_link n = true)).
Proof. intros Hw Hv H. apply (wrapped_facts also is_link); [reflexivity|exact Hw|exact Hv|exact (wrap_link_wrapped _ _ _ _ _ _ _ Hv H)]. Qed.

(* Whoever held another error sees it unchanged, if the wrapped one was no PathError. *)
Lemma wrap_path_others h op path e h' r : wf h -> valid h e -> (forall a n, e = Some a -> nth_error h a = Some n -> is_path n = false) ->
  wrap_path_err h op path e = (h', r) -> forall x, x < length h -> error_text h' (Some x) = error_text h (Some x).
Proof.
  intros Hw Hv Hno H x Hx. apply text_kept; [exact Hw| | |intros y E; apply some_inj in E; subst y; exact Hx].
  - intros y n Hy. destruct (proj2 (proj2 (proj2 (proj2 (proj2 (wrap_path_spec (fun _ _ => false) _ _ _ _ _ _ Hw Hv H))))) y n Hy) as [E|(E & Ep)]; [exact E|].
    rewrite (Hno y n E Hy) in Ep. discriminate.
  - unfold wrap_path_err in H. destruct e as [a|]; [|apply pair_equal_spec in H; destruct H as (<- & _); lia].
    destruct (nth_error h a) as [[]|]; unfold alloc in H; apply pair_equal_spec in H; destruct H as (<- & _); rewrite ?app_length, ?set_node_len; lia.
Qed.

(* ---- serr ---- *)

Lemma alloc_spec also h n h' r : wf h -> (forall m, n <> NLeaf m) -> (forall b, In (Some b) (causes n) -> b < length h) -> alloc h n = (h', r) ->
  wf h' /\ kept h h' /\ exists a, r = Some a /\ nth_error h' a = Some n /\ a = length h /\
  forall t, t < length h -> (caused also h' r t <-> exists e, In e (causes n) /\ caused also h e t).
Proof.
  intros Hw Hl Hv H. unfold alloc in H. apply pair_equal_spec in H. destruct H as (<- & <-). split; [exact (wf_app h n Hw Hv)|]. split; [apply kept_app|].
  exists (length h). split; [reflexivity|]. split; [apply nth_here|]. split; [reflexivity|]. intros t Ht. exact (caused_new also h n t Hw Hl Hv Ht).
Qed.

Lemma new_text h n h' r : wf h -> (forall b, In (Some b) (causes n) -> b < length h) -> alloc h n = (h', r) -> forall e, In e (causes n) -> text_of h' (length h') e = error_text h e.
Proof.
  intros Hw Hv H e He. unfold alloc in H. apply pair_equal_spec in H. destruct H as (<- & _). rewrite app_length. cbn [length]. rewrite Nat.add_1_r. symmetry.
  apply text_fuel; [exact Hw|apply kept_app| |lia|lia]. intros a ->. specialize (Hv a He). lia.
Qed.

Lemma prefix_spec also h p e h' r : wf h -> valid h e -> prefix_err h p e = (h', r) ->
  wf h' /\ kept h h' /\ (r = None <-> e = None) /\ (forall t, t < length h -> (caused also h' r t <-> caused also h e t)) /\
  (e <> None -> error_text h' r = p ++ error_text h e).
Proof.
  intros Hw Hv H. unfold prefix_err in H. destruct e as [a|].
  - assert (forall b, In (Some b) (causes (NPrefix p (Some a))) -> b < length h) as Hb by (intros b [E|[]]; apply some_inj in E; subst b; exact (Hv a eq_refl)).
    destruct (alloc_spec also h (NPrefix p (Some a)) h' r Hw ltac:(discriminate) Hb H) as (H1 & H2 & x & Hr & Hx & Hxl & Hc).
    split; [exact H1|]. split; [exact H2|]. split; [rewrite Hr; split; discriminate|]. split.
    + intros t Ht. rewrite (Hc t Ht). split; [intros (e & [<-|[]] & Hce); exact Hce|]. intros Hce. exists (Some a). split; [left; reflexivity|exact Hce].
    + intros _. rewrite Hr. unfold error_text at 1. cbn [text_of]. rewrite Hx. f_equal. exact (new_text h _ h' r Hw Hb H (Some a) (or_introl eq_refl)).
  - apply pair_equal_spec in H. destruct H as (<- & <-). split; [exact Hw|]. split; [apply kept_refl|]. split; [reflexivity|]. split; [reflexivity|]. intros Hn. destruct (Hn eq_refl).
Qed.

Lemma forallb_filter {A} (f : A -> bool) l : forallb f l = true -> filter f l = l.
Proof. induction l as [|x l IH]; intros H; [reflexivity|]. cbn in *. apply andb_true_iff in H. destruct H as (H1 & H2). rewrite H1, IH by exact H2. reflexivity. Qed.
Lemma gather_is h es : gather h es = match filter non_nil es with [] => (h, None) | f => alloc h (NGather f) end.
Proof.
  unfold gather. destruct es as [|e es]; [reflexivity|]. destruct (forallb non_nil (e :: es)) eqn:E; [|reflexivity].
  rewrite (forallb_filter _ _ E). reflexivity.
Qed.
Lemma no_cause also h e t : caused also h e t -> e <> None.
Proof. intros (a & b & -> & _). discriminate. Qed.

Lemma gather_spec also h es h' r : wf h -> Forall (valid h) es -> gather h es = (h', r) ->
  wf h' /\ kept h h' /\ (r = None <-> Forall (fun e => e = None) es) /\
  (forall t, t < length h -> (caused also h' r t <-> exists e, In e es /\ caused also h e t)) /\
  (r <> None -> error_text h' r = listed (map (error_text h) (filter non_nil es))).
Proof.
  intros Hw Hv H. rewrite gather_is in H. destruct (filter non_nil es) as [|f fs] eqn:E.
  - apply pair_equal_spec in H. destruct H as (<- & <-). split; [exact Hw|]. split; [apply kept_refl|].
    assert (Forall (fun e => e = None) es) as Hn.
    { apply Forall_forall. intros e He. destruct e as [a|]; [|reflexivity]. assert (In (Some a) (filter non_nil es)) as Hin by (apply filter_In; auto). rewrite E in Hin. destruct Hin. }
    split; [tauto|]. split; [|intros Hx; destruct (Hx eq_refl)]. intros t _. split; [intros (a & b & Ea & _); discriminate|]. intros (e & He & Hc). rewrite Forall_forall in Hn. rewrite (Hn e He) in Hc. destruct Hc as (a & b & Ea & _). discriminate.
  - rewrite <- E in *. assert (alloc h (NGather (filter non_nil es)) = (h', r)) as Ha by (rewrite E in H |- *; exact H). clear H.
    assert (forall b, In (Some b) (causes (NGather (filter non_nil es))) -> b < length h) as Hb.
    { intros b Hin. cbn [causes] in Hin. apply filter_In in Hin. rewrite Forall_forall in Hv. exact (Hv (Some b) (proj1 Hin) b eq_refl). }
    destruct (alloc_spec also h (NGather (filter non_nil es)) h' r Hw ltac:(discriminate) Hb Ha) as (H1 & H2 & x & Hr & Hx & Hxl & Hc).
    split; [exact H1|]. split; [exact H2|]. split; [|split].
    + rewrite Hr. split; [discriminate|]. intros Hn. exfalso. assert (In f (filter non_nil es)) as Hin by (rewrite E; left; reflexivity). apply filter_In in Hin. rewrite Forall_forall in Hn. destruct Hin as (Hin & Hf). rewrite (Hn f Hin) in Hf. discriminate.
    + intros t Ht. rewrite (Hc t Ht). cbn [causes]. split; intros (e & He & Hce); exists e; (split; [|exact Hce]).
      * apply filter_In in He. exact (proj1 He).
      * apply filter_In. split; [exact He|]. pose proof (no_cause _ _ _ _ Hce). destruct e; [reflexivity|congruence].
    + intros _. rewrite Hr. unfold error_text at 1. cbn [text_of]. rewrite Hx, join_eq. f_equal. apply map_ext_in. intros e He. exact (new_text h _ h' r Hw Hb Ha e He).
Qed.

Lemma gather_checked_spec also h es h' r : wf h -> Forall (valid h) es -> gather_checked h es = (h', r) ->
  wf h' /\ kept h h' /\ (r = None <-> Forall (fun e => e = None) es) /\
  (forall t, t < length h -> (caused also h' r t <-> exists e, In e es /\ caused also h e t)) /\
  (r <> None -> error_text h' r = listed (map (error_text h) es)).
Proof.
  intros Hw Hv H. assert (gather_checked h es = if existsb non_nil es then alloc h (NGather es) else (h, None)) as Hg by (destruct es; reflexivity).
  rewrite Hg in H. clear Hg. destruct (existsb non_nil es) eqn:E.
  - assert (forall b, In (Some b) (causes (NGather es)) -> b < length h) as Hb by (intros b Hin; rewrite Forall_forall in Hv; exact (Hv (Some b) Hin b eq_refl)).
    destruct (alloc_spec also h (NGather es) h' r Hw ltac:(discriminate) Hb H) as (H1 & H2 & x & Hr & Hx & Hxl & Hc).
    split; [exact H1|]. split; [exact H2|]. split; [|split].
    + rewrite Hr. split; [discriminate|]. intros Hn. exfalso. apply existsb_exists in E. destruct E as (f & Hin & Hf). rewrite Forall_forall in Hn. rewrite (Hn f Hin) in Hf. discriminate.
    + exact Hc.
    + intros _. rewrite Hr. unfold error_text at 1. cbn [text_of]. rewrite Hx, join_eq. f_equal. apply map_ext_in. intros e He. exact (new_text h _ h' r Hw Hb H e He).
  - apply pair_equal_spec in H. destruct H as (<- & <-). split; [exact Hw|]. split; [apply kept_refl|].
    assert (Forall (fun e => e = None) es) as Hn.
    { apply Forall_forall. intros e He. destruct e as [a|]; [|reflexivity]. assert (existsb non_nil es = true) as Hx by (apply existsb_exists; exists (Some a); auto). congruence. }
    split; [tauto|]. split; [|intros Hx; destruct (Hx eq_refl)]. intros t _. split; [intros (a & b & Ea & _); discriminate|]. intros (e & He & Hc). rewrite Forall_forall in Hn. rewrite (Hn e He) in Hc. destruct Hc as (a & b & Ea & _). discriminate.
Qed.

Lemma prefix_all_spec also pes : forall h h' xs, wf h -> Forall (fun pe => valid h (snd pe)) pes -> prefix_all h pes = (h', xs) ->
  wf h' /\ kept h h' /\ length h <= length h' /\
  Forall2 (fun pe x => valid h' x /\ (forall t, t < length h -> (caused also h' x t <-> caused also h (snd pe) t)) /\
                       error_text h' x = fst pe ++ error_text h (snd pe)) pes xs.
Proof.
  induction pes as [|(p & e) pes IH]; intros h h' xs Hw Hv H; cbn [prefix_all] in H.
  - apply pair_equal_spec in H. destruct H as (<- & <-). split; [exact Hw|]. split; [apply kept_refl|]. split; [lia|constructor].
  - destruct (alloc h (NPrefix p e)) as (h1, x) eqn:Ea. destruct (prefix_all h1 pes) as (h2, ys) eqn:Ep. apply pair_equal_spec in H. destruct H as (<- & <-).
    pose proof (Forall_inv Hv) as Hve. cbn [snd] in Hve. pose proof (Forall_inv_tail Hv) as Hvt.
    assert (forall b, In (Some b) (causes (NPrefix p e)) -> b < length h) as Hb by (intros b [E|[]]; exact (Hve b E)).
    destruct (alloc_spec also h (NPrefix p e) h1 x Hw ltac:(discriminate) Hb Ea) as (Hw1 & Hk1 & a & Hx & Ha & Hal & Hc).
    assert (length h1 = S (length h)) as Hl1. { unfold alloc in Ea. apply pair_equal_spec in Ea. destruct Ea as (<- & _). rewrite app_length. cbn [length]. lia. }
    assert (valid h1 x) as Hvx by (rewrite Hx; intros y E; apply some_inj in E; subst y; lia).
    destruct (IH h1 h2 ys Hw1) as (Hw2 & Hk2 & Hl2 & Hf); [|exact Ep|].
    { eapply Forall_impl; [|exact Hvt]. intros q Hq y E. specialize (Hq y E). lia. }
    assert (same_links h1 h2) as Hs12 by exact (kept_links h1 h2 Hl2 Hk2).
    assert (same_links h h1) as Hs01 by (apply kept_links; [lia|exact Hk1]).
    split; [exact Hw2|]. split; [exact (kept_trans _ _ _ Hk1 Hk2)|]. split; [lia|]. constructor.
    + split; [intros y E; specialize (Hvx y E); lia|]. split.
      * intros t Ht. rewrite (caused_same also h1 h2 x t Hw1 Hs12 Hvx), (Hc t Ht). cbn [causes snd]. split; [intros (q & [<-|[]] & Hq); exact Hq|]. intros Hq. exists e. split; [left; reflexivity|exact Hq].
      * rewrite (text_kept h1 h2 x Hw1 Hk2 Hl2 Hvx), Hx. unfold error_text at 1. cbn [text_of fst snd]. rewrite Ha. f_equal. exact (new_text h _ h1 x Hw Hb Ea e (or_introl eq_refl)).
    + assert (forall q y, In q pes -> (valid h2 y /\ (forall t, t < length h1 -> (caused also h2 y t <-> caused also h1 (snd q) t)) /\ error_text h2 y = fst q ++ error_text h1 (snd q)) ->
        (valid h2 y /\ (forall t, t < length h -> (caused also h2 y t <-> caused also h (snd q) t)) /\ error_text h2 y = fst q ++ error_text h (snd q))) as Hmap.
      { intros q y Hq (Q1 & Q2 & Q3). rewrite Forall_forall in Hvt. specialize (Hvt q Hq). split; [exact Q1|]. split.
        - intros t Ht. rewrite (Q2 t ltac:(lia)). exact (caused_same also h h1 (snd q) t Hw Hs01 Hvt).
        - rewrite Q3. f_equal. apply text_kept; [exact Hw|exact Hk1|lia|exact Hvt]. }
      clear -Hf Hmap. induction Hf as [|q y qs ys Hqy Hf IHf]; constructor.
      * apply Hmap; [left; reflexivity|exact Hqy].
      * apply IHf. intros q' y' Hin. apply Hmap. right. exact Hin.
Qed.

Lemma gather_prefixed_spec also h pes h' r : wf h -> Forall (fun pe => valid h (snd pe)) pes -> gather_prefixed h pes = (h', r) ->
  wf h' /\ kept h h' /\ (r = None <-> Forall (fun pe => snd pe = None) pes) /\
  (forall t, t < length h -> (caused also h' r t <-> exists pe, In pe pes /\ caused also h (snd pe) t)) /\
  (r <> None -> error_text h' r = listed (map (fun pe => fst pe ++ error_text h (snd pe)) pes)).
Proof.
  intros Hw Hv H.
  assert (gather_prefixed h pes = if existsb (fun pe => non_nil (snd pe)) pes then let '(h1, xs) := prefix_all h pes in alloc h1 (NGather xs) else (h, None)) as Hg by (destruct pes; reflexivity).
  rewrite Hg in H. clear Hg. destruct (existsb (fun pe => non_nil (snd pe)) pes) eqn:E.
  - destruct (prefix_all h pes) as (h1, xs) eqn:Ep. destruct (prefix_all_spec also pes h h1 xs Hw Hv Ep) as (Hw1 & Hk1 & Hl1 & Hf).
    assert (forall b, In (Some b) (causes (NGather xs)) -> b < length h1) as Hb.
    { intros b Hin. cbn [causes] in Hin. clear -Hf Hin. induction Hf as [|q y qs ys (Hy & _) Hf IHf]; [destruct Hin|]. destruct Hin as [->|Hin]; [exact (Hy b eq_refl)|exact (IHf Hin)]. }
    destruct (alloc_spec also h1 (NGather xs) h' r Hw1 ltac:(discriminate) Hb H) as (Hw2 & Hk2 & x & Hr & Hx & Hxl & Hc).
    split; [exact Hw2|]. split; [exact (kept_trans _ _ _ Hk1 Hk2)|]. split; [|split].
    + rewrite Hr. split; [discriminate|]. intros Hn. exfalso. apply existsb_exists in E. destruct E as (f & Hin & Hnn). rewrite Forall_forall in Hn. rewrite (Hn f Hin) in Hnn. discriminate.
    + intros t Ht. rewrite (Hc t ltac:(lia)). cbn [causes]. clear -Hf Ht. induction Hf as [|q y qs ys (_ & Hy & _) Hf IHf].
      * split; intros (e & [] & _).
      * split.
        -- intros (e & [<-|Hin] & Hce); [exists q; split; [left; reflexivity|apply (Hy t Ht); exact Hce]|].
           destruct (proj1 IHf (ex_intro _ e (conj Hin Hce))) as (pe & Hpe & Hcp). exists pe. split; [right; exact Hpe|exact Hcp].
        -- intros (pe & [<-|Hin] & Hce); [exists y; split; [left; reflexivity|apply (Hy t Ht); exact Hce]|].
           destruct (proj2 IHf (ex_intro _ pe (conj Hin Hce))) as (e & He & Hcp). exists e. split; [right; exact He|exact Hcp].
    + intros _. rewrite Hr. unfold error_text at 1. cbn [text_of]. rewrite Hx, join_eq. f_equal.
      transitivity (map (error_text h1) xs); [apply map_ext_in; intros e He; exact (new_text h1 _ h' r Hw1 Hb H e He)|].
      clear -Hf. induction Hf as [|q y qs ys (_ & _ & Hy) Hf IHf]; [reflexivity|]. cbn [map]. rewrite Hy, IHf. reflexivity.
  - apply pair_equal_spec in H. destruct H as (<- & <-). split; [exact Hw|]. split; [apply kept_refl|].
    assert (Forall (fun pe : str * option nat => snd pe = None) pes) as Hn.
    { apply Forall_forall. intros e He. destruct (snd e) as [a|] eqn:Es; [|reflexivity]. assert (existsb (fun pe => non_nil (snd pe)) pes = true) as Hx by (apply existsb_exists; exists e; rewrite Es; auto). congruence. }
    split; [tauto|]. split; [|intros Hx; destruct (Hx eq_refl)]. intros t _. split; [intros (a & b & Ea & _); discriminate|]. intros (e & He & Hc). rewrite Forall_forall in Hn. rewrite (Hn e He) in Hc. destruct Hc as (a & b & Ea & _). discriminate.
Qed.

(* ---- translateEscape ---- *)

Lemma cause1_in n b : cause1 n = Some b -> In (Some b) (causes n).
Proof. destruct n; cbn; intros H; try discriminate; subst; left; reflexivity. Qed.

Lemma leaf_ends h a l : wf h -> ends h a l -> forall fuel, a <= fuel -> leaf_of h fuel a = l.
Proof.
  intros Hw He. induction He as [a n Hn Hu|a n b l Hn Hu He IH]; intros fuel Hf.
  - destruct fuel; [reflexivity|]. cbn [leaf_of]. rewrite Hn, cause1_eq, Hu. reflexivity.
  - pose proof (Hw _ _ _ Hn (cause1_in _ _ Hu)). destruct fuel; [lia|]. cbn [leaf_of]. rewrite Hn, cause1_eq, Hu. apply IH. lia.
Qed.

Definition first_of (sel : node -> bool) (h : heap) (fuel : nat) : list (option nat) -> option node :=
  fix first (es : list (option nat)) : option node :=
    match es with [] => None | x :: es => match as_type sel h fuel x with Some m => Some m | None => first es end end.
Lemma as_type_eq sel h fuel a : as_type sel h (S fuel) (Some a) =
  match nth_error h a with Some n => if sel n then Some n else first_of sel h fuel (causes n) | None => None end.
Proof. change (as_type sel h (S fuel) (Some a)) with (match nth_error h a with Some n => if sel n then Some n else first_of sel h fuel (unwraps n) | None => None end). destruct (nth_error h a) as [n|]; [rewrite causes_eq|]; reflexivity. Qed.

(* What errors.AsType finds is of the type and is reached. *)
Lemma as_type_sound sel h : forall fuel e n, as_type sel h fuel e = Some n -> sel n = true /\ exists a b, e = Some a /\ reaches h a b /\ nth_error h b = Some n.
Proof.
  induction fuel as [|fuel IH]; intros e n H; [discriminate|]. destruct e as [a|]; [|discriminate]. rewrite as_type_eq in H.
  destruct (nth_error h a) as [m|] eqn:E; [|discriminate]. destruct (sel m) eqn:Es.
  - apply some_inj in H. subst m. split; [exact Es|]. exists a, a. split; [reflexivity|]. split; [apply R_self; exact (nth_lt _ _ _ E)|exact E].
  - assert (exists x, In x (causes m) /\ as_type sel h fuel x = Some n) as (x & Hx & Hn).
    { clear -H. induction (causes m) as [|y ys IHy]; cbn [first_of] in H; [discriminate|]. destruct (as_type sel h fuel y) as [k|] eqn:Ey.
      - apply some_inj in H. subst k. exists y. split; [left; reflexivity|exact Ey].
      - destruct (IHy H) as (x & Hx & Hn). exists x. split; [right; exact Hx|exact Hn]. }
    destruct (IH x n Hn) as (Hs & b & c & -> & Hr & Hc). split; [exact Hs|]. exists a, c. split; [reflexivity|]. split; [exact (R_step h a m b c E Hx Hr)|exact Hc].
Qed.
Lemma as_type_none sel h a fuel : (forall b n, reaches h a b -> nth_error h b = Some n -> sel n = false) -> as_type sel h fuel (Some a) = None.
Proof.
  intros H. destruct (as_type sel h fuel (Some a)) as [n|] eqn:E; [|reflexivity]. destruct (as_type_sound _ _ _ _ _ E) as (Hs & x & b & Ex & Hr & Hb).
  apply some_inj in Ex. subst x. rewrite (H b n Hr Hb) in Hs. discriminate.
Qed.
Lemma as_type_outer h a n sel : wf h -> outermost h a n -> sel n = true -> (forall p e, sel (NPrefix p e) = false) -> forall fuel, a < fuel -> as_type sel h fuel (Some a) = Some n.
Proof.
  intros Hw Ho Hs Hp. induction Ho as [a op path e Hn|a op old new_ e Hn|a p b n Hn Ho IH]; intros fuel Hf; (destruct fuel as [|fuel]; [lia|]); rewrite as_type_eq, Hn.
  - rewrite Hs. reflexivity.
  - rewrite Hs. reflexivity.
  - rewrite Hp. cbn [causes first_of]. rewrite IH; [reflexivity|exact Hs|]. pose proof (Hw _ _ _ Hn (or_introl eq_refl)). lia.
Qed.
Lemma outer_lt h a n : outermost h a n -> a < length h.
Proof. intros [? ? ? ? H|? ? ? ? ? H|? ? ? ? H _]; exact (nth_lt _ _ _ H). Qed.

Lemma translate_other h esc a l : wf h -> ends h a l -> error_text h (Some l) <> escape_text -> translate_escape h esc (Some a) = (h, Some a).
Proof.
  intros Hw He Ht. assert (a < length h) as Ha by (destruct He as [? ? H _|? ? ? ? H _ _]; exact (nth_lt _ _ _ H)).
  unfold translate_escape. rewrite (leaf_ends h a l Hw He) by lia. destruct (bytes_eqb (error_text h (Some l)) escape_text) eqn:E; [|reflexivity].
  apply bytes_eqb_eq in E. contradiction.
Qed.

Lemma reaches_one also h n esc t : wf h -> esc < length h -> (forall m, n <> NLeaf m) -> causes n = [Some esc] -> t < length h ->
  (caused also (h ++ [n]) (Some (length h)) t <-> caused also h (Some esc) t).
Proof.
  intros Hw He Hl Hu Ht. rewrite (caused_new also h n t Hw Hl); [|rewrite Hu; intros b [E|[]]; apply some_inj in E; subst b; exact He|exact Ht].
  rewrite Hu. split; [intros (e & [<-|[]] & H); exact H|]. intros H. exists (Some esc). split; [left; reflexivity|exact H].
Qed.

Lemma translate_escapes also h esc a l h' r : wf h -> esc < length h -> ends h a l -> error_text h (Some l) = escape_text -> translate_escape h esc (Some a) = (h', r) ->
  wf h' /\ kept h h' /\ (forall t, t < length h -> (caused also h' r t <-> caused also h (Some esc) t)).
Proof.
  intros Hw Hesc He Ht H. assert (a < length h) as Ha by (destruct He as [? ? H0 _|? ? ? ? H0 _ _]; exact (nth_lt _ _ _ H0)).
  unfold translate_escape in H. rewrite (leaf_ends h a l Hw He) in H by lia. rewrite Ht, (proj2 (bytes_eqb_eq _ _) eq_refl) in H. cbn [negb] in H.
  assert (forall n, (forall m, n <> NLeaf m) -> causes n = [Some esc] -> alloc h n = (h', r) -> wf h' /\ kept h h' /\ (forall t, t < length h -> (caused also h' r t <-> caused also h (Some esc) t))) as Hal.
  { intros n Hn Hu Ha'. unfold alloc in Ha'. apply pair_equal_spec in Ha'. destruct Ha' as (<- & <-). split; [|split; [apply kept_app|]].
    - apply wf_app; [exact Hw|]. rewrite Hu. intros b [E|[]]. apply some_inj in E. subst b. exact Hesc.
    - intros t Htl. exact (reaches_one also h n esc t Hw Hesc Hn Hu Htl). }
  assert ((h, Some esc) = (h', r) -> wf h' /\ kept h h' /\ (forall t, t < length h -> (caused also h' r t <-> caused also h (Some esc) t))) as Hself.
  { intros E. apply pair_equal_spec in E. destruct E as (<- & <-). split; [exact Hw|]. split; [apply kept_refl|]. reflexivity. }
  destruct (as_type is_path h (S (length h)) (Some a)) as [[m|op path e|op old new_ e|p e|es]|] eqn:Ep.
  2: { exact (Hal (NPath op path (Some esc)) ltac:(discriminate) eq_refl H). }
  all: destruct (as_type is_link h (S (length h)) (Some a)) as [[m2|op2 path2 e2|op2 old2 new2 e2|p2 e2|es2]|] eqn:El; try exact (Hself H).
  all: exact (Hal (NLink op2 old2 new2 (Some esc)) ltac:(discriminate) eq_refl H).
Qed.

Lemma translate_path h esc a l op path e h' r : wf h -> ends h a l -> error_text h (Some l) = escape_text -> translate_escape h esc (Some a) = (h', r) ->
  outermost h a (NPath op path e) -> exists b, r = Some b /\ nth_error h' b = Some (NPath op path (Some esc)).
Proof.
  intros Hw He Ht H Ho. pose proof (outer_lt _ _ _ Ho) as Ha. unfold translate_escape in H. rewrite (leaf_ends h a l Hw He) in H by lia. rewrite Ht, (proj2 (bytes_eqb_eq _ _) eq_refl) in H. cbn [negb] in H.
  rewrite (as_type_outer h a _ is_path Hw Ho eq_refl) in H; [|reflexivity|lia]. unfold alloc in H. apply pair_equal_spec in H. destruct H as (<- & <-).
  exists (length h). split; [reflexivity|apply nth_here].
Qed.
Lemma translate_link h esc a l op old new_ e h' r : wf h -> ends h a l -> error_text h (Some l) = escape_text -> translate_escape h esc (Some a) = (h', r) ->
  outermost h a (NLink op old new_ e) -> (forall b n, reaches h a b -> nth_error h b = Some n -> is_path n = false) ->
  exists b, r = Some b /\ nth_error h' b = Some (NLink op old new_ (Some esc)).
Proof.
  intros Hw He Ht H Ho Hno. pose proof (outer_lt _ _ _ Ho) as Ha. unfold translate_escape in H. rewrite (leaf_ends h a l Hw He) in H by lia. rewrite Ht, (proj2 (bytes_eqb_eq _ _) eq_refl) in H. cbn [negb] in H.
  rewrite (as_type_none is_path h a _ Hno) in H.
  rewrite (as_type_outer h a _ is_link Hw Ho eq_refl) in H; [|reflexivity|lia]. unfold alloc in H. apply pair_equal_spec in H. destruct H as (<- & <-).
  exists (length h). split; [reflexivity|apply nth_here].
Qed.

(* ---- in the words of the specification ---- *)

Lemma wrap_path_all also h op path e h' r : wf h -> valid h e -> wrap_path_err h op path e = (h', r) ->
  (r = None <-> e = None) /\ wf h' /\ valid h' r /\
  (forall t, t < length h -> (caused also h' r t <-> caused also h e t)) /\
  (forall x t, x < length h -> (caused also h' (Some x) t <-> caused also h (Some x) t)) /\
  (forall x n, nth_error h x = Some n -> ~ (e = Some x /\ path_error n) -> nth_error h' x = Some n).
Proof.
  intros Hw Hv H. destruct (wrap_path_spec also _ _ _ _ _ _ Hw Hv H) as (H1 & H2 & H3 & H4 & H5 & H6). split; [exact H3|]. split; [exact H1|]. split; [exact H2|]. split; [exact H4|]. split; [exact H5|].
  intros x n Hx Hno. destruct (H6 x n Hx) as [E|(E & Ep)]; [exact E|]. destruct Hno. split; [exact E|apply is_path_iff; exact Ep].
Qed.
Lemma wrap_link_all also h op old new_ e h' r : wf h -> valid h e -> wrap_link_err h op old new_ e = (h', r) ->
  (r = None <-> e = None) /\ wf h' /\ valid h' r /\
  (forall t, t < length h -> (caused also h' r t <-> caused also h e t)) /\
  (forall x t, x < length h -> (caused also h' (Some x) t <-> caused also h (Some x) t)) /\
  (forall x n, nth_error h x = Some n -> ~ (e = Some x /\ link_error n) -> nth_error h' x = Some n).
Proof.
  intros Hw Hv H. destruct (wrap_link_spec also _ _ _ _ _ _ _ Hw Hv H) as (H1 & H2 & H3 & H4 & H5 & H6). split; [exact H3|]. split; [exact H1|]. split; [exact H2|]. split; [exact H4|]. split; [exact H5|].
  intros x n Hx Hno. destruct (H6 x n Hx) as [E|(E & Ep)]; [exact E|]. destruct Hno. split; [exact E|apply is_link_iff; exact Ep].
Qed.
Lemma not_path n : ~ path_error n -> is_path n = false.
Proof. intros H. destruct (is_path n) eqn:E; [|reflexivity]. destruct H. apply is_path_iff. exact E. Qed.
Lemma wrap_path_quiet h op path e h' r : wf h -> valid h e -> (forall a n, e = Some a -> nth_error h a = Some n -> ~ path_error n) ->
  wrap_path_err h op path e = (h', r) -> forall x, x < length h -> error_text h' (Some x) = error_text h (Some x).
Proof. intros Hw Hv Hno. apply wrap_path_others; [exact Hw|exact Hv|]. intros a n Ha Hn. apply not_path. exact (Hno a n Ha Hn). Qed.
Lemma translate_link_all h esc a l op old new_ e h' r : wf h -> ends h a l -> error_text h (Some l) = escape_text -> translate_escape h esc (Some a) = (h', r) ->
  outermost h a (NLink op old new_ e) -> (forall b n, reaches h a b -> nth_error h b = Some n -> ~ path_error n) ->
  exists b, r = Some b /\ nth_error h' b = Some (NLink op old new_ (Some esc)).
Proof. intros Hw He Ht H Ho Hno. apply (translate_link h esc a l op old new_ e h' r Hw He Ht H Ho). intros b n Hr Hn. apply not_path. exact (Hno b n Hr Hn). Qed.
