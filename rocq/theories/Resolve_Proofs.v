(* Proofs about symlink resolution. *)
From Verif Require Import Common CommonLemmas ContentRange_Model ContentRange_Proofs PathLex_Model PathLex_Proofs
  Resolve_Model Resolve_Spec.
Open Scope nat_scope.

Lemma rp_loop_eq fs fuel cur don todo :
  rp_loop fs fuel cur don todo =
    match todo with
    | [] => ROk (join_sep don) cur
    | c :: rest =>
        let resolved := join_sep (don ++ [c]) in
        match lstat fs resolved with
        | LErr e => RFail (join_sep (don ++ c :: rest)) (ErrSys e)
        | LOther => rp_loop fs fuel cur (don ++ [c]) rest
        | LLink =>
            let '(q, num, e) := resolve_symlink fs resolved (max_links - cur) in
            match e with
            | Some e => RFail resolved e
            | None =>
                let cur := cur + num in
                let shown := match q with [] => resolved | _ => q end in
                if max_links <=? cur then RFail shown ErrLoop
                else if is_empty q || negb (is_local q) then RFail shown ErrEscapes
                else
                  match fuel with
                  | O => RFuel
                  | S fuel => rp_loop fs fuel cur [] (split_sep q ++ rest)
                  end
            end
        end
    end.
Proof. destruct fuel, todo; reflexivity. Qed.

Lemma rs_loop_count fs n : forall i r q num e, rs_loop fs n i r = (q, num, e) ->
  i <= num <= i + n /\ (e = None -> i < num).
Proof.
  induction n as [|n IH]; intros i r q num e H; cbn [rs_loop] in H.
  - injection H as <- <- <-. split; [lia|discriminate].
  - destruct (readlink fs r) as [c|t]; [injection H as <- <- <-; split; [lia|discriminate]|].
    cbv zeta in H. destruct (rooted (clean t)); [injection H as <- <- <-; split; lia|].
    destruct (negb (is_local (join2 (dir r) (clean t)))); [injection H as <- <- <-; split; lia|].
    destruct (lstat fs (join2 (dir r) (clean t))).
    + injection H as <- <- <-. split; [lia|discriminate].
    + destruct (IH _ _ _ _ _ H) as [H1 H2]. split; [lia|]. intros He. specialize (H2 He). lia.
    + injection H as <- <- <-. split; lia.
Qed.

Lemma clean_join2 a b : a <> [] -> clean (join2 a b) = join2 a b.
Proof. intros Ha. destruct a as [|x a]; [contradiction|]. unfold join2. apply clean_idem. Qed.

Lemma dir_nonempty p : dir p <> [].
Proof. rewrite <- clean_dir. apply clean_nonempty. Qed.

(* A text that comes out of ResolveSymlink is a clean path. *)
Lemma rs_loop_clean fs n : forall i r q num e, rs_loop fs n i r = (q, num, e) -> q = [] \/ clean q = q.
Proof.
  induction n as [|n IH]; intros i r q num e H; cbn [rs_loop] in H.
  - injection H as <- _ _. left; reflexivity.
  - destruct (readlink fs r) as [c|t]; [injection H as <- _ _; left; reflexivity|].
    cbv zeta in H. destruct (rooted (clean t)); [injection H as <- _ _; left; reflexivity|].
    destruct (negb (is_local (join2 (dir r) (clean t)))); [injection H as <- _ _; left; reflexivity|].
    destruct (lstat fs (join2 (dir r) (clean t))).
    + injection H as <- _ _. left; reflexivity.
    + exact (IH _ _ _ _ _ H).
    + injection H as <- _ _. right. apply clean_join2. apply dir_nonempty.
Qed.


Lemma good_sepfree l : good l -> Forall sepfree l.
Proof.
  intros [_ [H|(l' & -> & H)]]; [apply proper_sepfree; exact H|].
  constructor; [apply dot_sepfree|apply proper_sepfree; exact H].
Qed.

Lemma good_app l c : good l -> Forall proper c -> good (l ++ c).
Proof.
  intros [Hn [H|(l' & -> & H)]] Hc.
  - split; [destruct l; [contradiction|discriminate]|]. left. apply Forall_app. auto.
  - split; [discriminate|]. right. exists (l' ++ c). split; [reflexivity|]. apply Forall_app. auto.
Qed.

Lemma good_rest don c rest : good (don ++ c :: rest) -> Forall proper rest.
Proof.
  intros [_ [H|(l' & E & H)]].
  - apply Forall_app in H. destruct H as [_ H]. inversion H; assumption.
  - destruct don as [|x don]; cbn [app] in E; injection E as -> E.
    + subst. exact H.
    + subst l'. apply Forall_app in H. destruct H as [_ H]. inversion H; assumption.
Qed.

Lemma local_clean_good q : clean q = q -> is_local q = true -> good (split_sep q).
Proof.
  intros Hc Hl. apply is_local_comps in Hl. destruct Hl as (Hne & Hr & Hp). unfold clean in Hc. rewrite Hr in Hc.
  rewrite <- Hc. rewrite split_render by (apply (clean_comps_normal false); apply split_sepfree).
  destruct (clean_comps false (split_sep q)) as [|x l]; (split; [discriminate|]).
  - right. exists []. auto.
  - left. exact Hp.
Qed.

Lemma good_local l : good l -> is_local (join_sep l) = true.
Proof.
  intros Hg. pose proof (good_sepfree l Hg) as Hs. destruct Hg as [Hn Hg].
  apply is_local_comps. rewrite split_join by assumption. split; [|split].
  - destruct Hg as [H|(l' & -> & H)].
    + destruct l as [|x [|y l]]; [contradiction| |]; inversion H as [|? ? Hx _]; subst.
      * apply Hx.
      * rewrite join_cons by discriminate. intros E. apply app_eq_nil in E. destruct E as [_ E]. discriminate E.
    + destruct l'; discriminate.
  - destruct Hg as [H|(l' & -> & H)].
    + destruct l as [|x l]; [contradiction|]. inversion H as [|? ? Hx _]; subst.
      assert (rooted (x ++ match l with [] => [] | _ => sep :: join_sep l end) = false) as Hr.
      { destruct x as [|b x]; [destruct Hx as [Hx _]; contradiction|]. cbn [app rooted]. apply N.eqb_neq. intros ->.
        destruct Hx as (_ & _ & _ & Hx). apply Hx. left; reflexivity. }
      destruct l as [|y l]; [rewrite app_nil_r in Hr; exact Hr|]. rewrite join_cons by discriminate. exact Hr.
    + destruct l' as [|y l']; [reflexivity|]. rewrite join_cons by discriminate. reflexivity.
  - destruct Hg as [H|(l' & -> & H)].
    + unfold clean_comps. rewrite fold_proper by exact H. rewrite app_nil_r, rev_involutive. exact H.
    + unfold clean_comps. cbn [fold_left]. change (clean_step false [] [dot]) with (@nil (list byte)).
      rewrite fold_proper by exact H. rewrite app_nil_r, rev_involutive. exact H.
Qed.

Lemma link_free_snoc fs don c : link_free fs don -> lstat fs (join_sep (don ++ [c])) = LOther -> link_free fs (don ++ [c]).
Proof.
  intros H Hc k Hk. rewrite app_length in Hk. cbn [length] in Hk.
  destruct (Nat.eq_dec k (length don + 1)) as [->|Hne].
  - rewrite firstn_all2 by (rewrite app_length; cbn; lia). exact Hc.
  - rewrite firstn_app. replace (k - length don) with 0 by lia. cbn [firstn]. rewrite app_nil_r. apply H. lia.
Qed.

Lemma link_free_nil fs : link_free fs [].
Proof. intros k Hk. cbn in Hk. lia. Qed.

Lemma rp_loop_spec fs fuel : forall todo cur don res,
  cur < max_links -> max_links <= fuel + cur -> link_free fs don -> (good (don ++ todo)) ->
  rp_loop fs fuel cur don todo = res ->
  res <> RFuel /\ forall p n, res = ROk p n -> exists l, p = join_sep l /\ link_free fs l /\ good l /\ n < max_links.
Proof.
  induction fuel as [|fuel IHf]; intros todo; induction todo as [|c rest IHt]; intros cur don res Hc Hf Hl Hg H;
    rewrite rp_loop_eq in H; cbv zeta in H.
  - subst res. split; [discriminate|]. intros p n E. injection E as <- <-. rewrite app_nil_r in Hg. exists don. auto.
  - exfalso. unfold max_links in *. lia.
  - subst res. split; [discriminate|]. intros p n E. injection E as <- <-. rewrite app_nil_r in Hg. exists don. auto.
  - destruct (lstat fs (join_sep (don ++ [c]))) eqn:El.
    + subst res. split; [discriminate|]. discriminate.
    + destruct (resolve_symlink fs (join_sep (don ++ [c])) (max_links - cur)) as [[q num] e] eqn:Er.
      unfold resolve_symlink in Er. destruct (rs_loop_count _ _ _ _ _ _ _ Er) as [Hn1 Hn2].
      pose proof (rs_loop_clean _ _ _ _ _ _ _ Er) as Hq.
      destruct e as [e|]; [subst res; split; discriminate|]. specialize (Hn2 eq_refl).
      destruct (Nat.leb_spec max_links (cur + num)) as [Hm|Hm]; [subst res; split; discriminate|].
      destruct (is_empty q || negb (is_local q)) eqn:Eq; [subst res; split; discriminate|].
      apply orb_false_iff in Eq. destruct Eq as [Eq1 Eq2]. apply negb_false_iff in Eq2.
      destruct Hq as [->|Hq]; [discriminate Eq1|].
      eapply (IHf (split_sep q ++ rest) (cur + num) []); [exact Hm|lia|apply link_free_nil| |exact H].
      cbn [app]. apply good_app; [apply local_clean_good; assumption|]. eapply good_rest. exact Hg.
    + eapply (IHt cur (don ++ [c])); [exact Hc|exact Hf|apply link_free_snoc; assumption| |exact H].
      rewrite <- app_assoc. exact Hg.
Qed.

Lemma clean_local_good name : clean name = name -> is_local name = true -> name <> [dot] -> Forall proper (split_sep name) .
Proof.
  intros Hc Hl Hd. pose proof Hl as Hl'. apply is_local_comps in Hl'. destruct Hl' as (Hne & Hr & Hp). unfold clean in Hc. rewrite Hr in Hc.
  rewrite <- Hc. rewrite split_render by (apply (clean_comps_normal false); apply split_sepfree).
  destruct (clean_comps false (split_sep name)) as [|x l] eqn:E; [|exact Hp].
  exfalso. apply Hd. rewrite <- Hc. reflexivity.
Qed.

Lemma join_snoc l c : l <> [] -> join_sep l ++ sep :: c = join_sep (l ++ [c]).
Proof. intros H. rewrite join_app by (auto; discriminate). reflexivity. Qed.

Lemma app_removelast_last' {A} (l : list A) d : l <> [] -> l = removelast l ++ [last l d].
Proof. apply app_removelast_last. Qed.

(* C24: termination and the shape of a result. *)
Lemma resolve_path_shape fs name skip :
  resolve_path fs name skip <> RFuel /\
  forall p n, resolve_path fs name skip = ROk p n ->
    is_local p = true /\ n < max_links /\
    exists l, p = join_sep l /\ good l /\
      (p = [dot] \/ link_free fs (if skip then removelast l else l)).
Proof.
  unfold resolve_path. destruct (bytes_eqb (clean name) [dot]) eqn:Ed.
  { split; [discriminate|]. intros p n H. injection H as <- <-. split; [reflexivity|]. split; [unfold max_links; lia|].
    exists [[dot]]. split; [reflexivity|]. split; [split; [discriminate|right; exists []; auto]|]. left; reflexivity. }
  assert (clean name <> [dot]) as Hd by (intros E; apply bytes_eqb_eq in E; congruence).
  destruct (is_local (clean name)) eqn:El; cbn [negb]; [|split; [discriminate|discriminate]].
  pose proof (clean_local_good (clean name) (clean_idem name) El Hd) as Hp.
  pose proof (split_nonempty (clean name)) as Hne.
  assert (good (split_sep (clean name))) as Hg by (split; [exact Hne|left; exact Hp]).
  destruct skip.
  - destruct (removelast (split_sep (clean name))) as [|x d] eqn:Er.
    + split; [discriminate|]. intros p n H. injection H as <- <-. split; [exact El|]. split; [unfold max_links; lia|].
      exists (split_sep (clean name)). split; [symmetry; apply join_split|]. split; [exact Hg|]. right. rewrite Er. apply link_free_nil.
    + pose proof (app_removelast_last' _ [] Hne) as Hs. rewrite Er in Hs.
      assert (Forall proper ((x :: d) ++ [last (split_sep (clean name)) []])) as Hp2 by (rewrite <- Hs; exact Hp).
      apply Forall_app in Hp2. destruct Hp2 as [Hp1 Hp2].
      destruct (rp_loop fs max_links 0 [] (x :: d)) as [p0 n0|p0 e0|] eqn:Eq.
      * destruct (rp_loop_spec fs max_links (x :: d) 0 [] _ ltac:(unfold max_links; lia) ltac:(lia) (link_free_nil fs)
          (conj (fun E => nil_cons (eq_sym E)) (or_introl Hp1)) Eq) as [_ H2].
        destruct (H2 _ _ eq_refl) as (l & -> & Hl1 & Hl2 & Hl3). split; [discriminate|].
        intros p n H. injection H as <- <-.
        assert (join_sep l ++ sep :: last (split_sep (clean name)) [] = join_sep (l ++ [last (split_sep (clean name)) []])) as Ej
          by (apply join_snoc; apply Hl2).
        rewrite Ej. assert (good (l ++ [last (split_sep (clean name)) []])) as Hg2 by (apply good_app; assumption).
        split; [apply good_local; exact Hg2|]. split; [exact Hl3|].
        exists (l ++ [last (split_sep (clean name)) []]). split; [reflexivity|]. split; [exact Hg2|]. right.
        rewrite removelast_app by discriminate. cbn [removelast]. rewrite app_nil_r. exact Hl1.
      * split; discriminate.
      * destruct (rp_loop_spec fs max_links (x :: d) 0 [] _ ltac:(unfold max_links; lia) ltac:(lia) (link_free_nil fs)
          (conj (fun E => nil_cons (eq_sym E)) (or_introl Hp1)) Eq) as [H1 _]. contradiction.
  - destruct (rp_loop_spec fs max_links (split_sep (clean name)) 0 [] _ ltac:(unfold max_links; lia) ltac:(lia) (link_free_nil fs) Hg eq_refl) as [H1 H2].
    split; [exact H1|]. intros p n H. destruct (H2 _ _ H) as (l & -> & Hl1 & Hl2 & Hl3).
    split; [apply good_local; exact Hl2|]. split; [exact Hl3|]. exists l. split; [reflexivity|]. split; [exact Hl2|]. right. exact Hl1.
Qed.

(* A name that is absolute or climbs out is refused without asking the file system. *)
Lemma resolve_path_nonlocal fs name skip : is_local (clean name) = false -> resolve_path fs name skip = RFail [] ErrEscapes.
Proof.
  intros H. unfold resolve_path. destruct (bytes_eqb (clean name) [dot]) eqn:E.
  - apply bytes_eqb_eq in E. rewrite E in H. discriminate.
  - rewrite H. reflexivity.
Qed.
