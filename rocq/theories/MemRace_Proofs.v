From Verif Require Import Common CommonLemmas Views_Model MemBuf_Model MemBuf_Spec MemBuf_Proofs MemRace_Model MemRace_Spec.
Open Scope Z_scope.

Definition call_of (p : pc) : option (nat * cop) :=
  match p with
  | Idle => None
  | Called h o | Entered h o | Holding h o | Moving h o _ _ | Leaving h o _ | Done h o _ => Some (h, o)
  | Sized h p => Some (h, CWrite p)
  end.
Definition result_of (p : pc) : option mres :=
  match p with Moving _ _ _ r | Leaving _ _ r | Done _ _ r => Some r | _ => None end.
Definition holds (p : pc) : option nat :=
  match p with Holding h _ | Sized h _ | Moving h _ _ _ | Leaving h _ _ => Some h | _ => None end.
Definition opt {A} (x : option A) : list A := match x with Some a => [a] | None => [] end.

Lemma set_same {A} (l : list A) i x y : nth_error l i = Some y -> nth_error (set_nth l i x) i = Some x.
Proof. intros H. rewrite nth_error_set_nth, Nat.eqb_refl, H. reflexivity. Qed.
Lemma set_other {A} (l : list A) i j x : j <> i -> nth_error (set_nth l i x) j = nth_error l j.
Proof. intros H. rewrite nth_error_set_nth. destruct (Nat.eqb_spec j i); [contradiction|reflexivity]. Qed.
Lemma set_inv {A} (l : list A) i j x y z : nth_error l i = Some y -> nth_error (set_nth l i x) j = Some z ->
  (j = i /\ z = x) \/ (j <> i /\ nth_error l j = Some z).
Proof.
  intros H. destruct (Nat.eq_dec j i) as [->|N].
  - rewrite (set_same _ _ _ _ H). intros E. apply some_inj in E. auto.
  - rewrite set_other by exact N. auto.
Qed.

(* ---- the order of the calls ---- *)

Lemma invs_snoc i e x : invs i (e ++ [x]) = invs i e ++ match x with Inv j h o => if Nat.eqb j i then [(h, o)] else [] | _ => [] end.
Proof. unfold invs. rewrite flat_map_app. cbn [flat_map]. rewrite app_nil_r. reflexivity. Qed.
Lemma rets_snoc i e x : rets i (e ++ [x]) = rets i e ++ match x with Ret j h o r => if Nat.eqb j i then [(h, o, r)] else [] | _ => [] end.
Proof. unfold rets. rewrite flat_map_app. cbn [flat_map]. rewrite app_nil_r. reflexivity. Qed.
Lemma of_snoc i l j h o r : of i (l ++ [(j, h, o, r)]) = of i l ++ if Nat.eqb j i then [(h, o, r)] else [].
Proof. unfold of. rewrite flat_map_app. cbn [flat_map]. rewrite app_nil_r. reflexivity. Qed.

Lemma in_order_lin e l x : in_order e l -> in_order e (l ++ [x]).
Proof.
  intros H e1 e2 E. destruct (H e1 e2 E) as (l1 & l2 & -> & Hp). exists l1, (l2 ++ [x]). rewrite app_assoc. auto.
Qed.
Lemma last_cases {A} (l : list A) : l = [] \/ exists a x, l = a ++ [x].
Proof.
  destruct l as [|y l]; [auto|right]. destruct (exists_last (l := y :: l)) as (a & x & E); [discriminate|]. eauto.
Qed.
Lemma in_order_event e l x : in_order e l -> placed (e ++ [x]) l -> in_order (e ++ [x]) l.
Proof.
  intros H Hp e1 e2 E. destruct (last_cases e2) as [->|(e3 & y & ->)].
  - exists l, []. rewrite !app_nil_r in *. subst e1. auto.
  - rewrite app_assoc in E. apply app_inj_tail in E as [-> _]. apply (H e1 e3). reflexivity.
Qed.

(* Part one: calls, returns and the order agree with where the goroutines are. *)
Definition books (e : list event) (l : list item) (i : nat) (p : pc) : Prop :=
  invs i e = map fst (rets i e) ++ opt (call_of p) /\
  of i l = rets i e ++ match call_of p, result_of p with Some (h, o), Some r => [(h, o, r)] | _, _ => [] end.

Record booked (all : list (nat * cop)) (w : world) (l : list item) : Prop := Booked {
  b_order : in_order (w_ev w) l;
  b_books : forall i t, nth_error (w_gs w) i = Some t -> books (w_ev w) l i (g_pc t);
  b_none : forall i, nth_error (w_gs w) i = None -> books (w_ev w) l i Idle;
  b_calls : forall i t, nth_error (w_gs w) i = Some t -> Forall (fun c => In c all) (g_todo t) /\ (forall c, call_of (g_pc t) = Some c -> In c all)
}.

Lemma books_placed e l : (forall i, exists p, books e l i p) -> placed e l.
Proof.
  intros H i. destruct (H i) as (p & H1 & H2). split.
  - rewrite H2. eexists. reflexivity.
  - rewrite H1, H2, map_app. destruct (call_of p) as [[h o]|] eqn:Ec; [destruct (result_of p) as [r|]|]; cbn [map fst opt].
    + exists []. now rewrite app_nil_r.
    + exists [(h, o)]. now rewrite app_nil_r.
    + exists []. now rewrite !app_nil_r.
Qed.

Lemma booked_placed all w l : booked all w l -> placed (w_ev w) l.
Proof.
  intros [_ Hb Hn _]. apply books_placed. intros i. destruct (nth_error (w_gs w) i) as [t|] eqn:E; eauto.
Qed.

(* Somebody else's event or place in the order. *)
Lemma books_other_ev e l i p x :
  match x with Inv j _ _ | Ret j _ _ _ => j <> i end -> books e l i p -> books (e ++ [x]) l i p.
Proof.
  intros Hx [H1 H2]. unfold books. rewrite invs_snoc, rets_snoc.
  destruct x as [j h o|j h o r]; destruct (Nat.eqb_spec j i); try contradiction; rewrite !app_nil_r; auto.
Qed.
Lemma books_other_l e l i p j h o r : j <> i -> books e l i p -> books e (l ++ [(j, h, o, r)]) i p.
Proof.
  intros Hx [H1 H2]. unfold books. rewrite of_snoc. destruct (Nat.eqb_spec j i); [contradiction|]. rewrite !app_nil_r. auto.
Qed.
Lemma books_same e l i p p' : call_of p' = call_of p -> result_of p' = result_of p -> books e l i p -> books e l i p'.
Proof. intros E1 E2 H. unfold books. rewrite E1, E2. exact H. Qed.

Section Books.
Variable all : list (nat * cop).
Variables (w : world) (l : list item) (i : nat) (t : gor).
Hypothesis Hb : booked all w l.
Hypothesis Ht : nth_error (w_gs w) i = Some t.

Lemma none_after x j : nth_error (set_nth (w_gs w) i x) j = None -> j <> i /\ nth_error (w_gs w) j = None.
Proof.
  intros H. destruct (Nat.eq_dec j i) as [->|N]; [rewrite (set_same _ _ _ _ Ht) in H; discriminate|].
  rewrite set_other in H by exact N. auto.
Qed.

(* A step within a call. *)
Lemma booked_same w' p' : call_of p' = call_of (g_pc t) -> result_of p' = result_of (g_pc t) ->
  w_ev w' = w_ev w -> w_gs w' = set_nth (w_gs w) i (Gor (g_todo t) p') -> booked all w' l.
Proof.
  intros E1 E2 Ev Eg. destruct Hb as [H1 H2 H3 H4]. constructor; rewrite ?Ev, ?Eg.
  - exact H1.
  - intros j u Hj. destruct (set_inv _ _ _ _ _ _ Ht Hj) as [[-> ->]|[_ Hj']]; [|auto].
    cbn [g_pc]. apply (books_same _ _ _ (g_pc t)); auto.
  - intros j Hj. apply none_after in Hj as [_ Hj]. auto.
  - intros j u Hj. destruct (set_inv _ _ _ _ _ _ Ht Hj) as [[-> ->]|[_ Hj']]; [|exact (H4 j u Hj')].
    cbn [g_pc g_todo]. rewrite E1. apply (H4 i t Ht).
Qed.

(* The step at which a call happens. *)
Lemma booked_lin w' p' h o r : call_of (g_pc t) = Some (h, o) -> result_of (g_pc t) = None ->
  call_of p' = Some (h, o) -> result_of p' = Some r ->
  w_ev w' = w_ev w -> w_gs w' = set_nth (w_gs w) i (Gor (g_todo t) p') -> booked all w' (l ++ [(i, h, o, r)]).
Proof.
  intros C1 R1 C2 R2 Ev Eg. destruct Hb as [H1 H2 H3 H4]. constructor; rewrite ?Ev, ?Eg.
  - apply in_order_lin. exact H1.
  - intros j u Hj. destruct (set_inv _ _ _ _ _ _ Ht Hj) as [[-> ->]|[N Hj']].
    + cbn [g_pc]. destruct (H2 i t Ht) as [B1 B2]. unfold books. rewrite C2, R2. rewrite C1, R1 in *. split; [exact B1|].
      rewrite of_snoc, Nat.eqb_refl, B2, app_nil_r. reflexivity.
    + apply books_other_l; [congruence|auto].
  - intros j Hj. apply none_after in Hj as [N Hj]. apply books_other_l; [congruence|auto].
  - intros j u Hj. destruct (set_inv _ _ _ _ _ _ Ht Hj) as [[-> ->]|[_ Hj']]; [|exact (H4 j u Hj')].
    cbn [g_pc g_todo]. rewrite C2, <- C1. apply (H4 i t Ht).
Qed.

Lemma booked_call h o rest : g_pc t = Idle -> g_todo t = (h, o) :: rest ->
  booked all (World (w_buf w) (w_hs w) (set_nth (w_gs w) i (Gor rest (Called h o))) (w_ev w ++ [Inv i h o])) l.
Proof.
  intros P1 T1. destruct Hb as [H1 H2 H3 H4].
  assert (forall j u, nth_error (set_nth (w_gs w) i (Gor rest (Called h o))) j = Some u -> books (w_ev w ++ [Inv i h o]) l j (g_pc u)) as A.
  { intros j u Hj. destruct (set_inv _ _ _ _ _ _ Ht Hj) as [[-> ->]|[N Hj']].
    - destruct (H2 i t Ht) as [B1 B2]. rewrite P1 in B1, B2. cbn [g_pc]. unfold books. rewrite invs_snoc, rets_snoc, Nat.eqb_refl.
      cbn [call_of result_of opt] in *. rewrite B1, !app_nil_r in *. auto.
    - apply books_other_ev; [congruence|auto]. }
  assert (forall j, nth_error (set_nth (w_gs w) i (Gor rest (Called h o))) j = None -> books (w_ev w ++ [Inv i h o]) l j Idle) as B.
  { intros j Hj. apply none_after in Hj as [N Hj]. apply books_other_ev; [congruence|auto]. }
  constructor; cbn [w_ev w_gs]; [|exact A|exact B|].
  - apply in_order_event; [exact H1|]. apply books_placed. intros j.
    destruct (nth_error (set_nth (w_gs w) i (Gor rest (Called h o))) j) as [u|] eqn:E; eauto.
  - intros j u Hj. destruct (set_inv _ _ _ _ _ _ Ht Hj) as [[-> ->]|[_ Hj']]; [|exact (H4 j u Hj')].
    cbn [g_pc g_todo call_of]. destruct (H4 i t Ht) as [F _]. rewrite T1 in F. inversion F; subst. split; [assumption|].
    intros c E. apply some_inj in E. now subst c.
Qed.

Lemma booked_return h o r : g_pc t = Done h o r ->
  booked all (World (w_buf w) (w_hs w) (set_nth (w_gs w) i (Gor (g_todo t) Idle)) (w_ev w ++ [Ret i h o r])) l.
Proof.
  intros P1. destruct Hb as [H1 H2 H3 H4].
  assert (forall j u, nth_error (set_nth (w_gs w) i (Gor (g_todo t) Idle)) j = Some u -> books (w_ev w ++ [Ret i h o r]) l j (g_pc u)) as A.
  { intros j u Hj. destruct (set_inv _ _ _ _ _ _ Ht Hj) as [[-> ->]|[N Hj']].
    - destruct (H2 i t Ht) as [B1 B2]. rewrite P1 in B1, B2. cbn [g_pc]. unfold books. rewrite invs_snoc, rets_snoc, Nat.eqb_refl.
      cbn [call_of result_of opt] in *. rewrite B1, B2, map_app, !app_nil_r. auto.
    - apply books_other_ev; [congruence|auto]. }
  assert (forall j, nth_error (set_nth (w_gs w) i (Gor (g_todo t) Idle)) j = None -> books (w_ev w ++ [Ret i h o r]) l j Idle) as B.
  { intros j Hj. apply none_after in Hj as [N Hj]. apply books_other_ev; [congruence|auto]. }
  constructor; cbn [w_ev w_gs]; [|exact A|exact B|].
  - apply in_order_event; [exact H1|]. apply books_placed. intros j.
    destruct (nth_error (set_nth (w_gs w) i (Gor (g_todo t) Idle)) j) as [u|] eqn:E; eauto.
  - intros j u Hj. destruct (set_inv _ _ _ _ _ _ Ht Hj) as [[-> ->]|[_ Hj']]; [|exact (H4 j u Hj')].
    cbn [g_pc g_todo call_of]. split; [apply (H4 i t Ht)|discriminate].
Qed.
End Books.

(* ---- the mutexes ---- *)

Record locked (w : world) : Prop := Locked {
  k_held : forall i t h c, nth_error (w_gs w) i = Some t -> holds (g_pc t) = Some h -> nth_error (w_hs w) h = Some c -> x_mu c = true;
  k_excl : forall i j t u h, nth_error (w_gs w) i = Some t -> nth_error (w_gs w) j = Some u ->
    holds (g_pc t) = Some h -> holds (g_pc u) = Some h -> i = j
}.

Lemma locked_excl w i t p' todo' : locked w -> nth_error (w_gs w) i = Some t -> (holds p' = holds (g_pc t) \/ holds p' = None) ->
  forall a b u v h, nth_error (set_nth (w_gs w) i (Gor todo' p')) a = Some u -> nth_error (set_nth (w_gs w) i (Gor todo' p')) b = Some v ->
    holds (g_pc u) = Some h -> holds (g_pc v) = Some h -> a = b.
Proof.
  intros [K1 K2] Ht Hp a b u v h Ha Hb Hu Hv.
  destruct (set_inv _ _ _ _ _ _ Ht Ha) as [[-> ->]|[N1 Ha']], (set_inv _ _ _ _ _ _ Ht Hb) as [[-> ->]|[N2 Hb']]; cbn [g_pc] in *; auto.
  - destruct Hp as [Hp|Hp]; rewrite Hp in Hu; [|discriminate]. exact (K2 i b t v h Ht Hb' Hu Hv).
  - destruct Hp as [Hp|Hp]; rewrite Hp in Hv; [|discriminate]. exact (K2 a i u t h Ha' Ht Hu Hv).
  - exact (K2 a b u v h Ha' Hb' Hu Hv).
Qed.

(* A step that touches no mutex, or keeps the handle's as it is. *)
Lemma locked_same w w' i t p' todo' : locked w -> nth_error (w_gs w) i = Some t -> (holds p' = holds (g_pc t) \/ holds p' = None) ->
  w_gs w' = set_nth (w_gs w) i (Gor todo' p') ->
  (forall h c', nth_error (w_hs w') h = Some c' -> exists c, nth_error (w_hs w) h = Some c /\ x_mu c' = x_mu c) -> locked w'.
Proof.
  intros K Ht Hp Eg Eh. constructor; rewrite Eg.
  - intros a u h c' Ha Hu Hc. destruct (Eh h c' Hc) as (c & Hc0 & ->). destruct (set_inv _ _ _ _ _ _ Ht Ha) as [[-> ->]|[N1 Ha']].
    + cbn [g_pc] in Hu. destruct Hp as [Hp|Hp]; rewrite Hp in Hu; [|discriminate]. exact (k_held w K i t h c Ht Hu Hc0).
    + exact (k_held w K a u h c Ha' Hu Hc0).
  - apply (locked_excl w i t); assumption.
Qed.

Lemma locked_take w i t h c o : locked w -> nth_error (w_gs w) i = Some t -> g_pc t = Entered h o -> nth_error (w_hs w) h = Some c -> x_mu c = false ->
  locked (at_pc (with_cell w h (HCell (x_flag c) (x_off c) true (x_closed c))) i t (Holding h o)).
Proof.
  intros K Ht Hp Hc Hm. constructor; cbn [at_pc with_cell w_gs w_hs].
  - intros a u k c' Ha Hu Hc'. destruct (set_inv _ _ _ _ _ _ Ht Ha) as [[-> ->]|[N1 Ha']].
    + cbn in Hu. apply some_inj in Hu. subst k. rewrite (set_same _ _ _ _ Hc) in Hc'. apply some_inj in Hc'. now subst c'.
    + destruct (set_inv _ _ _ _ _ _ Hc Hc') as [[-> ->]|[N2 Hc2]]; [reflexivity|]. exact (k_held w K a u k c' Ha' Hu Hc2).
  - intros a b u v k Ha Hb Hu Hv.
    destruct (set_inv _ _ _ _ _ _ Ht Ha) as [[-> ->]|[N1 Ha']], (set_inv _ _ _ _ _ _ Ht Hb) as [[-> ->]|[N2 Hb']]; cbn [g_pc holds] in *; auto.
    + apply some_inj in Hu. subst k. pose proof (k_held w K b v h c Hb' Hv Hc). congruence.
    + apply some_inj in Hv. subst k. pose proof (k_held w K a u h c Ha' Hu Hc). congruence.
    + exact (k_excl w K a b u v k Ha' Hb' Hu Hv).
Qed.

Lemma locked_leave w i t h c o r : locked w -> nth_error (w_gs w) i = Some t -> g_pc t = Leaving h o r -> nth_error (w_hs w) h = Some c ->
  locked (at_pc (with_cell w h (HCell (x_flag c) (x_off c) false (x_closed c))) i t (Done h o r)).
Proof.
  intros K Ht Hp Hc. constructor; cbn [at_pc with_cell w_gs w_hs].
  - intros a u k c' Ha Hu Hc'. destruct (set_inv _ _ _ _ _ _ Ht Ha) as [[-> ->]|[N1 Ha']]; [discriminate|].
    destruct (set_inv _ _ _ _ _ _ Hc Hc') as [[-> ->]|[N2 Hc2]].
    + exfalso. apply N1. apply (k_excl w K a i u t h Ha' Ht Hu). rewrite Hp. reflexivity.
    + exact (k_held w K a u k c' Ha' Hu Hc2).
  - apply (locked_excl w i t); auto.
Qed.

(* ---- the values ---- *)

Lemma no_panic_write g b p off : roomy g -> clean_buf b -> snd (write_at g b p off) <> MPanic.
Proof.
  intros Hg Hb. unfold write_at. destruct (Z.ltb_spec off 0); [discriminate|]. destruct (Z.ltb_spec (max_int64 - off) (zlen p)); [discriminate|].
  destruct p as [|x p]; [discriminate|]. set (q := x :: p) in *. destruct (Z.ltb_spec (s_len b) (off + zlen q)); [|discriminate].
  destruct (grow g b (off + zlen q - s_len b)) eqn:E; [discriminate|]. apply grow_none in E. unfold roomy in Hg. lia.
Qed.
Lemma no_panic_truncate g b size : roomy g -> in_int64 size -> snd (truncate g b size) <> MPanic.
Proof.
  intros Hg Hs. unfold truncate. destruct (Z.ltb_spec size 0); [discriminate|].
  destruct (Z.ltb_spec 0 (size - s_len b)); [|discriminate].
  destruct (grow g b (size - s_len b)) eqn:E; [discriminate|]. apply grow_none in E. unfold roomy, in_int64 in *. lia.
Qed.
Lemma no_panic fl g b k o : roomy g -> clean_buf b -> op_fits (O, to_mop o) -> snd (mem_step fl g b k (to_mop o)) <> MPanic.
Proof.
  intros Hg Hb Hf. destruct o as [n|n off|p|p off|off wh|size| |]; cbn [to_mop mem_step].
  - destruct (negb _); [discriminate|]. unfold read_at. destruct (_ <? _); [discriminate|]. destruct (_ <=? _); discriminate.
  - destruct (negb _); [discriminate|]. unfold read_at. cbn [snd]. destruct (_ <? _); [discriminate|]. destruct (_ <=? _); discriminate.
  - destruct (negb _); [discriminate|]. cbn zeta.
    match goal with |- context [write_at g b p ?x] => pose proof (no_panic_write g b p x Hg Hb) as H; destruct (write_at g b p x) as [b1 [m d e|]] end;
      [discriminate|contradiction].
  - destruct (appends _ _); [discriminate|]. destruct (negb _); [discriminate|].
    pose proof (no_panic_write g b p off Hg Hb) as H. destruct (write_at g b p off) as [b1 r]. exact H.
  - unfold mem_seek. destruct (wh =? 0); [destruct (_ <? _); discriminate|]. destruct (wh =? 1); [destruct (_ <? _); discriminate|].
    destruct (wh =? 2); [destruct (_ <? _); discriminate|discriminate].
  - destruct (negb _); [discriminate|]. destruct Hf as [Hf _]. cbn [snd to_mop] in Hf.
    pose proof (no_panic_truncate g b size Hg Hf) as H. destruct (truncate g b size) as [b1 r]. exact H.
  - discriminate.
  - discriminate.
Qed.

(* A call made at once does to the model what it does to the abstract file. *)
Lemma lin fl g s f h k o b k1 r : roomy g -> minv s -> shows s f -> op_fits (h, to_mop o) -> nth_error (m_handles s) h = Some k ->
  mem_step fl g (m_buf s) k (to_mop o) = (b, k1, r) ->
  let s' := {| m_buf := b; m_handles := set_nth (m_handles s) h k1 |} in
  exists f', a_step fl f (h, to_mop o) = (f', Some r) /\ minv s' /\ shows s' f'.
Proof.
  intros Hg Hm Hs Hf Hk E s'. pose proof (step_spec fl g s f (h, to_mop o) Hm Hs Hf) as H.
  assert (mstep fl g s (h, to_mop o) = (s', Some r)) as Em.
  { unfold mstep. destruct o; cbn [to_mop] in *; rewrite Hk, E; reflexivity. }
  rewrite Em in H. destruct (a_step fl f (h, to_mop o)) as [f1 r'].
  destruct H as (H1 & [(Hp & _)|(<- & H2)]); [|eauto].
  exfalso. apply some_inj in Hp. subst r.
  apply (no_panic fl g (m_buf s) k o Hg (proj1 Hm)).
  - exact Hf.
  - rewrite E. reflexivity.
Qed.

Lemma moved_moved k a b : moved (moved k a) b = moved k b.
Proof. reflexivity. Qed.

Lemma section_step fl g b c k o b1 off r :
  x_flag c = h_flag k -> section g b c o = (b1, off, r) ->
  match o with
  | CRead _ => readable fl (h_flag k) = true /\ x_off c = h_off k
  | CWrite _ => writable fl (h_flag k) = true /\ x_off c = (if appends fl (h_flag k) then s_len b else h_off k)
  | CSeek _ _ => x_off c = h_off k
  | _ => False
  end -> mem_step fl g b k (to_mop o) = (b1, moved k off, r) \/ r = MPanic.
Proof.
  intros Hfl E H. destruct o as [n|n off0|p|p off0|off0 wh|size| |]; try contradiction; cbn [section to_mop mem_step] in *.
  - destruct H as [Hr Ho]. rewrite Hr, Ho in *. cbn [negb]. destruct (read_at b n (h_off k)) as [m d e|]; inversion E; auto.
  - destruct H as [Hw Ho]. rewrite Hw. cbn [negb]. destruct (appends fl (h_flag k)); rewrite Ho in E.
    + cbn [moved h_off]. destruct (write_at g b p (s_len b)) as [b2 [m d e|]]; inversion E; auto.
    + destruct (write_at g b p (h_off k)) as [b2 [m d e|]]; inversion E; auto.
  - left. rewrite Hfl, H in E. destruct k as [kf ko]. cbn [h_flag h_off] in *.
    assert (forall k', mem_seek b {| h_flag := kf; h_off := ko |} off0 wh = (k', r) -> k' = moved {| h_flag := kf; h_off := ko |} (h_off k')) as A.
    { intros k'. unfold mem_seek. destruct (wh =? 0); [|destruct (wh =? 1); [|destruct (wh =? 2)]];
        repeat match goal with |- context [if ?x then _ else _] => destruct x end; intros X; inversion X; reflexivity. }
    destruct (mem_seek b {| h_flag := kf; h_off := ko |} off0 wh) as [k' r'] eqn:Es.
    assert (b = b1 /\ h_off k' = off /\ r' = r) as (<- & <- & ->) by (inversion E; auto).
    rewrite <- (A k' eq_refl). reflexivity.
Qed.
Lemma section_no_panic g b c o b1 off r : roomy g -> clean_buf b -> section g b c o = (b1, off, r) ->
  match o with CRead _ | CWrite _ | CSeek _ _ => True | _ => False end -> r <> MPanic.
Proof.
  intros Hg Hb E H. destruct o as [n|n off0|p|p off0|off0 wh|size| |]; try contradiction; cbn [section] in E.
  - destruct (read_at b n (x_off c)) as [m d e|] eqn:Er; inversion E; [discriminate|]. unfold read_at in Er.
    destruct (_ <? _); [discriminate|]. destruct (_ <=? _); discriminate.
  - pose proof (no_panic_write g b p (x_off c) Hg Hb). destruct (write_at g b p (x_off c)) as [b2 [m d e|]]; inversion E; [discriminate|contradiction].
  - unfold mem_seek in E. destruct (wh =? 0); [|destruct (wh =? 1); [|destruct (wh =? 2)]];
        repeat match type of E with context [if ?x then _ else _] => destruct x end; inversion E; discriminate.
Qed.

Section Values.
Variable fl : oflags.
Variable g : goheap.
Variable hs0 : list handle.
Variable progs : list (list (nat * cop)).
Variable f0 : afile.
Hypothesis Hroomy : roomy g.
Hypothesis Hord : orderly fl hs0 progs.
Hypothesis Hok : calls_ok (length hs0) progs.

Definition pc_ok (p : pc) : Prop :=
  match p with
  | Holding h o => exists k, nth_error hs0 h = Some k /\
      match o with CRead _ => readable fl (h_flag k) = true | CWrite _ => writable fl (h_flag k) = true | CSeek _ _ => True | _ => False end
  | Sized h _ => exists k, nth_error hs0 h = Some k /\ writable fl (h_flag k) = true /\ appends fl (h_flag k) = true
  | _ => True
  end.
Definition unsettled (p : pc) : option nat := match p with Moving h _ _ _ | Sized h _ => Some h | _ => None end.
Definition busy (gs : list gor) (h : nat) : Prop := exists i t, nth_error gs i = Some t /\ unsettled (g_pc t) = Some h.

Record valued (w : world) (s : mstate) (f : afile) : Prop := Valued {
  v_buf : m_buf s = w_buf w;
  v_cell : forall h c, nth_error (w_hs w) h = Some c -> exists k k0, nth_error (m_handles s) h = Some k /\ nth_error hs0 h = Some k0 /\
    h_flag k = x_flag c /\ h_flag k0 = x_flag c /\ (x_off c = h_off k \/ busy (w_gs w) h);
  v_dom : forall h, (h < length hs0)%nat -> exists c, nth_error (w_hs w) h = Some c;
  v_minv : minv s;
  v_shows : shows s f;
  v_pc : forall i t, nth_error (w_gs w) i = Some t -> pc_ok (g_pc t);
  v_move : forall i t h o off r k, nth_error (w_gs w) i = Some t -> g_pc t = Moving h o off r -> nth_error (m_handles s) h = Some k -> h_off k = off;
  v_size : forall i t h p c, nth_error (w_gs w) i = Some t -> g_pc t = Sized h p -> nth_error (w_hs w) h = Some c -> x_off c = s_len (w_buf w)
}.

Lemma unsettled_holds p h : unsettled p = Some h -> holds p = Some h.
Proof. destruct p; cbn; auto; discriminate. Qed.

Section Step.
Variables (w : world) (s : mstate) (f : afile) (i : nat) (t : gor).
Hypothesis Hk : locked w.
Hypothesis Hv : valued w s f.
Hypothesis Ht : nth_error (w_gs w) i = Some t.

(* The positions are not touched; the buffer may be, if nobody stands before an append. *)
Lemma valued_quiet w' p' todo' b f' :
  let s' := {| m_buf := b; m_handles := m_handles s |} in
  unsettled (g_pc t) = None -> unsettled p' = None -> pc_ok p' ->
  w_buf w' = b -> w_gs w' = set_nth (w_gs w) i (Gor todo' p') ->
  (forall h c', nth_error (w_hs w') h = Some c' -> exists c, nth_error (w_hs w) h = Some c /\ x_flag c' = x_flag c /\ x_off c' = x_off c) ->
  (forall h c, nth_error (w_hs w) h = Some c -> exists c', nth_error (w_hs w') h = Some c') ->
  minv s' -> shows s' f' ->
  (forall j u h p, nth_error (w_gs w) j = Some u -> g_pc u = Sized h p -> s_len b = s_len (w_buf w)) ->
  valued w' s' f'.
Proof.
  intros s' U1 U2 Hp Eb Eg Hc Hd Hm Hs Hsz. destruct Hv as [V1 V2 V3 V4 V5 V6 V7 V8].
  constructor; rewrite ?Eb, ?Eg; try assumption; try reflexivity.
  - intros h c' Hc'. destruct (Hc h c' Hc') as (c & Hc0 & -> & ->). destruct (V2 h c Hc0) as (k & k0 & A1 & A2 & A3 & A4 & A5).
    exists k, k0. split; [exact A1|]. split; [exact A2|]. split; [exact A3|]. split; [exact A4|].
    destruct A5 as [A5|(j & u & Hj & Hu)]; [auto|right]. exists j, u. split; [|exact Hu].
    destruct (Nat.eq_dec j i) as [->|N]; [|rewrite set_other by exact N; exact Hj].
    rewrite Ht in Hj. apply some_inj in Hj. subst u. congruence.
  - intros h Hh. destruct (V3 h Hh) as (c & Hc0). exact (Hd h c Hc0).
  - intros j u Hj. destruct (set_inv _ _ _ _ _ _ Ht Hj) as [[-> ->]|[N Hj']]; [exact Hp|exact (V6 j u Hj')].
  - intros j u h o off r k Hj Hu Hkk. destruct (set_inv _ _ _ _ _ _ Ht Hj) as [[-> ->]|[N Hj']].
    + cbn [g_pc] in Hu. rewrite Hu in U2. discriminate.
    + exact (V7 j u h o off r k Hj' Hu Hkk).
  - intros j u h p c' Hj Hu Hc'. destruct (set_inv _ _ _ _ _ _ Ht Hj) as [[-> ->]|[N Hj']].
    + cbn [g_pc] in Hu. rewrite Hu in U2. discriminate.
    + destruct (Hc h c' Hc') as (c & Hc0 & _ & ->). rewrite (Hsz j u h p Hj' Hu). exact (V8 j u h p c Hj' Hu Hc0).
Qed.

Lemma valued_still w' p' todo' :
  unsettled (g_pc t) = None -> unsettled p' = None -> pc_ok p' ->
  w_buf w' = w_buf w -> w_gs w' = set_nth (w_gs w) i (Gor todo' p') ->
  (forall h c', nth_error (w_hs w') h = Some c' -> exists c, nth_error (w_hs w) h = Some c /\ x_flag c' = x_flag c /\ x_off c' = x_off c) ->
  (forall h c, nth_error (w_hs w) h = Some c -> exists c', nth_error (w_hs w') h = Some c') ->
  valued w' s f.
Proof.
  intros U1 U2 Hp Eb Eg Hc Hd. pose proof (v_buf _ _ _ Hv) as Hb.
  assert ({| m_buf := w_buf w; m_handles := m_handles s |} = s) as Hid by (rewrite <- Hb; destruct s; reflexivity).
  rewrite <- Hid. apply (valued_quiet w' p' todo' (w_buf w)); auto; rewrite ?Hid; try apply Hv.
Qed.

(* A call that holds the handle's mutex does its work on the buffer. *)
Lemma valued_section h c k o b off r f' :
  let s' := {| m_buf := b; m_handles := set_nth (m_handles s) h (moved k off) |} in
  holds (g_pc t) = Some h -> (unsettled (g_pc t) = None \/ unsettled (g_pc t) = Some h) ->
  nth_error (w_hs w) h = Some c -> nth_error (m_handles s) h = Some k ->
  minv s' -> shows s' f' ->
  (forall j u h p, j <> i -> nth_error (w_gs w) j = Some u -> g_pc u = Sized h p -> s_len b = s_len (w_buf w)) ->
  valued (at_pc (with_buf w b) i t (Moving h o off r)) s' f'.
Proof.
  intros s' Hh U1 Hc Hkk Hm Hs Hsz. destruct Hv as [V1 V2 V3 V4 V5 V6 V7 V8].
  assert (forall j u, j <> i -> nth_error (w_gs w) j = Some u -> unsettled (g_pc u) <> Some h) as Hone.
  { intros j u N Hj Hu. apply N. apply (k_excl w Hk j i u t h Hj Ht); [apply unsettled_holds; exact Hu|exact Hh]. }
  constructor; cbn [at_pc with_buf w_buf w_gs w_hs m_buf m_handles]; try assumption; try reflexivity.
  - intros h' c' Hc'. destruct (V2 h' c' Hc') as (k' & k0 & A1 & A2 & A3 & A4 & A5).
    destruct (Nat.eq_dec h' h) as [->|N].
    + exists (moved k off), k0. unfold s'. cbn [m_handles]. rewrite (set_same _ _ _ _ Hkk). rewrite Hkk in A1. apply some_inj in A1. subst k'.
      split; [reflexivity|]. split; [exact A2|]. split; [exact A3|]. split; [exact A4|]. right. exists i. eexists. rewrite (set_same _ _ _ _ Ht). split; reflexivity.
    + exists k', k0. unfold s'. cbn [m_handles]. rewrite set_other by exact N. split; [exact A1|]. split; [exact A2|]. split; [exact A3|]. split; [exact A4|].
      destruct A5 as [A5|(j & u & Hj & Hu)]; [auto|right]. exists j, u. split; [|exact Hu].
      destruct (Nat.eq_dec j i) as [->|Nj]; [|rewrite set_other by exact Nj; exact Hj].
      exfalso. rewrite Ht in Hj. apply some_inj in Hj. subst u. destruct U1; congruence.
  - intros j u Hj. destruct (set_inv _ _ _ _ _ _ Ht Hj) as [[-> ->]|[N Hj']]; [exact I|exact (V6 j u Hj')].
  - intros j u h' o' off' r' k' Hj Hu Hk'. destruct (set_inv _ _ _ _ _ _ Ht Hj) as [[-> ->]|[N Hj']].
    + cbn [g_pc] in Hu. inversion Hu; subst. unfold s' in Hk'. cbn [m_handles] in Hk'. rewrite (set_same _ _ _ _ Hkk) in Hk'. apply some_inj in Hk'. subst k'. reflexivity.
    + assert (h' <> h) as Nh by (intros ->; apply (Hone j u N Hj'); rewrite Hu; reflexivity).
      unfold s' in Hk'. cbn [m_handles] in Hk'. rewrite set_other in Hk' by exact Nh. exact (V7 j u h' o' off' r' k' Hj' Hu Hk').
  - intros j u h' p' c' Hj Hu Hc'. destruct (set_inv _ _ _ _ _ _ Ht Hj) as [[-> ->]|[N Hj']]; [discriminate|].
    rewrite (Hsz j u h' p' N Hj' Hu). exact (V8 j u h' p' c' Hj' Hu Hc').
Qed.

Lemma valued_size h c p : g_pc t = Holding h (CWrite p) -> nth_error (w_hs w) h = Some c -> appends fl (x_flag c) = true ->
  valued (at_pc (with_cell w h (HCell (x_flag c) (s_len (w_buf w)) (x_mu c) (x_closed c))) i t (Sized h p)) s f.
Proof.
  intros Hp Hc Ha. destruct Hv as [V1 V2 V3 V4 V5 V6 V7 V8].
  assert (forall j u, j <> i -> nth_error (w_gs w) j = Some u -> unsettled (g_pc u) <> Some h) as Hone.
  { intros j u N Hj Hu. apply N. apply (k_excl w Hk j i u t h Hj Ht); [apply unsettled_holds; exact Hu|rewrite Hp; reflexivity]. }
  constructor; cbn [at_pc with_cell w_buf w_gs w_hs]; try assumption.
  - intros h' c' Hc'. destruct (set_inv _ _ _ _ _ _ Hc Hc') as [[-> ->]|[N Hc2]].
    + destruct (V2 h c Hc) as (k & k0 & A1 & A2 & A3 & A4 & _). exists k, k0. cbn [x_flag]. repeat (split; [assumption|]).
      right. exists i. eexists. rewrite (set_same _ _ _ _ Ht). split; reflexivity.
    + destruct (V2 h' c' Hc2) as (k & k0 & A1 & A2 & A3 & A4 & A5). exists k, k0. repeat (split; [assumption|]).
      destruct A5 as [A5|(j & u & Hj & Hu)]; [auto|right]. exists j, u. split; [|exact Hu].
      destruct (Nat.eq_dec j i) as [->|Nj]; [|rewrite set_other by exact Nj; exact Hj].
      rewrite Ht in Hj. apply some_inj in Hj. subst u. rewrite Hp in Hu. discriminate.
  - intros h' Hh'. destruct (V3 h' Hh') as (c' & Hc'). destruct (Nat.eq_dec h' h) as [->|N].
    + rewrite (set_same _ _ _ _ Hc). eauto.
    + rewrite set_other by exact N. eauto.
  - intros j u Hj. destruct (set_inv _ _ _ _ _ _ Ht Hj) as [[-> ->]|[N Hj']]; [|exact (V6 j u Hj')].
    cbn [g_pc pc_ok]. pose proof (V6 i t Ht) as P. rewrite Hp in P. destruct P as (k & K1 & K2). exists k. split; [exact K1|]. split; [exact K2|].
    destruct (V2 h c Hc) as (_ & k0 & _ & A2 & _ & A4 & _). rewrite K1 in A2. apply some_inj in A2. subst k0. rewrite A4. exact Ha.
  - intros j u h' o' off' r' k' Hj Hu Hk'. destruct (set_inv _ _ _ _ _ _ Ht Hj) as [[-> ->]|[N Hj']]; [discriminate|].
    exact (V7 j u h' o' off' r' k' Hj' Hu Hk').
  - intros j u h' p' c' Hj Hu Hc'. destruct (set_inv _ _ _ _ _ _ Ht Hj) as [[-> ->]|[N Hj']].
    + cbn [g_pc] in Hu. inversion Hu; subst h' p'. rewrite (set_same _ _ _ _ Hc) in Hc'. apply some_inj in Hc'. now subst c'.
    + assert (h' <> h) as Nh by (intros ->; apply (Hone j u N Hj'); rewrite Hu; reflexivity).
      rewrite set_other in Hc' by exact Nh. exact (V8 j u h' p' c' Hj' Hu Hc').
Qed.

Lemma valued_move h c o off r : g_pc t = Moving h o off r -> nth_error (w_hs w) h = Some c ->
  valued (at_pc (with_cell w h (HCell (x_flag c) off (x_mu c) (x_closed c))) i t (Leaving h o r)) s f.
Proof.
  intros Hp Hc. destruct Hv as [V1 V2 V3 V4 V5 V6 V7 V8].
  assert (forall j u, j <> i -> nth_error (w_gs w) j = Some u -> unsettled (g_pc u) <> Some h) as Hone.
  { intros j u N Hj Hu. apply N. apply (k_excl w Hk j i u t h Hj Ht); [apply unsettled_holds; exact Hu|rewrite Hp; reflexivity]. }
  constructor; cbn [at_pc with_cell w_buf w_gs w_hs]; try assumption.
  - intros h' c' Hc'. destruct (set_inv _ _ _ _ _ _ Hc Hc') as [[-> ->]|[N Hc2]].
    + destruct (V2 h c Hc) as (k & k0 & A1 & A2 & A3 & A4 & _). exists k, k0. cbn [x_flag x_off]. repeat (split; [assumption|]).
      left. symmetry. exact (V7 i t h o off r k Ht Hp A1).
    + destruct (V2 h' c' Hc2) as (k & k0 & A1 & A2 & A3 & A4 & A5). exists k, k0. repeat (split; [assumption|]).
      destruct A5 as [A5|(j & u & Hj & Hu)]; [auto|right]. exists j, u. split; [|exact Hu].
      destruct (Nat.eq_dec j i) as [->|Nj]; [|rewrite set_other by exact Nj; exact Hj].
      exfalso. rewrite Ht in Hj. apply some_inj in Hj. subst u. rewrite Hp in Hu. cbn in Hu. congruence.
  - intros h' Hh'. destruct (V3 h' Hh') as (c' & Hc'). destruct (Nat.eq_dec h' h) as [->|N].
    + rewrite (set_same _ _ _ _ Hc). eauto.
    + rewrite set_other by exact N. eauto.
  - intros j u Hj. destruct (set_inv _ _ _ _ _ _ Ht Hj) as [[-> ->]|[N Hj']]; [exact I|exact (V6 j u Hj')].
  - intros j u h' o' off' r' k' Hj Hu Hk'. destruct (set_inv _ _ _ _ _ _ Ht Hj) as [[-> ->]|[N Hj']]; [discriminate|].
    exact (V7 j u h' o' off' r' k' Hj' Hu Hk').
  - intros j u h' p' c' Hj Hu Hc'. destruct (set_inv _ _ _ _ _ _ Ht Hj) as [[-> ->]|[N Hj']]; [discriminate|].
    assert (h' <> h) as Nh by (intros ->; apply (Hone j u N Hj'); rewrite Hu; reflexivity).
    rewrite set_other in Hc' by exact Nh. exact (V8 j u h' p' c' Hj' Hu Hc').
Qed.

(* The handle's mutex is held and off is the file's position. *)
Lemma settled h c : holds (g_pc t) = Some h -> unsettled (g_pc t) = None -> nth_error (w_hs w) h = Some c ->
  exists k, nth_error (m_handles s) h = Some k /\ h_flag k = x_flag c /\ x_off c = h_off k.
Proof.
  intros Hh Hu Hc. destruct (v_cell _ _ _ Hv h c Hc) as (k & k0 & A1 & A2 & A3 & A4 & A5). exists k. split; [exact A1|]. split; [exact A3|].
  destruct A5 as [A5|(j & u & Hj & Hju)]; [exact A5|]. exfalso.
  assert (j = i) as -> by (apply (k_excl w Hk j i u t h Hj Ht); [apply unsettled_holds; exact Hju|exact Hh]).
  rewrite Ht in Hj. apply some_inj in Hj. subst u. congruence.
Qed.
End Step.

Definition inv (w : world) : Prop :=
  exists s l f, booked (concat progs) w l /\ locked w /\ valued w s f /\ legal fl f0 l f.

Lemma call_fits c : In c (concat progs) -> (fst c < length hs0)%nat /\ op_fits (fst c, to_mop (snd c)).
Proof.
  intros H. apply in_concat in H as (p & Hp & Hc). unfold calls_ok in Hok. rewrite Forall_forall in Hok.
  specialize (Hok p Hp). rewrite Forall_forall in Hok. exact (Hok c Hc).
Qed.

Lemma sized_only w s f l j u h' p' h k o : booked (concat progs) w l -> valued w s f ->
  nth_error (w_gs w) j = Some u -> g_pc u = Sized h' p' -> In (h, o) (concat progs) -> nth_error hs0 h = Some k -> changes fl (h_flag k) o ->
  h = h' /\ exists p, o = CWrite p.
Proof.
  intros Hb Hv Hj Hu Hin Hk Hch. destruct (b_calls _ _ _ Hb j u Hj) as [_ Hc]. rewrite Hu in Hc. specialize (Hc _ eq_refl).
  pose proof (v_pc _ _ _ Hv j u Hj) as P. rewrite Hu in P. destruct P as (k' & K1 & K2 & K3).
  exact (Hord h' k' p' Hc K1 K2 K3 h k o Hin Hk Hch).
Qed.

(* The cells after writing one. *)
Lemma cells_after w h c x : nth_error (w_hs w) h = Some c -> x_flag x = x_flag c -> x_off x = x_off c ->
  (forall h' c', nth_error (set_nth (w_hs w) h x) h' = Some c' -> exists c, nth_error (w_hs w) h' = Some c /\ x_flag c' = x_flag c /\ x_off c' = x_off c).
Proof.
  intros Hc E1 E2 h' c' H. destruct (set_inv _ _ _ _ _ _ Hc H) as [[-> ->]|[N H']]; eauto.
Qed.
Lemma cells_stay (w : world) h c x : nth_error (w_hs w) h = Some c ->
  (forall h' c0, nth_error (w_hs w) h' = Some c0 -> exists c', nth_error (set_nth (w_hs w) h x) h' = Some c').
Proof.
  intros Hc h' c0 H. destruct (Nat.eq_dec h' h) as [->|N]; [rewrite (set_same _ _ _ _ Hc)|rewrite set_other by exact N]; eauto.
Qed.
Lemma mu_after w h c x : nth_error (w_hs w) h = Some c -> x_mu x = x_mu c ->
  (forall h' c', nth_error (set_nth (w_hs w) h x) h' = Some c' -> exists c, nth_error (w_hs w) h' = Some c /\ x_mu c' = x_mu c).
Proof.
  intros Hc E1 h' c' H. destruct (set_inv _ _ _ _ _ _ Hc H) as [[-> ->]|[N H']]; eauto.
Qed.

(* A call without a position happens at once. *)
Lemma inv_at_once w s l f i t h c o p0 b r f' :
  booked (concat progs) w l -> locked w -> valued w s f -> legal fl f0 l f ->
  nth_error (w_gs w) i = Some t -> g_pc t = p0 -> call_of p0 = Some (h, o) -> result_of p0 = None -> holds p0 = None ->
  nth_error (w_hs w) h = Some c ->
  happens fl f h o r f' ->
  (let s' := {| m_buf := b; m_handles := m_handles s |} in minv s' /\ shows s' f') ->
  (forall j u h p, nth_error (w_gs w) j = Some u -> g_pc u = Sized h p -> s_len b = s_len (w_buf w)) ->
  inv (at_pc (with_buf w b) i t (Done h o r)).
Proof.
  intros Hb Hk Hv Hl Ht Hp Hc1 Hr1 Hh1 Hc Hhap [Hm Hs] Hsz. subst p0.
  exists {| m_buf := b; m_handles := m_handles s |}, (l ++ [(i, h, o, r)]), f'. split; [|split; [|split]].
  - apply (booked_lin _ w l i t Hb Ht _ (Done h o r)); auto.
  - apply (locked_same w _ i t (Done h o r) (g_todo t)); auto. cbn. intros h' c' H. eauto.
  - assert (unsettled (g_pc t) = None) as U by (destruct (g_pc t); cbn in *; try reflexivity; discriminate).
    assert (pc_ok (Done h o r)) as P by exact I.
    apply (valued_quiet w s f i t Hv Ht _ (Done h o r) (g_todo t) b f'); auto; cbn [at_pc with_buf w_hs]; eauto.
  - apply (legal_snoc fl f0 l f); assumption.
Qed.

(* And a call with one at its section of the buffer. *)
Lemma inv_section w s l f i t h c o b off r :
  booked (concat progs) w l -> locked w -> valued w s f -> legal fl f0 l f ->
  nth_error (w_gs w) i = Some t -> (g_pc t = Holding h o \/ exists p, o = CWrite p /\ g_pc t = Sized h p) ->
  nth_error (w_hs w) h = Some c -> section g (w_buf w) c o = (b, off, r) ->
  (g_pc t = Holding h o -> forall p, o = CWrite p -> appends fl (x_flag c) = false) ->
  inv (at_pc (with_buf w b) i t (Moving h o off r)).
Proof.
  intros Hb Hk Hv Hl Ht Hp Hc Es Hna.
  assert (call_of (g_pc t) = Some (h, o) /\ result_of (g_pc t) = None /\ holds (g_pc t) = Some h) as (C1 & C2 & C3)
    by (destruct Hp as [->|(p & -> & ->)]; auto).
  destruct (b_calls _ _ _ Hb i t Ht) as [_ Hin]. specialize (Hin _ C1). destruct (call_fits _ Hin) as [_ Hfits]. cbn [fst snd] in Hfits.
  pose proof (v_pc _ _ _ Hv i t Ht) as Ppc. pose proof (v_buf _ _ _ Hv) as Hbuf. pose proof (v_minv _ _ _ Hv) as Hm.
  destruct (v_cell _ _ _ Hv h c Hc) as (k & k0 & A1 & A2 & A3 & A4 & _).
  assert (match o with
          | CRead _ => readable fl (h_flag k) = true /\ x_off c = h_off k
          | CWrite _ => writable fl (h_flag k) = true /\ x_off c = (if appends fl (h_flag k) then s_len (w_buf w) else h_off k)
          | CSeek _ _ => x_off c = h_off k
          | _ => False
          end) as Hcond.
  { destruct Hp as [Hp|(p & -> & Hp)]; rewrite Hp in Ppc.
    - destruct Ppc as (k1 & K1 & K2). rewrite K1 in A2. apply some_inj in A2. subst k1.
      assert (h_flag k = h_flag k0) as Ef by congruence.
      destruct (settled w s f i t Hk Hv Ht h c) as (k2 & B1 & B2 & B3); [rewrite Hp; reflexivity|rewrite Hp; reflexivity|exact Hc|].
      rewrite A1 in B1. apply some_inj in B1. subst k2. rewrite Ef.
      destruct o; try contradiction; auto. split; [exact K2|].
      rewrite <- Ef, A3. rewrite (Hna Hp p eq_refl). exact B3.
    - destruct Ppc as (k1 & K1 & K2 & K3). rewrite K1 in A2. apply some_inj in A2. subst k1.
      assert (h_flag k = h_flag k0) as Ef by congruence. rewrite Ef. split; [exact K2|]. rewrite K3.
      exact (v_size _ _ _ Hv i t h p c Ht Hp Hc). }
  assert (match o with CRead _ | CWrite _ | CSeek _ _ => True | _ => False end) as Hkind by (destruct o; tauto).
  assert (r <> MPanic) as Hnp by (apply (section_no_panic g (w_buf w) c o b off r Hroomy); [rewrite <- Hbuf; apply Hm|exact Es|exact Hkind]).
  destruct (section_step fl g (w_buf w) c k o b off r (eq_sym A3) Es Hcond) as [Hms|X]; [|contradiction].
  rewrite <- Hbuf in Hms.
  destruct (lin fl g s f h k o b (moved k off) r Hroomy Hm (v_shows _ _ _ Hv) Hfits A1 Hms) as (f' & Ha & Hm' & Hs').
  exists {| m_buf := b; m_handles := set_nth (m_handles s) h (moved k off) |}, (l ++ [(i, h, o, r)]), f'. split; [|split; [|split]].
  - apply (booked_lin _ w l i t Hb Ht _ (Moving h o off r)); auto.
  - apply (locked_same w _ i t (Moving h o off r) (g_todo t)); auto. cbn. intros h' c' H. eauto.
  - apply (valued_section w s f i t Hk Hv Ht h c k o b off r f'); auto.
    + destruct Hp as [->|(p & -> & ->)]; auto.
    + intros j u h' p' N Hj Hu. destruct o as [n|n off0|p|p off0|off0 wh|size| |]; try contradiction.
      * cbn [section] in Es. destruct (read_at (w_buf w) n (x_off c)); inversion Es; reflexivity.
      * exfalso. destruct (sized_only w s f l j u h' p' h k0 (CWrite p) Hb Hv Hj Hu Hin A2) as [<- _].
        { cbn [changes]. rewrite A4, <- A3. apply Hcond. }
        apply N. apply (k_excl w Hk j i u t h Hj Ht); [rewrite Hu; reflexivity|exact C3].
      * cbn [section] in Es. destruct (mem_seek _ _ _ _); inversion Es; reflexivity.
  - apply (legal_snoc fl f0 l f); [exact Hl|]. right. destruct o; try contradiction; exact Ha.
Qed.

Lemma world_id w : with_buf w (w_buf w) = w.
Proof. destruct w; reflexivity. Qed.

Lemma step_inv w i : inv w -> inv (step fl g w i).
Proof.
  intros HI. unfold step. destruct (nth_error (w_gs w) i) as [t|] eqn:Ht; [|exact HI].
  pose proof HI as (s & l & f & Hb & Hk & Hv & Hl).
  assert (forall h o p', call_of (g_pc t) = Some (h, o) -> result_of (g_pc t) = None -> holds (g_pc t) = None ->
     call_of p' = Some (h, o) -> result_of p' = None -> holds p' = None -> unsettled p' = None -> unsettled (g_pc t) = None -> pc_ok p' ->
     inv (at_pc w i t p')) as Hwithin.
  { intros h o p' C1 R1 H1 C2 R2 H2 U2 U1 P2. exists s, l, f. split; [|split; [|split]].
    - apply (booked_same _ w l i t Hb Ht _ p'); try reflexivity; congruence.
    - apply (locked_same w _ i t p' (g_todo t)); auto. cbn. intros h' c' H. eauto.
    - apply (valued_still w s f i t Hv Ht _ p' (g_todo t)); auto; cbn; eauto.
    - exact Hl. }
  pose proof (v_buf _ _ _ Hv) as Hbuf.
  assert ({| m_buf := w_buf w; m_handles := m_handles s |} = s) as Hid by (rewrite <- Hbuf; destruct s; reflexivity).
  assert (forall h c o r p0, g_pc t = p0 -> call_of p0 = Some (h, o) -> result_of p0 = None -> holds p0 = None ->
     nth_error (w_hs w) h = Some c -> happens fl f h o r f -> inv (at_pc w i t (Done h o r))) as Hpure.
  { intros h c o r p0 E0 C1 R1 H1 Hc Hhap. rewrite <- (world_id w) at 1. apply (inv_at_once w s l f i t h c o p0 (w_buf w) r f); auto.
    rewrite Hid. split; apply Hv. }
  destruct (g_pc t) as [|h o|h o|h o|h p|h o off r|h o r|h o r] eqn:Hp.
  - (* a call *)
    destruct (g_todo t) as [|[h o] rest] eqn:Htd; [exact HI|]. exists s, l, f. split; [|split; [|split]].
    + apply (booked_call _ w l i t); assumption.
    + apply (locked_same w _ i t (Called h o) rest); auto. cbn. intros h' c' H. eauto.
    + apply (valued_still w s f i t Hv Ht _ (Called h o) rest); auto; cbn; eauto. rewrite Hp. reflexivity.
    + exact Hl.
  - (* isClosed *)
    destruct (nth_error (w_hs w) h) as [c|] eqn:Hc; [|exact HI].
    destruct (v_cell _ _ _ Hv h c Hc) as (k & k0 & A1 & A2 & A3 & A4 & _).
    assert (a_handles f = m_handles s) as Eh by (symmetry; apply (v_shows _ _ _ Hv)).
    assert (can_be_refused o -> inv (if x_closed c then at_pc w i t (Done h o (MOk 0 [] e_closed)) else at_pc w i t (Entered h o))) as Hgate.
    { intros Hr. destruct (x_closed c).
      - apply (Hpure h c o _ (Called h o)); auto. left. auto.
      - apply (Hwithin h o (Entered h o)); auto; exact I. }
    destruct o as [n|n off0|p|p off0|off0 wh|size| |]; try (apply Hgate; exact I).
    + apply (Hpure h c CStat _ (Called h CStat)); auto. right. cbn [to_mop a_step]. rewrite Eh, A1, <- Hbuf.
      destruct (v_shows _ _ _ Hv) as (-> & _). reflexivity.
    + exists s, (l ++ [(i, h, CClose, MOk 0 [] e_nil)]), f. split; [|split; [|split]].
      * apply (booked_lin _ w l i t Hb Ht _ (Done h CClose (MOk 0 [] e_nil))); auto; rewrite Hp; reflexivity.
      * apply (locked_same w _ i t (Done h CClose (MOk 0 [] e_nil)) (g_todo t)); auto. cbn. apply (mu_after w h c); auto.
      * apply (valued_still w s f i t Hv Ht _ (Done h CClose (MOk 0 [] e_nil)) (g_todo t)); auto.
        -- rewrite Hp. reflexivity.
        -- exact I.
        -- cbn. apply (cells_after w h c); auto.
        -- cbn. apply (cells_stay w h c); auto.
      * apply (legal_snoc fl f0 l f); [exact Hl|]. right. cbn [to_mop a_step]. rewrite Eh, A1. reflexivity.
  - (* past it *)
    destruct (nth_error (w_hs w) h) as [c|] eqn:Hc; [|exact HI].
    destruct (v_cell _ _ _ Hv h c Hc) as (k & k0 & A1 & A2 & A3 & A4 & _).
    assert (a_handles f = m_handles s) as Eh by (symmetry; apply (v_shows _ _ _ Hv)).
    destruct (b_calls _ _ _ Hb i t Ht) as [_ Hin]. rewrite Hp in Hin. specialize (Hin _ eq_refl). destruct (call_fits _ Hin) as [_ Hfits]. cbn [fst snd] in Hfits.
    assert (pc_ok (Holding h o) -> inv (if x_mu c then w else at_pc (with_cell w h (HCell (x_flag c) (x_off c) true (x_closed c))) i t (Holding h o))) as Hlock.
    { intros P2. destruct (x_mu c) eqn:Hmu; [exact HI|]. exists s, l, f. split; [|split; [|split]].
      - apply (booked_same _ w l i t Hb Ht _ (Holding h o)); try reflexivity; rewrite Hp; reflexivity.
      - apply locked_take; assumption.
      - apply (valued_still w s f i t Hv Ht _ (Holding h o) (g_todo t)); auto.
        + rewrite Hp. reflexivity.
        + cbn. apply (cells_after w h c); auto.
        + cbn. apply (cells_stay w h c); auto.
      - exact Hl. }
    assert (forall b r, mem_step fl g (m_buf s) k (to_mop o) = (b, k, r) -> match o with CWriteAt _ _ => writable fl (h_flag k) = true | _ => True end ->
       (forall j u h p, nth_error (w_gs w) j = Some u -> g_pc u = Sized h p -> s_len b = s_len (w_buf w)) ->
       inv (at_pc (with_buf w b) i t (Done h o r))) as Honce.
    { intros b r Hms Hwr Hsz. destruct (lin fl g s f h k o b k r Hroomy (v_minv _ _ _ Hv) (v_shows _ _ _ Hv) Hfits A1 Hms) as (f' & Ha & Hm' & Hs').
      rewrite (set_nth_same _ _ _ A1) in Hm', Hs'. apply (inv_at_once w s l f i t h c o (Entered h o) b r f'); auto. right.
      rewrite Eh, A1. destruct o; try exact Ha. rewrite Hwr. exact Ha. }
    assert (forall h' k' o', nth_error hs0 h' = Some k' -> In (h', o') (concat progs) -> changes fl (h_flag k') o' -> (forall p, o' <> CWrite p) ->
       forall j u h p, nth_error (w_gs w) j = Some u -> g_pc u = Sized h p -> False) as Hnosized.
    { intros h' k' o' Hk' Hin' Hch Hnw j u hh p Hj Hu. destruct (sized_only w s f l j u hh p h' k' o' Hb Hv Hj Hu Hin' Hk' Hch) as [_ [p' E]]. exact (Hnw p' E). }
    unfold enter. cbn zeta. rewrite (world_id w).
    destruct o as [n|n off0|p|p off0|off0 wh|size| |].
    + destruct (readable fl (x_flag c)) eqn:Er.
      * apply Hlock. exists k0. rewrite A4. auto.
      * apply (Hpure h c _ _ (Entered h (CRead n))); auto. right. cbn [to_mop a_step]. rewrite Eh, A1, A3, Er. reflexivity.
    + destruct (readable fl (x_flag c)) eqn:Er.
      * rewrite <- (world_id w) at 1. apply Honce; auto. cbn [to_mop mem_step]. rewrite A3, Er, Hbuf. reflexivity.
      * apply (Hpure h c _ _ (Entered h (CReadAt n off0))); auto. right. cbn [to_mop a_step]. rewrite Eh, A1, A3, Er. reflexivity.
    + destruct (writable fl (x_flag c)) eqn:Er.
      * apply Hlock. exists k0. rewrite A4. auto.
      * apply (Hpure h c _ _ (Entered h (CWrite p))); auto. right. cbn [to_mop a_step]. rewrite Eh, A1, A3, Er. reflexivity.
    + destruct (writable fl (x_flag c)) eqn:Er.
      * destruct (appends fl (x_flag c)) eqn:Ea.
        -- apply (Hpure h c _ _ (Entered h (CWriteAt p off0))); auto. right. rewrite Eh, A1, A3, Er. cbn [to_mop a_step]. rewrite Eh, A1, A3, Ea. reflexivity.
        -- destruct (write_at g (w_buf w) p off0) as [b r] eqn:Ew. apply Honce.
           ++ cbn [to_mop mem_step]. rewrite A3, Ea, Er, Hbuf, Ew. reflexivity.
           ++ rewrite A3. exact Er.
           ++ intros j u hh q Hj Hu. exfalso. apply (Hnosized h k0 (CWriteAt p off0) A2 Hin ltac:(cbn; rewrite A4; auto) ltac:(discriminate) j u hh q Hj Hu).
      * apply (Hpure h c _ _ (Entered h (CWriteAt p off0))); auto. right. rewrite Eh, A1, A3, Er. auto.
    + apply Hlock. exists k0. auto.
    + destruct (writable fl (x_flag c)) eqn:Er.
      * destruct (truncate g (w_buf w) size) as [b r] eqn:Ew. apply Honce.
        -- cbn [to_mop mem_step]. rewrite A3, Er, Hbuf, Ew. reflexivity.
        -- exact I.
        -- intros j u hh q Hj Hu. exfalso. apply (Hnosized h k0 (CTruncate size) A2 Hin ltac:(cbn; rewrite A4; auto) ltac:(discriminate) j u hh q Hj Hu).
      * apply (Hpure h c _ _ (Entered h (CTruncate size))); auto. right. cbn [to_mop a_step]. rewrite Eh, A1, A3, Er. reflexivity.
    + exact HI.
    + exact HI.
  - (* the handle's mutex held *)
    destruct (nth_error (w_hs w) h) as [c|] eqn:Hc; [|exact HI].
    assert ((forall p, o = CWrite p -> appends fl (x_flag c) = false) ->
      inv (let '(b, off, r) := section g (w_buf w) c o in at_pc (with_buf w b) i t (Moving h o off r))) as Hsec.
    { intros Hna. destruct (section g (w_buf w) c o) as [[b off] r] eqn:Es. apply (inv_section w s l f i t h c o b off r); auto. }
    destruct o as [n|n off0|p|p off0|off0 wh|size| |]; try (apply Hsec; discriminate).
    destruct (appends fl (x_flag c)) eqn:Ea; [|apply Hsec; auto].
    exists s, l, f. split; [|split; [|split]].
    + apply (booked_same _ w l i t Hb Ht _ (Sized h p)); try reflexivity; rewrite Hp; reflexivity.
    + apply (locked_same w _ i t (Sized h p) (g_todo t)); auto; [rewrite Hp; auto|]. cbn. apply (mu_after w h c); auto.
    + apply valued_size; auto.
    + exact Hl.
  - destruct (nth_error (w_hs w) h) as [c|] eqn:Hc; [|exact HI].
    destruct (section g (w_buf w) c (CWrite p)) as [[b off] r] eqn:Es. apply (inv_section w s l f i t h c (CWrite p) b off r); auto; [eauto|].
    intros X. congruence.
  - destruct (nth_error (w_hs w) h) as [c|] eqn:Hc; [|exact HI]. exists s, l, f. split; [|split; [|split]].
    + apply (booked_same _ w l i t Hb Ht _ (Leaving h o r)); try reflexivity; rewrite Hp; reflexivity.
    + apply (locked_same w _ i t (Leaving h o r) (g_todo t)); auto; [rewrite Hp; auto|]. cbn. apply (mu_after w h c); auto.
    + apply (valued_move w s f i t Hk Hv Ht); auto.
    + exact Hl.
  - destruct (nth_error (w_hs w) h) as [c|] eqn:Hc; [|exact HI]. exists s, l, f. split; [|split; [|split]].
    + apply (booked_same _ w l i t Hb Ht _ (Done h o r)); try reflexivity; rewrite Hp; reflexivity.
    + apply locked_leave; auto.
    + apply (valued_still w s f i t Hv Ht _ (Done h o r) (g_todo t)); auto.
      * rewrite Hp. reflexivity.
      * exact I.
      * cbn. apply (cells_after w h c); auto.
      * cbn. apply (cells_stay w h c); auto.
    + exact Hl.
  - exists s, l, f. split; [|split; [|split]].
    + apply (booked_return _ w l i t); assumption.
    + apply (locked_same w _ i t Idle (g_todo t)); auto. cbn. intros h' c' H. eauto.
    + apply (valued_still w s f i t Hv Ht _ Idle (g_todo t)); auto; cbn; eauto. rewrite Hp. reflexivity.
    + exact Hl.
Qed.

Lemma run_inv sched : forall w, inv w -> inv (run fl g w sched).
Proof. induction sched as [|i sched IH]; intros w H; cbn; [exact H|]. apply IH. apply step_inv. exact H. Qed.
End Values.

Lemma start_inv fl s progs f : minv s -> shows s f -> calls_ok (length (m_handles s)) progs ->
  inv fl (m_handles s) progs f (start s progs).
Proof.
  intros Hm Hs Hok. exists s, [], f.
  assert (forall i t, nth_error (map (fun p => Gor p Idle) progs) i = Some t -> exists p, nth_error progs i = Some p /\ t = Gor p Idle) as Hg.
  { intros i t H. rewrite nth_error_map in H. destruct (nth_error progs i) as [p|]; [|discriminate]. cbn in H. apply some_inj in H. eauto. }
  split; [|split; [|split]].
  - constructor; cbn [start w_ev w_gs].
    + intros e1 e2 E. exists [], []. split; [reflexivity|]. symmetry in E. apply app_eq_nil in E as [-> ->]. intros i. split; exists []; reflexivity.
    + intros i t H. destruct (Hg i t H) as (p & _ & ->). split; reflexivity.
    + intros i _. split; reflexivity.
    + intros i t H. destruct (Hg i t H) as (p & Hp & ->). cbn [g_todo g_pc call_of]. split; [|discriminate].
      apply Forall_forall. intros c Hc. apply in_concat. exists p. split; [eapply nth_error_In; exact Hp|exact Hc].
  - constructor; cbn [start w_gs].
    + intros i t h c H Hh. destruct (Hg i t H) as (p & _ & ->). discriminate.
    + intros i j t u h H _ Hh. destruct (Hg i t H) as (p & _ & ->). discriminate.
  - constructor; cbn [start w_buf w_hs w_gs]; try assumption; try reflexivity.
    + intros h c H. rewrite nth_error_map in H. destruct (nth_error (m_handles s) h) as [k|] eqn:E; [|discriminate]. cbn in H. apply some_inj in H. subst c.
      exists k, k. cbn. auto 6.
    + intros h H. rewrite nth_error_map. destruct (nth_error (m_handles s) h) eqn:E; [cbn; eauto|]. apply nth_error_None in E. lia.
    + intros i t H. destruct (Hg i t H) as (p & _ & ->). exact I.
    + intros i t h o off r k H Hp. destruct (Hg i t H) as (p & _ & ->). discriminate.
    + intros i t h p0 c H Hp. destruct (Hg i t H) as (p & _ & ->). discriminate.
  - constructor.
Qed.

Lemma shown_bytes s f : minv s -> shows s f -> s_bytes (m_buf s) = bytes_of f.
Proof.
  intros Hm (H1 & _ & H3). unfold bytes_of. apply zget_ext. intros k. rewrite a_range_zget. cbn [Z.add]. rewrite H3.
  pose proof (bytes_len _ (proj1 Hm)) as L.
  destruct ((0 <=? k) && (k <? a_len f)) eqn:E.
  - destruct (zget_in_range (s_bytes (m_buf s)) k) as (x & Hx); [lia|]. rewrite Hx. reflexivity.
  - apply zget_out. lia.
Qed.

Lemma linearizable fl g s f progs sched : roomy g -> minv s -> shows s f ->
  calls_ok (length (m_handles s)) progs -> orderly fl (m_handles s) progs ->
  let w := run fl g (start s progs) sched in explained fl f (w_ev w) (s_bytes (w_buf w)).
Proof.
  intros Hg Hm Hs Hok Hord w.
  destruct (run_inv fl g (m_handles s) progs f Hg Hord Hok sched _ (start_inv fl s progs f Hm Hs Hok)) as (s' & l & f' & Hb & _ & Hv & Hl).
  exists l, f'. split; [exact Hl|]. split; [exact (booked_placed _ _ _ Hb)|]. split; [exact (b_order _ _ _ Hb)|].
  fold w in Hv. rewrite <- (v_buf _ _ _ _ _ Hv). apply shown_bytes; apply Hv.
Qed.

Lemma linearizable_reached fl g cs progs sched :
  let s := fst (mrun fl g fresh_mem cs) in let f := fst (a_run fl a_fresh cs) in
  Forall op_fits cs -> affordable fl g a_fresh cs -> roomy g ->
  calls_ok (length (m_handles s)) progs -> orderly fl (m_handles s) progs ->
  let w := run fl g (start s progs) sched in explained fl f (w_ev w) (s_bytes (w_buf w)).
Proof.
  intros s f Hf Ha Hg Hok Hord. destruct (run_spec fl g cs _ _ fresh_minv fresh_shows Hf Ha) as (H1 & _ & H2).
  exact (linearizable fl g s f progs sched Hg H1 H2 Hok Hord).
Qed.

(* ---- closing ---- *)

Definition closed_at (w : world) (h : nat) : Prop := forall c, nth_error (w_hs w) h = Some c -> x_closed c = true.

(* [i]'s call [o] on [h] is under way, made after a Close of [h] had returned. *)
Definition pending_after_close (e : list event) (i h : nat) (o : cop) : Prop :=
  exists e1 j x e2 e3, e = e1 ++ Ret j h CClose x :: e2 ++ Inv i h o :: e3 /\ Forall (fun y => ~ made_by i y) e3.

Definition not_close (p : pc) : Prop :=
  match p with Entered _ o | Holding _ o | Moving _ o _ _ | Leaving _ o _ => o <> CClose | _ => True end.

Record shut (w : world) : Prop := Shut {
  c_nc : forall i t, nth_error (w_gs w) i = Some t -> not_close (g_pc t);
  c_done : forall i t h r, nth_error (w_gs w) i = Some t -> g_pc t = Done h CClose r -> closed_at w h;
  c_ret : forall j h x, In (Ret j h CClose x) (w_ev w) -> closed_at w h;
  c_pend : forall i t h o, nth_error (w_gs w) i = Some t -> pending_after_close (w_ev w) i h o -> can_be_refused o ->
    g_pc t = Called h o \/ g_pc t = Done h o refused;
  c_over : forall i h o r, called_after_close (w_ev w) i h o r -> can_be_refused o -> r = refused
}.

Lemma snoc_split {A} (e : list A) x a y b : e ++ [x] = a ++ y :: b -> (b = [] /\ a = e /\ y = x) \/ exists b', b = b' ++ [x] /\ e = a ++ y :: b'.
Proof.
  intros H. destruct (last_cases b) as [->|(b' & z & ->)].
  - apply app_inj_tail in H as [-> ->]. auto.
  - right. exists b'. change (a ++ y :: b' ++ [z]) with (a ++ (y :: b') ++ [z]) in H. rewrite app_assoc in H. apply app_inj_tail in H as [-> ->]. auto.
Qed.

(* A step that makes no event and keeps what is closed. *)
Lemma shut_same w w' i t p' todo' : shut w -> nth_error (w_gs w) i = Some t -> w_ev w' = w_ev w -> w_gs w' = set_nth (w_gs w) i (Gor todo' p') ->
  (forall h, closed_at w h -> closed_at w' h) -> not_close p' ->
  (forall h r, p' = Done h CClose r -> closed_at w' h) ->
  (forall h o, pending_after_close (w_ev w) i h o -> can_be_refused o -> (g_pc t = Called h o \/ g_pc t = Done h o refused) -> p' = Called h o \/ p' = Done h o refused) ->
  shut w'.
Proof.
  intros [S0 S1 S2 S3 S5] Ht Ev Eg Hc Hn Hd Hp. constructor; rewrite ?Ev, ?Eg.
  - intros j u Hj. destruct (set_inv _ _ _ _ _ _ Ht Hj) as [[-> ->]|[N Hj']]; [exact Hn|exact (S0 j u Hj')].
  - intros j u h r Hj Hu. destruct (set_inv _ _ _ _ _ _ Ht Hj) as [[-> ->]|[N Hj']]; [exact (Hd h r Hu)|]. apply Hc. exact (S1 j u h r Hj' Hu).
  - intros j h x H. apply Hc. exact (S2 j h x H).
  - intros j u h o Hj Hpe Hr. destruct (set_inv _ _ _ _ _ _ Ht Hj) as [[-> ->]|[N Hj']]; [|exact (S3 j u h o Hj' Hpe Hr)].
    cbn [g_pc]. apply (Hp h o Hpe Hr). exact (S3 i t h o Ht Hpe Hr).
  - exact S5.
Qed.

Lemma closed_upd w h c x h' w' : nth_error (w_hs w) h = Some c -> (x_closed c = true -> x_closed x = true) ->
  w_hs w' = set_nth (w_hs w) h x -> closed_at w h' -> closed_at w' h'.
Proof.
  intros Hc H1 E H y Hy. rewrite E in Hy. destruct (set_inv _ _ _ _ _ _ Hc Hy) as [[-> ->]|[N Hy']]; [apply H1; exact (H c Hc)|exact (H y Hy')].
Qed.

Lemma shut_step fl g w i : shut w -> shut (step fl g w i).
Proof.
  intros HS. unfold step. destruct (nth_error (w_gs w) i) as [t|] eqn:Ht; [|exact HS].
  pose proof (c_nc w HS i t Ht) as Hnc.
  assert (forall p' b, not_close p' -> (forall h r, p' <> Done h CClose r) -> (forall h o, (g_pc t = Called h o \/ g_pc t = Done h o refused) -> p' = Called h o \/ p' = Done h o refused) ->
     shut (at_pc (with_buf w b) i t p')) as Hquiet.
  { intros p' b N0 N P. apply (shut_same w _ i t p' (g_todo t) HS Ht); [reflexivity|reflexivity| |exact N0| | ].
    - intros h H. exact H.
    - intros h r E. exfalso. exact (N h r E).
    - intros h o _ _ H. exact (P h o H). }
  assert (forall p' h c x, nth_error (w_hs w) h = Some c -> (x_closed c = true -> x_closed x = true) -> not_close p' -> (forall h r, p' <> Done h CClose r) ->
     (forall h o, (g_pc t = Called h o \/ g_pc t = Done h o refused) -> False) ->
     shut (at_pc (with_cell w h x) i t p')) as Hcell.
  { intros p' h c x Hc Hx N0 N P. apply (shut_same w _ i t p' (g_todo t) HS Ht); [reflexivity|reflexivity| |exact N0| | ].
    - intros h' H. apply (closed_upd w h c x h'); [exact Hc|exact Hx|reflexivity|exact H].
    - intros h' r E. exfalso. exact (N h' r E).
    - intros h' o Hp Hr Hor. exfalso. exact (P h' o Hor). }
  destruct (g_pc t) as [|h o|h o|h o|h p|h o off r|h o r|h o r] eqn:Hp.
  - destruct (g_todo t) as [|[h o] rest] eqn:Htd; [exact HS|]. destruct HS as [S0 S1 S2 S3 S5]. constructor; cbn [w_gs w_ev w_hs].
    + intros j u Hj. destruct (set_inv _ _ _ _ _ _ Ht Hj) as [[-> ->]|[N Hj']]; [exact I|exact (S0 j u Hj')].
    + intros j u h' r Hj Hu. destruct (set_inv _ _ _ _ _ _ Ht Hj) as [[-> ->]|[N Hj']]; [discriminate|]. exact (S1 j u h' r Hj' Hu).
    + intros j h' x H. apply in_app_or in H as [H|[H|[]]]; [exact (S2 j h' x H)|discriminate].
    + intros j u h' o' Hj (e1 & j' & x & e2 & e3 & E & F) Hr.
      assert (e1 ++ Ret j' h' CClose x :: e2 ++ Inv j h' o' :: e3 = (e1 ++ Ret j' h' CClose x :: e2) ++ Inv j h' o' :: e3) as R
        by (rewrite <- app_assoc; reflexivity).
      rewrite R in E. apply snoc_split in E as [(-> & E1 & E2)|(b' & -> & E)].
      * inversion E2; subst. rewrite (set_same _ _ _ _ Ht) in Hj. apply some_inj in Hj. subst u. left. reflexivity.
      * assert (j <> i) as N.
        { intros ->. apply Forall_app in F as [_ F]. inversion F as [|? ? F1 _]; subst. apply F1. reflexivity. }
        rewrite set_other in Hj by exact N. apply (S3 j u h' o' Hj); [|exact Hr]. rewrite <- app_assoc in E. cbn [app] in E.
        exists e1, j', x, e2, b'. split; [exact E|]. apply Forall_app in F. apply F.
    + intros j h' o' r (e1 & j' & x & e2 & e3 & e4 & E & F) Hr.
      assert (e1 ++ Ret j' h' CClose x :: e2 ++ Inv j h' o' :: e3 ++ Ret j h' o' r :: e4 = (e1 ++ Ret j' h' CClose x :: e2 ++ Inv j h' o' :: e3) ++ Ret j h' o' r :: e4) as R
        by (rewrite <- app_assoc; cbn [app]; rewrite <- app_assoc; reflexivity).
      rewrite R in E. apply snoc_split in E as [(_ & _ & E2)|(b' & -> & E)]; [discriminate|].
      apply (S5 j h' o' r); [|exact Hr]. exists e1, j', x, e2, e3, b'. split; [|exact F].
      rewrite E, <- app_assoc. cbn [app]. rewrite <- app_assoc. reflexivity.
  - destruct (nth_error (w_hs w) h) as [c|] eqn:Hc; [|exact HS].
    assert (can_be_refused o -> shut (if x_closed c then at_pc w i t (Done h o (MOk 0 [] e_closed)) else at_pc w i t (Entered h o))) as Hgate.
    { intros Hr. destruct (x_closed c) eqn:Ec.
      - rewrite <- (world_id w) at 1. apply Hquiet; [exact I| |].
        + intros h' r' E. inversion E; subst. exact Hr.
        + intros h' o' [E|E]; inversion E; subst. right. reflexivity.
      - apply (shut_same w _ i t (Entered h o) (g_todo t) HS Ht); [reflexivity|reflexivity| | | | ].
        + intros h' H. exact H.
        + intros E. subst o. exact Hr.
        + intros h' r' E. discriminate.
        + intros h' o' Hpe Hr' [E|E]; [|congruence]. exfalso. rewrite Hp in E. inversion E; subst h' o'.
          destruct Hpe as (e1 & j & x & e2 & e3 & Ev & _).
          assert (closed_at w h) as Hcl by (apply (c_ret w HS j h x); rewrite Ev; apply in_or_app; right; left; reflexivity).
          rewrite (Hcl c Hc) in Ec. discriminate. }
    destruct o as [n|n off0|p|p off0|off0 wh|size| |]; try (apply Hgate; exact I).
    + apply (shut_same w _ i t (Done h CStat (MOk (s_len (w_buf w)) [] e_nil)) (g_todo t) HS Ht); [reflexivity|reflexivity| |exact I| | ].
      * intros h' H. exact H.
      * discriminate.
      * intros h' o' _ Hr [E|E]; rewrite Hp in E; inversion E; subst. contradiction.
    + apply (shut_same w _ i t (Done h CClose (MOk 0 [] e_nil)) (g_todo t) HS Ht); [reflexivity|reflexivity| |exact I| | ].
      * intros h' H. apply (closed_upd w h c (HCell (x_flag c) (x_off c) (x_mu c) true) h'); [exact Hc|reflexivity|reflexivity|exact H].
      * intros h' r' E. inversion E; subst. intros y Hy. cbn [at_pc with_cell w_hs] in Hy. rewrite (set_same _ _ _ _ Hc) in Hy. apply some_inj in Hy. now subst y.
      * intros h' o' _ Hr [E|E]; rewrite Hp in E; inversion E; subst. contradiction.
  - destruct (nth_error (w_hs w) h) as [c|] eqn:Hc; [|exact HS]. cbn [not_close] in Hnc.
    assert (forall h' o', Entered h o = Called h' o' \/ Entered h o = Done h' o' refused -> False) as Hno by (intros h' o' [E|E]; discriminate).
    assert (forall b r, shut (at_pc (with_buf w b) i t (Done h o r))) as Hdone.
    { intros b r. apply Hquiet; [exact I|intros h' r' E; inversion E; subst; contradiction|]. intros h' o' E. exfalso. exact (Hno h' o' E). }
    assert (shut (if x_mu c then w else at_pc (with_cell w h (HCell (x_flag c) (x_off c) true (x_closed c))) i t (Holding h o))) as Hlock.
    { destruct (x_mu c); [exact HS|]. apply (Hcell (Holding h o) h c); auto; discriminate. }
    unfold enter. cbn zeta. destruct o as [n|n off0|p|p off0|off0 wh|size| |]; try exact HS; try exact Hlock.
    + destruct (readable _ _); [exact Hlock|apply Hdone].
    + destruct (readable _ _); apply Hdone.
    + destruct (writable _ _); [exact Hlock|apply Hdone].
    + destruct (writable _ _); [|apply Hdone]. destruct (appends _ _); [apply Hdone|].
      destruct (write_at _ _ _ _). apply Hdone.
    + destruct (writable _ _); [|apply Hdone]. destruct (truncate _ _ _). apply Hdone.
  - destruct (nth_error (w_hs w) h) as [c|] eqn:Hc; [|exact HS]. cbn [not_close] in Hnc.
    assert (forall h' o', Holding h o = Called h' o' \/ Holding h o = Done h' o' refused -> False) as Hno by (intros h' o' [E|E]; discriminate).
    assert (shut (let '(b, off, r) := section g (w_buf w) c o in at_pc (with_buf w b) i t (Moving h o off r))) as Hsec.
    { destruct (section g (w_buf w) c o) as [[b off] r]. apply Hquiet; [exact Hnc|discriminate|]. intros h' o' E. exfalso. exact (Hno h' o' E). }
    destruct o; try exact Hsec. destruct (appends _ _); [|exact Hsec].
    apply (Hcell (Sized h p) h c); auto; [exact I|discriminate].
  - destruct (nth_error (w_hs w) h) as [c|] eqn:Hc; [|exact HS].
    destruct (section g (w_buf w) c (CWrite p)) as [[b off] r]. apply Hquiet; [discriminate|discriminate|]. intros h' o' [E|E]; discriminate.
  - destruct (nth_error (w_hs w) h) as [c|] eqn:Hc; [|exact HS]. apply (Hcell (Leaving h o r) h c); auto; try discriminate.
    intros h' o' [E|E]; discriminate.
  - destruct (nth_error (w_hs w) h) as [c|] eqn:Hc; [|exact HS]. cbn [not_close] in Hnc.
    apply (Hcell (Done h o r) h c); auto; [exact I|intros h' r' E; inversion E; subst; contradiction|intros h' o' [E|E]; discriminate].
  - destruct HS as [S0 S1 S2 S3 S5]. constructor; cbn [w_gs w_ev w_hs].
    + intros j u Hj. destruct (set_inv _ _ _ _ _ _ Ht Hj) as [[-> ->]|[N Hj']]; [exact I|exact (S0 j u Hj')].
    + intros j u h' r' Hj Hu. destruct (set_inv _ _ _ _ _ _ Ht Hj) as [[-> ->]|[N Hj']]; [discriminate|]. exact (S1 j u h' r' Hj' Hu).
    + intros j h' x H. apply in_app_or in H as [H|[H|[]]]; [exact (S2 j h' x H)|]. inversion H; subst. exact (S1 j t h' x Ht Hp).
    + intros j u h' o' Hj (e1 & j' & x & e2 & e3 & E & F) Hr.
      assert (e1 ++ Ret j' h' CClose x :: e2 ++ Inv j h' o' :: e3 = (e1 ++ Ret j' h' CClose x :: e2) ++ Inv j h' o' :: e3) as R
        by (rewrite <- app_assoc; reflexivity).
      rewrite R in E. apply snoc_split in E as [(-> & E1 & E2)|(b' & -> & E)]; [discriminate|].
      assert (j <> i) as N.
      { intros ->. apply Forall_app in F as [_ F]. inversion F as [|? ? F1 _]; subst. apply F1. reflexivity. }
      rewrite set_other in Hj by exact N. apply (S3 j u h' o' Hj); [|exact Hr]. rewrite <- app_assoc in E. cbn [app] in E.
      exists e1, j', x, e2, b'. split; [exact E|]. apply Forall_app in F. apply F.
    + intros j h' o' r' (e1 & j' & x & e2 & e3 & e4 & E & F) Hr.
      assert (e1 ++ Ret j' h' CClose x :: e2 ++ Inv j h' o' :: e3 ++ Ret j h' o' r' :: e4 = (e1 ++ Ret j' h' CClose x :: e2 ++ Inv j h' o' :: e3) ++ Ret j h' o' r' :: e4) as R
        by (rewrite <- app_assoc; cbn [app]; rewrite <- app_assoc; reflexivity).
      rewrite R in E. apply snoc_split in E as [(-> & E1 & E2)|(b' & -> & E)].
      * inversion E2; subst j h' o' r'. destruct (S3 i t h o Ht) as [X|X]; [|exact Hr|congruence|].
        -- exists e1, j', x, e2, e3. split; [symmetry; exact E1|exact F].
        -- rewrite Hp in X. inversion X. reflexivity.
      * apply (S5 j h' o' r'); [|exact Hr]. exists e1, j', x, e2, e3, b'. split; [|exact F].
        rewrite E, <- app_assoc. cbn [app]. rewrite <- app_assoc. reflexivity.
Qed.

Lemma shut_start s progs : shut (start s progs).
Proof.
  assert (forall i t, nth_error (map (fun p => Gor p Idle) progs) i = Some t -> g_pc t = Idle) as Hg.
  { intros i t H. rewrite nth_error_map in H. destruct (nth_error progs i) as [p|]; [|discriminate]. cbn in H. apply some_inj in H. now subst t. }
  constructor; cbn [start w_gs w_ev].
  - intros i t H. rewrite (Hg i t H). exact I.
  - intros i t h r H E. rewrite (Hg i t H) in E. discriminate.
  - intros j h x [].
  - intros i t h o H (e1 & j & x & e2 & e3 & E & _). destruct e1; discriminate.
  - intros i h o r (e1 & j & x & e2 & e3 & e4 & E & _). destruct e1; discriminate.
Qed.

Lemma shut_run fl g sched : forall w, shut w -> shut (run fl g w sched).
Proof. induction sched as [|i sched IH]; intros w H; cbn; [exact H|]. apply IH. apply shut_step. exact H. Qed.

Lemma closed_refuses fl g s progs sched i h o r :
  called_after_close (w_ev (run fl g (start s progs) sched)) i h o r -> can_be_refused o -> r = refused.
Proof. apply (c_over _ (shut_run fl g sched _ (shut_start s progs))). Qed.

(* Refused only when somebody called Close. *)

Definition asked (e : list event) (h : nat) : Prop := exists j, In (Inv j h CClose) e.

Definition told (p : pc) : option (nat * mres) :=
  match p with Moving h _ _ r | Leaving h _ r | Done h _ r => Some (h, r) | _ => None end.
Record honest (w : world) : Prop := Honest {
  n_cell : forall h c, nth_error (w_hs w) h = Some c -> x_closed c = true -> asked (w_ev w) h;
  n_call : forall i t h, nth_error (w_gs w) i = Some t -> g_pc t = Called h CClose -> asked (w_ev w) h;
  n_told : forall i t h, nth_error (w_gs w) i = Some t -> told (g_pc t) = Some (h, refused) -> asked (w_ev w) h;
  n_ret : forall i h o, In (Ret i h o refused) (w_ev w) -> asked (w_ev w) h
}.

Lemma asked_snoc e x h : asked e h -> asked (e ++ [x]) h.
Proof. intros (j & H). exists j. apply in_or_app. now left. Qed.

Lemma read_not_refused b n off : read_at b n off <> refused.
Proof. unfold read_at, refused. repeat match goal with |- context [if ?b then _ else _] => destruct b end; cbn; intros E; inversion E. Qed.
Lemma write_not_refused g b p off : snd (write_at g b p off) <> refused.
Proof.
  unfold write_at, refused. repeat match goal with |- context [if ?b then _ else _] => destruct b | |- context [match ?b with _ => _ end] => destruct b end; cbn; intros E; inversion E.
Qed.
Lemma truncate_not_refused g b size : snd (truncate g b size) <> refused.
Proof.
  unfold truncate, refused. repeat match goal with |- context [if ?b then _ else _] => destruct b | |- context [match ?b with _ => _ end] => destruct b end; cbn; intros E; inversion E.
Qed.
Lemma section_not_refused g b c o b1 off r : section g b c o = (b1, off, r) -> r <> refused.
Proof.
  unfold section. destruct o as [n|n off0|p|p off0|off0 wh|size| |]; try (intros E; inversion E; subst; discriminate).
  - pose proof (read_not_refused b n (x_off c)) as N. destruct (read_at b n (x_off c)); intros E; inversion E; subst; [exact N|discriminate].
  - pose proof (write_not_refused g b p (x_off c)) as N. destruct (write_at g b p (x_off c)) as [b2 [k d e|]]; cbn [snd] in N; intros E; inversion E; subst; [exact N|discriminate].
  - unfold mem_seek. repeat match goal with |- context [if ?b then _ else _] => destruct b | |- context [match ?b with _ => _ end] => destruct b end; intros E; inversion E; subst; discriminate.
Qed.

Lemma honest_same w w' i t p' todo' : honest w -> nth_error (w_gs w) i = Some t -> w_ev w' = w_ev w -> w_gs w' = set_nth (w_gs w) i (Gor todo' p') ->
  (forall h c, nth_error (w_hs w') h = Some c -> x_closed c = true -> asked (w_ev w) h) ->
  (forall h, p' <> Called h CClose) ->
  (forall h, told p' = Some (h, refused) -> asked (w_ev w) h) ->
  honest w'.
Proof.
  intros [S1 S2 S3 S4] Ht Ev Eg Hc Hn Hd. constructor; rewrite ?Ev, ?Eg; auto.
  - intros j u h Hj Hu. destruct (set_inv _ _ _ _ _ _ Ht Hj) as [[-> ->]|[N Hj']]; [exfalso; exact (Hn h Hu)|exact (S2 j u h Hj' Hu)].
  - intros j u h Hj Hu. destruct (set_inv _ _ _ _ _ _ Ht Hj) as [[-> ->]|[N Hj']]; [exact (Hd h Hu)|exact (S3 j u h Hj' Hu)].
Qed.

Lemma honest_step fl g w i : honest w -> honest (step fl g w i).
Proof.
  intros HS. unfold step. destruct (nth_error (w_gs w) i) as [t|] eqn:Ht; [|exact HS].
  assert (forall p' b, (forall h, p' <> Called h CClose) -> (forall h, told p' = Some (h, refused) -> asked (w_ev w) h) ->
     honest (at_pc (with_buf w b) i t p')) as Hquiet.
  { intros p' b N P. apply (honest_same w _ i t p' (g_todo t) HS Ht); [reflexivity|reflexivity|exact (n_cell w HS)|exact N|exact P]. }
  assert (forall p' h c x, nth_error (w_hs w) h = Some c -> (x_closed x = true -> asked (w_ev w) h) -> (forall h, p' <> Called h CClose) ->
     (forall h, told p' = Some (h, refused) -> asked (w_ev w) h) ->
     honest (at_pc (with_cell w h x) i t p')) as Hcell.
  { intros p' h c x Hc Hx N P. apply (honest_same w _ i t p' (g_todo t) HS Ht); [reflexivity|reflexivity| |exact N|exact P].
    intros h' y Hy Ey. cbn [at_pc with_cell w_hs] in Hy. destruct (set_inv _ _ _ _ _ _ Hc Hy) as [[-> ->]|[N' Hy']]; [exact (Hx Ey)|exact (n_cell w HS h' y Hy' Ey)]. }
  destruct (g_pc t) as [|h o|h o|h o|h p|h o off r|h o r|h o r] eqn:Hp.
  - destruct (g_todo t) as [|[h o] rest] eqn:Htd; [exact HS|]. destruct HS as [S1 S2 S3 S4]. constructor; cbn [w_gs w_ev w_hs].
    + intros h' c Hc E. apply asked_snoc. eauto.
    + intros j u h' Hj Hu. destruct (set_inv _ _ _ _ _ _ Ht Hj) as [[-> ->]|[N Hj']].
      * cbn [g_pc] in Hu. inversion Hu; subst. exists i. apply in_or_app. right. left. reflexivity.
      * apply asked_snoc. eauto.
    + intros j u h' Hj Hu. destruct (set_inv _ _ _ _ _ _ Ht Hj) as [[-> ->]|[N Hj']]; [discriminate|]. apply asked_snoc. eauto.
    + intros j h' o' H. apply asked_snoc. apply in_app_or in H as [H|[H|[]]]; [eauto|discriminate].
  - destruct (nth_error (w_hs w) h) as [c|] eqn:Hc; [|exact HS].
    assert (honest (if x_closed c then at_pc w i t (Done h o (MOk 0 [] e_closed)) else at_pc w i t (Entered h o))) as Hgate.
    { destruct (x_closed c) eqn:Ec; rewrite <- (world_id w) at 1; apply Hquiet; try discriminate.
      intros h' E. inversion E; subst. exact (n_cell w HS h' c Hc Ec). }
    destruct o as [n|n off0|p|p off0|off0 wh|size| |]; try exact Hgate.
    + rewrite <- (world_id w) at 1. apply Hquiet; [discriminate|]. intros h' E. inversion E.
    + apply (Hcell _ h c); auto; try discriminate. intros _. exact (n_call w HS i t h Ht Hp).
  - destruct (nth_error (w_hs w) h) as [c|] eqn:Hc; [|exact HS].
    assert (forall b r, r <> refused -> honest (at_pc (with_buf w b) i t (Done h o r))) as Hdone.
    { intros b r N. apply Hquiet; [discriminate|]. intros h' E. cbn [told] in E. inversion E; subst. contradiction. }
    assert (honest (if x_mu c then w else at_pc (with_cell w h (HCell (x_flag c) (x_off c) true (x_closed c))) i t (Holding h o))) as Hlock.
    { destruct (x_mu c); [exact HS|]. apply (Hcell (Holding h o) h c); auto; try discriminate. exact (n_cell w HS h c Hc). }
    unfold enter. cbn zeta. destruct o as [n|n off0|p|p off0|off0 wh|size| |]; try exact HS; try exact Hlock.
    + destruct (readable _ _); [exact Hlock|apply Hdone; discriminate].
    + destruct (readable _ _); apply Hdone; [apply read_not_refused|discriminate].
    + destruct (writable _ _); [exact Hlock|apply Hdone; discriminate].
    + destruct (writable _ _); [|apply Hdone; discriminate]. destruct (appends _ _); [apply Hdone; discriminate|].
      pose proof (write_not_refused g (w_buf w) p off0) as N. destruct (write_at _ _ _ _). apply Hdone. exact N.
    + destruct (writable _ _); [|apply Hdone; discriminate]. pose proof (truncate_not_refused g (w_buf w) size) as N. destruct (truncate _ _ _). apply Hdone. exact N.
  - destruct (nth_error (w_hs w) h) as [c|] eqn:Hc; [|exact HS].
    assert (honest (let '(b, off, r) := section g (w_buf w) c o in at_pc (with_buf w b) i t (Moving h o off r))) as Hsec.
    { destruct (section g (w_buf w) c o) as [[b off] r] eqn:Es. apply section_not_refused in Es. apply Hquiet; [discriminate|]. intros h' E. inversion E; subst. contradiction. }
    destruct o; try exact Hsec. destruct (appends _ _); [|exact Hsec].
    apply (Hcell (Sized h p) h c); auto; try discriminate. exact (n_cell w HS h c Hc).
  - destruct (nth_error (w_hs w) h) as [c|] eqn:Hc; [|exact HS].
    destruct (section g (w_buf w) c (CWrite p)) as [[b off] r] eqn:Es. apply section_not_refused in Es. apply Hquiet; [discriminate|]. intros h' E. inversion E; subst. contradiction.
  - destruct (nth_error (w_hs w) h) as [c|] eqn:Hc; [|exact HS]. apply (Hcell (Leaving h o r) h c); auto; try discriminate; [exact (n_cell w HS h c Hc)|].
    intros h' E. apply (n_told w HS i t h' Ht). rewrite Hp. exact E.
  - destruct (nth_error (w_hs w) h) as [c|] eqn:Hc; [|exact HS]. apply (Hcell (Done h o r) h c); auto; try discriminate; [exact (n_cell w HS h c Hc)|].
    intros h' E. apply (n_told w HS i t h' Ht). rewrite Hp. exact E.
  - destruct HS as [S1 S2 S3 S4]. constructor; cbn [w_gs w_ev w_hs].
    + intros h' c Hc E. apply asked_snoc. eauto.
    + intros j u h' Hj Hu. destruct (set_inv _ _ _ _ _ _ Ht Hj) as [[-> ->]|[N Hj']]; [discriminate|]. apply asked_snoc. eauto.
    + intros j u h' Hj Hu. destruct (set_inv _ _ _ _ _ _ Ht Hj) as [[-> ->]|[N Hj']]; [discriminate|]. apply asked_snoc. eauto.
    + intros j h' o' H. apply asked_snoc. apply in_app_or in H as [H|[H|[]]]; [eauto|]. inversion H; subst. apply (S3 j t h' Ht). rewrite Hp. reflexivity.
Qed.

Lemma honest_start s progs : honest (start s progs).
Proof.
  assert (forall i t, nth_error (map (fun p => Gor p Idle) progs) i = Some t -> g_pc t = Idle) as Hg.
  { intros i t H. rewrite nth_error_map in H. destruct (nth_error progs i) as [p|]; [|discriminate]. cbn in H. apply some_inj in H. now subst t. }
  constructor; cbn [start w_gs w_ev w_hs].
  - intros h c H E. rewrite nth_error_map in H. destruct (nth_error (m_handles s) h); [|discriminate]. cbn in H. apply some_inj in H. subst c. discriminate.
  - intros i t h H E. rewrite (Hg i t H) in E. discriminate.
  - intros i t h H E. rewrite (Hg i t H) in E. discriminate.
  - intros i h o [].
Qed.
Lemma honest_run fl g sched : forall w, honest w -> honest (run fl g w sched).
Proof. induction sched as [|i sched IH]; intros w H; cbn; [exact H|]. apply IH. apply honest_step. exact H. Qed.

Lemma refused_closed fl g s progs sched i h o :
  In (Ret i h o refused) (w_ev (run fl g (start s progs) sched)) -> exists j, In (Inv j h CClose) (w_ev (run fl g (start s progs) sched)).
Proof. apply (n_ret _ (honest_run fl g sched _ (honest_start s progs))). Qed.

(* ---- every call can return ---- *)

Definition pc_fine (n : nat) (p : pc) : Prop :=
  match call_of p with Some (h, _) => (h < n)%nat | None => True end /\
  match p with Entered _ o => can_be_refused o | _ => True end.
Record able (n : nat) (progs : list (list (nat * cop))) (w : world) : Prop := Able {
  l_hs : length (w_hs w) = n;
  l_gs : forall i p, nth_error progs i = Some p -> exists t, nth_error (w_gs w) i = Some t;
  l_in : forall i t, nth_error (w_gs w) i = Some t -> pc_fine n (g_pc t) /\ Forall (fun c => (fst c < n)%nat) (g_todo t);
  l_log : forall i t p, nth_error (w_gs w) i = Some t -> nth_error progs i = Some p ->
    map fst (rets i (w_ev w)) ++ opt (call_of (g_pc t)) ++ g_todo t = p;
  l_mu : forall h c, nth_error (w_hs w) h = Some c -> x_mu c = true -> exists i t, nth_error (w_gs w) i = Some t /\ holds (g_pc t) = Some h
}.

Section Able.
Variables (n : nat) (progs : list (list (nat * cop))) (w : world) (i : nat) (t : gor).
Hypothesis HA : able n progs w.
Hypothesis Ht : nth_error (w_gs w) i = Some t.

(* A step inside a call: what happens to the mutexes of the handles is said by the last two. *)
Lemma able_in w' p' : call_of p' = call_of (g_pc t) -> pc_fine n p' -> w_ev w' = w_ev w ->
  w_gs w' = set_nth (w_gs w) i (Gor (g_todo t) p') -> length (w_hs w') = n ->
  (forall h c, nth_error (w_hs w') h = Some c -> x_mu c = true -> holds p' = Some h \/
     (holds (g_pc t) <> Some h /\ exists c0, nth_error (w_hs w) h = Some c0 /\ x_mu c0 = true)) ->
  able n progs w'.
Proof.
  intros Hcall Hf Ev Eg En Hmu. destruct HA as [A1 A2 A3 A4 A5]. constructor; rewrite ?Ev, ?Eg.
  - exact En.
  - intros j p Hj. destruct (A2 j p Hj) as (u & Hu). destruct (Nat.eq_dec j i) as [->|N]; [rewrite (set_same _ _ _ _ Ht); eauto|rewrite set_other by exact N; eauto].
  - intros j u Hj. destruct (set_inv _ _ _ _ _ _ Ht Hj) as [[-> ->]|[N Hj']]; [|exact (A3 j u Hj')]. split; [exact Hf|exact (proj2 (A3 i t Ht))].
  - intros j u p Hj Hp. destruct (set_inv _ _ _ _ _ _ Ht Hj) as [[-> ->]|[N Hj']]; [|exact (A4 j u p Hj' Hp)].
    cbn [g_pc g_todo]. rewrite Hcall. exact (A4 i t p Ht Hp).
  - intros h c Hc Hm. destruct (Hmu h c Hc Hm) as [H|(N & c0 & Hc0 & Hm0)].
    + exists i, (Gor (g_todo t) p'). rewrite (set_same _ _ _ _ Ht). auto.
    + destruct (A5 h c0 Hc0 Hm0) as (j & u & Hj & Hu). exists j, u. split; [|exact Hu]. rewrite set_other; [exact Hj|]. intros ->. congruence.
Qed.

(* The mutex of no handle changes, and none is let go. *)
Lemma able_quiet b p' : call_of p' = call_of (g_pc t) -> pc_fine n p' -> (holds p' = holds (g_pc t)) -> able n progs (at_pc (with_buf w b) i t p').
Proof.
  intros Hcall Hf Hh. apply (able_in _ p' Hcall Hf); [reflexivity|reflexivity|exact (l_hs _ _ _ HA)|]. cbn [at_pc with_buf w_hs].
  intros h c Hc Hm. destruct (l_mu _ _ _ HA h c Hc Hm) as (j & u & Hj & Hu).
  destruct (Nat.eq_dec j i) as [->|N]; [left; rewrite Hh; congruence|].
  destruct (holds (g_pc t)) as [h'|] eqn:E; [|right; split; [discriminate|eauto]].
  destruct (Nat.eq_dec h' h) as [->|N']; [left; congruence|right; split; [congruence|eauto]].
Qed.
Lemma set_len {A} (l : list A) k x : length (set_nth l k x) = length l.
Proof. revert k. induction l as [|y l IH]; intros [|k]; cbn; auto. Qed.
Lemma able_cell h c x p' : nth_error (w_hs w) h = Some c -> call_of p' = call_of (g_pc t) -> pc_fine n p' ->
  (x_mu x = x_mu c /\ holds p' = holds (g_pc t)) \/ (x_mu x = true /\ holds p' = Some h /\ holds (g_pc t) = None) \/ (x_mu x = false /\ holds (g_pc t) = Some h) ->
  able n progs (at_pc (with_cell w h x) i t p').
Proof.
  intros Hc Hcall Hf Hx. apply (able_in _ p' Hcall Hf); [reflexivity|reflexivity|cbn; rewrite set_len; exact (l_hs _ _ _ HA)|]. cbn [at_pc with_cell w_hs].
  intros h' c' Hc' Hm.
  assert (holds (g_pc t) = Some h' -> holds p' = holds (g_pc t) -> holds p' = Some h') as E by congruence.
  destruct (set_inv _ _ _ _ _ _ Hc Hc') as [[-> ->]|[N Hc2]].
  - destruct Hx as [[E1 E2]|[(E1 & E2 & E3)|(E1 & E2)]]; [|left; exact E2|congruence].
    rewrite E1 in Hm. destruct (holds (g_pc t)) as [k|] eqn:Ek; [|right; split; [discriminate|eauto]].
    destruct (Nat.eq_dec k h) as [->|N']; [left; congruence|right; split; [congruence|eauto]].
  - destruct Hx as [[E1 E2]|[(E1 & E2 & E3)|(E1 & E2)]].
    + destruct (holds (g_pc t)) as [k|] eqn:Ek; [|right; split; [discriminate|eauto]].
      destruct (Nat.eq_dec k h') as [->|N']; [left; congruence|right; split; [congruence|eauto]].
    + right. rewrite E3. split; [discriminate|eauto].
    + right. rewrite E2. split; [congruence|eauto].
Qed.
End Able.

Lemma able_step fl g n progs w i : able n progs w -> able n progs (step fl g w i).
Proof.
  intros HA. unfold step. destruct (nth_error (w_gs w) i) as [t|] eqn:Ht; [|exact HA].
  pose proof (l_in _ _ _ HA i t Ht) as [[Hf1 Hf2] Htodo].
  pose proof (able_quiet n progs w i t HA Ht) as Hquiet. pose proof (able_cell n progs w i t HA Ht) as Hcell.
  assert (forall p', call_of p' = call_of (g_pc t) -> match p' with Entered _ o => can_be_refused o | _ => True end -> pc_fine n p') as Hfine.
  { intros p' E H. split; [rewrite E; exact Hf1|exact H]. }
  destruct (g_pc t) as [|h o|h o|h o|h p|h o off r|h o r|h o r] eqn:Hp.
  - destruct (g_todo t) as [|[h o] rest] eqn:Htd; [exact HA|]. inversion Htodo as [|? ? Hh Hrest]; subst. cbn [fst] in Hh.
    destruct HA as [A1 A2 A3 A4 A5]. constructor; cbn [w_gs w_ev w_hs]; auto.
    + intros j p Hj. destruct (A2 j p Hj) as (u & Hu). destruct (Nat.eq_dec j i) as [->|N]; [rewrite (set_same _ _ _ _ Ht); eauto|rewrite set_other by exact N; eauto].
    + intros j u Hj. destruct (set_inv _ _ _ _ _ _ Ht Hj) as [[-> ->]|[N Hj']]; [|exact (A3 j u Hj')]. split; [split; [exact Hh|exact I]|exact Hrest].
    + intros j u p Hj Hpr. rewrite rets_snoc, app_nil_r. destruct (set_inv _ _ _ _ _ _ Ht Hj) as [[-> ->]|[N Hj']]; [|exact (A4 j u p Hj' Hpr)].
      cbn [g_pc g_todo call_of opt app]. rewrite <- (A4 i t p Ht Hpr), Hp, Htd. reflexivity.
    + intros h' c Hc Hm. destruct (A5 h' c Hc Hm) as (j & u & Hj & Hu). exists j, u. split; [|exact Hu]. rewrite set_other; [exact Hj|].
      intros ->. rewrite Ht in Hj. apply some_inj in Hj. subst u. rewrite Hp in Hu. discriminate.
  - destruct (nth_error (w_hs w) h) as [c|] eqn:Hc; [|exact HA].
    assert (can_be_refused o -> able n progs (if x_closed c then at_pc w i t (Done h o (MOk 0 [] e_closed)) else at_pc w i t (Entered h o))) as Hgate.
    { intros Hr. destruct (x_closed c); rewrite <- (world_id w) at 1; apply Hquiet; try reflexivity; apply Hfine; try reflexivity; auto. }
    destruct o as [k|k off0|p|p off0|off0 wh|size| |]; try (apply Hgate; exact I).
    + rewrite <- (world_id w) at 1. apply Hquiet; try reflexivity. apply Hfine; [reflexivity|exact I].
    + apply (Hcell h c); auto; apply Hfine; try reflexivity; try exact I.
  - destruct (nth_error (w_hs w) h) as [c|] eqn:Hc; [|exact HA].
    assert (forall b r, able n progs (at_pc (with_buf w b) i t (Done h o r))) as Hdone.
    { intros b r. apply Hquiet; try reflexivity. apply Hfine; [reflexivity|exact I]. }
    assert (able n progs (if x_mu c then w else at_pc (with_cell w h (HCell (x_flag c) (x_off c) true (x_closed c))) i t (Holding h o))) as Hlock.
    { destruct (x_mu c); [exact HA|]. apply (Hcell h c); auto; apply Hfine; try reflexivity; try exact I. }
    unfold enter. cbn zeta. destruct o as [k|k off0|p|p off0|off0 wh|size| |]; try exact HA; try exact Hlock.
    + destruct (readable _ _); [exact Hlock|apply Hdone].
    + destruct (readable _ _); apply Hdone.
    + destruct (writable _ _); [exact Hlock|apply Hdone].
    + destruct (writable _ _); [|apply Hdone]. destruct (appends _ _); [apply Hdone|]. destruct (write_at _ _ _ _). apply Hdone.
    + destruct (writable _ _); [|apply Hdone]. destruct (truncate _ _ _). apply Hdone.
  - destruct (nth_error (w_hs w) h) as [c|] eqn:Hc; [|exact HA].
    assert (able n progs (let '(b, off, r) := section g (w_buf w) c o in at_pc (with_buf w b) i t (Moving h o off r))) as Hsec.
    { destruct (section g (w_buf w) c o) as [[b off] r]. apply Hquiet; try reflexivity. apply Hfine; [reflexivity|exact I]. }
    destruct o; try exact Hsec. destruct (appends _ _); [|exact Hsec].
    apply (Hcell h c); auto; apply Hfine; try reflexivity; try exact I.
  - destruct (nth_error (w_hs w) h) as [c|] eqn:Hc; [|exact HA].
    destruct (section g (w_buf w) c (CWrite p)) as [[b off] r]. apply Hquiet; try reflexivity. apply Hfine; [reflexivity|exact I].
  - destruct (nth_error (w_hs w) h) as [c|] eqn:Hc; [|exact HA]. apply (Hcell h c); auto; apply Hfine; try reflexivity; try exact I.
  - destruct (nth_error (w_hs w) h) as [c|] eqn:Hc; [|exact HA]. apply (Hcell h c); auto; apply Hfine; try reflexivity; try exact I.
  - destruct HA as [A1 A2 A3 A4 A5]. constructor; cbn [w_gs w_ev w_hs]; auto.
    + intros j p Hj. destruct (A2 j p Hj) as (u & Hu). destruct (Nat.eq_dec j i) as [->|N]; [rewrite (set_same _ _ _ _ Ht); eauto|rewrite set_other by exact N; eauto].
    + intros j u Hj. destruct (set_inv _ _ _ _ _ _ Ht Hj) as [[-> ->]|[N Hj']]; [|exact (A3 j u Hj')]. split; [split; exact I|exact Htodo].
    + intros j u p Hj Hpr. rewrite rets_snoc. destruct (set_inv _ _ _ _ _ _ Ht Hj) as [[-> ->]|[N Hj']].
      * rewrite Nat.eqb_refl, map_app, <- app_assoc. cbn [g_pc g_todo call_of opt app map fst]. rewrite <- (A4 i t p Ht Hpr), Hp. reflexivity.
      * destruct (Nat.eqb_spec i j) as [E|_]; [congruence|]. rewrite app_nil_r. exact (A4 j u p Hj' Hpr).
    + intros h' c Hc Hm. destruct (A5 h' c Hc Hm) as (j & u & Hj & Hu). exists j, u. split; [|exact Hu]. rewrite set_other; [exact Hj|].
      intros ->. rewrite Ht in Hj. apply some_inj in Hj. subst u. rewrite Hp in Hu. discriminate.
Qed.

Lemma able_run fl g n progs sched : forall w, able n progs w -> able n progs (run fl g w sched).
Proof. induction sched as [|i sched IH]; intros w H; cbn; [exact H|]. apply IH. apply able_step. exact H. Qed.

Lemma able_start s progs : calls_ok (length (m_handles s)) progs -> able (length (m_handles s)) progs (start s progs).
Proof.
  intros Hok. constructor; cbn [start w_hs w_gs w_ev].
  - apply map_length.
  - intros i p H. rewrite nth_error_map, H. cbn. eauto.
  - intros i t H. rewrite nth_error_map in H. destruct (nth_error progs i) as [p|] eqn:E; [|discriminate]. cbn in H. apply some_inj in H. subst t.
    split; [split; exact I|]. unfold calls_ok in Hok. rewrite Forall_forall in Hok. specialize (Hok p (nth_error_In _ _ E)).
    apply Forall_forall. intros c Hc. rewrite Forall_forall in Hok. apply (Hok c Hc).
  - intros i t p H Hp. rewrite nth_error_map, Hp in H. cbn in H. apply some_inj in H. subst t. reflexivity.
  - intros h c H Hm. rewrite nth_error_map in H. destruct (nth_error (m_handles s) h); [|discriminate]. cbn in H. apply some_inj in H. subst c. discriminate.
Qed.

(* What is left to do. *)
Definition rank (p : pc) : nat :=
  match p with Idle => 0 | Called _ _ => 7 | Entered _ _ => 6 | Holding _ _ => 5 | Sized _ _ => 4 | Moving _ _ _ _ => 3 | Leaving _ _ _ => 2 | Done _ _ _ => 1 end%nat.
Definition work (t : gor) : nat := (9 * length (g_todo t) + rank (g_pc t))%nat.
Definition left (gs : list gor) : nat := list_sum (map work gs).
Lemma left_cons x gs : left (x :: gs) = (work x + left gs)%nat.
Proof. reflexivity. Qed.
Lemma left_set gs i t u : nth_error gs i = Some t -> (work u < work t)%nat -> (left (set_nth gs i u) < left gs)%nat.
Proof.
  revert i. induction gs as [|x gs IH]; intros [|i] H L; try discriminate; cbn [nth_error set_nth] in *; rewrite !left_cons.
  - apply some_inj in H. subst x. lia.
  - specialize (IH i H L). lia.
Qed.

(* A goroutine with something to do gets on, unless it waits for a handle's mutex. *)
Lemma gets_on fl g n progs w i t : able n progs w -> nth_error (w_gs w) i = Some t -> work t <> 0%nat ->
  (left (w_gs (step fl g w i)) < left (w_gs w))%nat \/ exists h c o, g_pc t = Entered h o /\ nth_error (w_hs w) h = Some c /\ x_mu c = true.
Proof.
  intros HA Ht Hw. unfold step. rewrite Ht. pose proof (l_in _ _ _ HA i t Ht) as [[Hf1 Hf2] Htodo].
  assert (forall h o, call_of (g_pc t) = Some (h, o) -> exists c, nth_error (w_hs w) h = Some c) as Hin.
  { intros h o E. rewrite E in Hf1. destruct (nth_error (w_hs w) h) as [c|] eqn:Hc; [eauto|]. apply nth_error_None in Hc. rewrite (l_hs _ _ _ HA) in Hc. lia. }
  assert (forall b p', (rank p' < rank (g_pc t))%nat -> (left (w_gs (at_pc (with_buf w b) i t p')) < left (w_gs w))%nat) as Hb.
  { intros b p' L. cbn [at_pc with_buf w_gs]. apply (left_set _ _ t); [exact Ht|]. unfold work. cbn [g_todo g_pc]. lia. }
  assert (forall h x p', (rank p' < rank (g_pc t))%nat -> (left (w_gs (at_pc (with_cell w h x) i t p')) < left (w_gs w))%nat) as Hx.
  { intros h x p' L. cbn [at_pc with_cell w_gs]. apply (left_set _ _ t); [exact Ht|]. unfold work. cbn [g_todo g_pc]. lia. }
  destruct (g_pc t) as [|h o|h o|h o|h p|h o off r|h o r|h o r] eqn:Hp.
  - left. destruct (g_todo t) as [|[h o] rest] eqn:Htd; [unfold work in Hw; rewrite Hp, Htd in Hw; contradiction|]. cbn [w_gs].
    apply (left_set _ _ t); [exact Ht|]. unfold work. rewrite Hp, Htd. cbn. lia.
  - destruct (Hin h o eq_refl) as (c & Hc). rewrite Hc. left.
    assert ((left (w_gs (if x_closed c then at_pc w i t (Done h o (MOk 0 [] e_closed)) else at_pc w i t (Entered h o))) < left (w_gs w))%nat) as Hgate.
    { destruct (x_closed c); [apply (Hb (w_buf w) (Done h o (MOk 0 [] e_closed)))|apply (Hb (w_buf w) (Entered h o))]; cbn; lia. }
    destruct o; try exact Hgate; [apply (Hb (w_buf w) (Done h CStat (MOk (s_len (w_buf w)) [] e_nil))); cbn; lia|apply Hx; cbn; lia].
  - destruct (Hin h o eq_refl) as (c & Hc). rewrite Hc. destruct (x_mu c) eqn:Em; [right; eauto 6|]. left.
    assert (forall b r, (left (w_gs (at_pc (with_buf w b) i t (Done h o r))) < left (w_gs w))%nat) as Hd by (intros b r; apply Hb; cbn; lia).
    assert (forall x, (left (w_gs (at_pc (with_cell w h x) i t (Holding h o))) < left (w_gs w))%nat) as Hl by (intros x; apply Hx; cbn; lia).
    unfold enter. cbn zeta. rewrite Em. destruct o as [k|k off0|p|p off0|off0 wh|size| |]; try contradiction; try apply Hl.
    + destruct (readable _ _); [apply Hl|apply Hd].
    + destruct (readable _ _); apply Hd.
    + destruct (writable _ _); [apply Hl|apply Hd].
    + destruct (writable _ _); [|apply Hd]. destruct (appends _ _); [apply Hd|]. destruct (write_at _ _ _ _). apply Hd.
    + destruct (writable _ _); [|apply Hd]. destruct (truncate _ _ _). apply Hd.
  - destruct (Hin h o eq_refl) as (c & Hc). rewrite Hc. left.
    assert ((left (w_gs (let '(b, off, r) := section g (w_buf w) c o in at_pc (with_buf w b) i t (Moving h o off r))) < left (w_gs w))%nat) as Hsec.
    { destruct (section g (w_buf w) c o) as [[b off] r]. apply Hb. cbn. lia. }
    destruct o; try exact Hsec. destruct (appends _ _); [|exact Hsec]. apply Hx. cbn. lia.
  - destruct (Hin h (CWrite p) eq_refl) as (c & Hc). rewrite Hc. left. destruct (section g (w_buf w) c (CWrite p)) as [[b off] r]. apply Hb. cbn. lia.
  - destruct (Hin h o eq_refl) as (c & Hc). rewrite Hc. left. apply Hx. cbn. lia.
  - destruct (Hin h o eq_refl) as (c & Hc). rewrite Hc. left. apply Hx. cbn. lia.
  - left. cbn [w_gs]. apply (left_set _ _ t); [exact Ht|]. unfold work. rewrite Hp. cbn. lia.
Qed.

Lemma left_zero gs : left gs = 0%nat -> forall i t, nth_error gs i = Some t -> work t = 0%nat.
Proof.
  induction gs as [|x gs IH]; intros H [|i] t E; try discriminate; rewrite left_cons in H; cbn [nth_error] in E.
  - apply some_inj in E. subst x. lia.
  - apply (IH ltac:(lia) i t E).
Qed.
Lemma left_pos gs : left gs <> 0%nat -> exists i t, nth_error gs i = Some t /\ work t <> 0%nat.
Proof.
  induction gs as [|x gs IH]; intros H; [contradiction|]. rewrite left_cons in H.
  destruct (Nat.eq_dec (work x) 0) as [E|E].
  - destruct (IH ltac:(lia)) as (i & t & H1 & H2). exists (S i), t. auto.
  - exists 0%nat, x. auto.
Qed.

Lemma finishes fl g n progs : forall m w, (left (w_gs w) <= m)%nat -> able n progs w -> exists sched, left (w_gs (run fl g w sched)) = 0%nat.
Proof.
  induction m as [|m IH]; intros w L HA; [exists []; cbn; lia|].
  destruct (Nat.eq_dec (left (w_gs w)) 0) as [E|E]; [exists []; exact E|].
  assert (exists i, (left (w_gs (step fl g w i)) < left (w_gs w))%nat) as (i & Hi).
  { destruct (left_pos _ E) as (i & t & Ht & Hw). destruct (gets_on fl g n progs w i t HA Ht Hw) as [H|(h & c & o & Hp & Hc & Hm)]; [eauto|].
    destruct (l_mu _ _ _ HA h c Hc Hm) as (j & u & Hj & Hu).
    destruct (gets_on fl g n progs w j u HA Hj) as [H|(h' & c' & o' & Hp' & _)]; [|eauto|].
    - unfold work. destruct (g_pc u); try discriminate; cbn; lia.
    - rewrite Hp' in Hu. discriminate. }
  destruct (IH (step fl g w i) ltac:(lia) (able_step fl g n progs w i HA)) as (sched & H). exists (i :: sched). exact H.
Qed.

Lemma all_can_return fl g s progs sched : calls_ok (length (m_handles s)) progs ->
  exists sched', all_returned progs (w_ev (run fl g (start s progs) (sched ++ sched'))).
Proof.
  intros Hok. pose proof (able_run fl g _ progs sched _ (able_start s progs Hok)) as HA.
  destruct (finishes fl g _ progs _ _ (le_n _) HA) as (sched' & H). exists sched'. intros i p Hp.
  unfold run at 1. rewrite fold_left_app. fold (run fl g (start s progs) sched). fold (run fl g (run fl g (start s progs) sched) sched').
  pose proof (able_run fl g _ progs sched' _ HA) as HB. destruct (l_gs _ _ _ HB i p Hp) as (t & Ht).
  pose proof (left_zero _ H i t Ht) as W. pose proof (l_log _ _ _ HB i t p Ht Hp) as E.
  unfold work in W. destruct (g_todo t) as [|x l] eqn:Et; [|cbn in W; lia]. destruct (g_pc t) eqn:Ep; cbn in W; try lia. cbn [call_of opt app] in E. rewrite app_nil_r in E. exact E.
Qed.

(* Two goroutines of one call each: the orders there are. *)
Lemma two_orders l a b e : placed e l -> rets 0 e = [a] -> invs 0 e = [fst a] -> rets 1 e = [b] -> invs 1 e = [fst b] ->
  (forall i, (2 <= i)%nat -> invs i e = []) ->
  l = [(0%nat, fst (fst a), snd (fst a), snd a); (1%nat, fst (fst b), snd (fst b), snd b)] \/
  l = [(1%nat, fst (fst b), snd (fst b), snd b); (0%nat, fst (fst a), snd (fst a), snd a)].
Proof.
  intros Hp R0 I0 R1 I1 Hn.
  assert (forall k x, rets k e = [x] -> invs k e = [fst x] -> of k l = [x]) as Hone.
  { intros k x R I. destruct (Hp k) as [(c & Hc) (d & Hd)]. rewrite R in Hc. rewrite I, Hc in Hd. cbn [map app] in Hd.
    destruct c; [exact Hc|discriminate]. }
  pose proof (Hone 0%nat a R0 I0) as E0. pose proof (Hone 1%nat b R1 I1) as E1.
  assert (forall i, (2 <= i)%nat -> of i l = []) as E2.
  { intros i L. destruct (Hp i) as [_ (d & Hd)]. rewrite (Hn i L) in Hd. destruct (of i l); [reflexivity|discriminate]. }
  assert (forall x k, (forall i, (2 <= i)%nat -> of i (x :: k) = []) -> (fst (fst (fst x)) < 2)%nat /\ forall i, (2 <= i)%nat -> of i k = []) as Hsmall.
  { intros [[[i h] o] r] k H. cbn [fst]. split.
    - destruct (le_lt_dec 2 i) as [L|L]; [|exact L]. specialize (H i L). cbn in H. rewrite Nat.eqb_refl in H. discriminate.
    - intros j L. specialize (H j L). cbn in H. apply app_eq_nil in H. apply H. }
  destruct a as [[ah ao] ar], b as [[bh bo] br]. cbn [fst snd] in *.
  destruct l as [|[[[i1 h1] o1] r1] l]; [discriminate|]. apply Hsmall in E2 as [L1 E2]. cbn [fst] in L1.
  assert (i1 = 0 \/ i1 = 1)%nat as [->| ->] by lia; cbn [of flat_map Nat.eqb app] in E0, E1.
  - inversion E0 as [[Ea Eb Ec E0']]. destruct l as [|[[[i2 h2] o2] r2] l]; [discriminate|]. apply Hsmall in E2 as [L2 E2]. cbn [fst] in L2.
    assert (i2 = 0 \/ i2 = 1)%nat as [->| ->] by lia; cbn [of flat_map Nat.eqb app] in E0', E1; [discriminate|].
    inversion E1 as [[Ed Ee Ef E1']]. destruct l as [|[[[i3 h3] o3] r3] l]; [left; reflexivity|]. apply Hsmall in E2 as [L3 _]. cbn [fst] in L3.
    assert (i3 = 0 \/ i3 = 1)%nat as [->| ->] by lia; cbn in E0', E1'; discriminate.
  - inversion E1 as [[Ea Eb Ec E1']]. destruct l as [|[[[i2 h2] o2] r2] l]; [discriminate|]. apply Hsmall in E2 as [L2 E2]. cbn [fst] in L2.
    assert (i2 = 0 \/ i2 = 1)%nat as [->| ->] by lia; cbn [of flat_map Nat.eqb app] in E0, E1'; [|discriminate].
    inversion E0 as [[Ed Ee Ef E0']]. destruct l as [|[[[i3 h3] o3] r3] l]; [right; reflexivity|]. apply Hsmall in E2 as [L3 _]. cbn [fst] in L3.
    assert (i3 = 0 \/ i3 = 1)%nat as [->| ->] by lia; cbn in E0', E1'; discriminate.
Qed.

Lemma legal_two fl f a b c d i h o r f' : legal fl f [(a, b, c, d); (i, h, o, r)] f' ->
  exists f1, happens fl f b c d f1 /\ happens fl f1 h o r f'.
Proof.
  intros H. remember [(a, b, c, d); (i, h, o, r)] as l eqn:E. destruct H as [|l f1 i' h' o' r' f2 H1 H2]; [discriminate|].
  change [(a, b, c, d); (i, h, o, r)] with ([(a, b, c, d)] ++ [(i, h, o, r)]) in E. apply app_inj_tail in E as [-> E]. inversion E; subst.
  exists f1. split; [|exact H2]. remember [(a, b, c, d)] as l eqn:E'. destruct H1 as [|l f0 i' h' o' r' f2' H1 H3]; [discriminate|].
  change [(a, b, c, d)] with ([] ++ [(a, b, c, d)]) in E'. apply app_inj_tail in E' as [-> E']. inversion E'; subst.
  remember [] as l eqn:E3. destruct H1 as [|l f3 i' h' o' r' f4 H1 _]; [exact H3|]. destruct l; discriminate.
Qed.

Lemma happens_step fl f h o r f' : r <> refused -> (forall p off, o <> CWriteAt p off) -> happens fl f h o r f' -> f' = fst (a_step fl f (h, to_mop o)).
Proof.
  intros N Nw [(_ & E & _)|H]; [contradiction|]. destruct o; try (rewrite H; reflexivity). exfalso. eapply Nw. reflexivity.
Qed.
