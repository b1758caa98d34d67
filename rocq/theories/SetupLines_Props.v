(* C95: setup lines of testhelper make the tree they describe, in any order. *)
From Coq Require Import Permutation.
From Verif Require Import Common CommonLemmas ContentRange_Model PathLex_Model PathLex_Proofs SetupLines_Model SetupLines_Spec SetupLines_Proofs.
Open Scope nat_scope.

(* What a line means, and that no other line means anything. *)
Theorem C95_parse uq l p : parse_line uq l = Some p <-> line_of uq l p.
Proof. exact (parse_iff uq l p). Qed.
Print Assumptions C95_parse.

(* Lines written as the documentation says are read back. *)
Theorem C95_dir_line uq n : n <> [] -> ~ In 32%N n -> parse_line uq (n ++ [47%N]) = Some (PDir n).
Proof. exact (dir_line uq n). Qed.
Print Assumptions C95_dir_line.
Theorem C95_symlink_line uq n t : n <> [] -> t <> [] -> ~ In 32%N n -> parse_line uq (n ++ [32; 45; 62; 32]%N ++ t) = Some (PSym n t).
Proof. exact (sym_line uq n t). Qed.
Print Assumptions C95_symlink_line.
Theorem C95_file_line_partial uq n m b : n <> [] -> ~ In 32%N n -> nowhere [32; 45; 62; 32]%N (34%N :: m ++ [34%N]) -> uq (34%N :: m ++ [34%N]) = Some b ->
  parse_line uq (n ++ [58; 32]%N ++ 34%N :: m ++ [34%N]) = Some (PFile n b).
Proof. exact (file_line uq n m b). Qed.
Print Assumptions C95_file_line_partial.

(* The tree is laid onto the disk, and nothing else changes. *)
Theorem C95_setup_partial ps st0 : coherent ps -> room ps st0 -> exists st, setup st0 ps = Some st /\ laid ps st0 st.
Proof. exact (setup_lays ps st0). Qed.
Print Assumptions C95_setup_partial.
Theorem C95_lines_partial uq ls ps st0 : Forall2 (line_of uq) ls ps -> coherent ps -> room ps st0 -> exists st, setup_lines uq st0 ls = Some st /\ laid ps st0 st.
Proof. exact (lines_lay uq ls ps st0). Qed.
Print Assumptions C95_lines_partial.
(* One bad line, and nothing is made. *)
Theorem C95_bad_line uq ls st0 : (forall ps, ~ Forall2 (line_of uq) ls ps) -> setup_lines uq st0 ls = None.
Proof. exact (lines_refused uq ls st0). Qed.
Print Assumptions C95_bad_line.

(* The order in which they are given does not matter. *)
Theorem C95_any_order_partial ps ps' st0 : coherent ps -> room ps st0 -> Permutation ps ps' ->
  exists st st', setup st0 ps = Some st /\ setup st0 ps' = Some st' /\ same_tree st st'.
Proof. exact (setup_any_order ps ps' st0). Qed.
Print Assumptions C95_any_order_partial.

(* The order of application, whatever is described. *)
Theorem C95_order ps st : Forall (fun p => plain_name (called p)) ps -> exists qs, Permutation ps qs /\ ForallOrdPairs (fun p q => ~ goes_first q p) qs /\
  (forall n k, plain_name n -> filter (alike n k) qs = filter (alike n k) ps) /\ setup st ps = setup_in_order st qs.
Proof. exact (setup_order ps st). Qed.
Print Assumptions C95_order.

(* Nothing is silently left out: a proc with something in its way fails the setup. *)
Theorem C95_blocked ps st p : In p ps -> plain_name (called p) -> blocked st p -> setup st ps = None.
Proof. exact (setup_blocked ps st p). Qed.
Print Assumptions C95_blocked.

(* "l" -> "d", hard link "d/h" = "d/f", "d/f", "d/e", with "d" and a file "o" there before. *)
Definition c95_procs : list proc :=
  [PSym [108%N] [100%N]; PLink [100; 47; 104]%N [100; 47; 102]%N; PFile [100; 47; 102]%N [1; 2]%N; PDir [100; 47; 101]%N].
Definition c95_disk : kdisk := KDisk (fun c => if list_eq_dec (list_eq_dec N.eq_dec) c [[100%N]] then Some KDir else if list_eq_dec (list_eq_dec N.eq_dec) c [[111%N]] then Some (KFile 0) else None) (fun _ => [9%N]) 1.
Lemma one_proper x : x <> 46%N -> x <> 47%N -> proper [x].
Proof. intros H1 H2. split; [discriminate|]. split; [intros E; apply H1; unfold dot in E; congruence|]. split; [discriminate|]. intros [H|[]]. unfold sep in H. congruence. Qed.
Example C95_met : coherent c95_procs /\ room c95_procs c95_disk /\
  option_map (fun st => (k_at st [[100%N]; [104%N]], k_at st [[108%N]], k_at st [[111%N]], k_bytes st 1)) (setup c95_disk c95_procs) = Some (Some (KFile 1), Some (KSym [100%N]), Some (KFile 0), [1; 2]%N) /\
  blocked c95_disk (PFile [111; 47; 120]%N []).
Proof.
  assert (forall P : proc -> Prop, P (PSym [108%N] [100%N]) -> P (PLink [100; 47; 104]%N [100; 47; 102]%N) -> P (PFile [100; 47; 102]%N [1; 2]%N) -> P (PDir [100; 47; 101]%N) -> forall p, In p c95_procs -> P p) as Hall.
  { intros P H1 H2 H3 H4 p Hin. cbn in Hin. destruct Hin as [<-|[<-|[<-|[<-|[]]]]]; assumption. }
  split; [|split; [|split]].
  - constructor.
    + apply Forall_forall. apply Hall; unfold plain_name; vm_compute split_sep; repeat (apply Forall_cons; [apply one_proper; discriminate|]); apply Forall_nil.
    + unfold c95_procs. repeat (apply FOP_cons; [repeat (apply Forall_cons; [right; vm_compute; discriminate|]); apply Forall_nil|]). apply FOP_nil.
    + intros p q Hp Hq Hd (x & r & E). assert (length (where_ p) < length (where_ q)) as Hl by (rewrite E, app_length; cbn; lia).
      revert p Hp Hd E Hl. apply (Hall (fun p => ~ isdir p -> where_ q = where_ p ++ x :: r -> length (where_ p) < length (where_ q) -> False)); try (intros H; destruct (H I)); revert q Hq;
        apply (Hall (fun q => ~ isdir _ -> where_ q = where_ _ ++ x :: r -> length (where_ _) < length (where_ q) -> False)); cbn; intros; try lia; try discriminate.
    + intros n t [E|[E|[E|[E|[]]]]]; try discriminate. assert (n = [100; 47; 104]%N /\ t = [100; 47; 102]%N) as [-> ->] by (split; congruence). split.
      * unfold plain_name. vm_compute split_sep. repeat (apply Forall_cons; [apply one_proper; discriminate|]). apply Forall_nil.
      * exists [100; 47; 102]%N, [1; 2]%N. split; [right; right; left; reflexivity|reflexivity].
  - constructor.
    + apply (Hall (fun p => ~ isdir p -> k_at c95_disk (where_ p) = None)); intros; vm_compute; reflexivity.
    + intros p c Hp. revert p Hp c. apply (Hall (fun p => forall c, c <> [] -> over c (where_ p) \/ (isdir p /\ c = where_ p) -> k_at c95_disk c = None \/ k_at c95_disk c = Some KDir));
        intros c Hc [(x & r & E)|[Hd E]]; try contradiction; cbn in E; try (subst c; left; reflexivity); destruct c as [|y [|z c]]; try contradiction; cbn in E; try discriminate; try (destruct c; discriminate); assert (y = [100%N]) as -> by congruence; right; reflexivity.
    + intros c f H. cbn in H. destruct (list_eq_dec _ c [[100%N]]); [discriminate|]. destruct (list_eq_dec _ c [[111%N]]); [|discriminate]. assert (f = 0) as -> by congruence. cbn. lia.
  - vm_compute. reflexivity.
  - left. exists [[111%N]], 0. split; [discriminate|]. split; [left; exists [120%N], []; reflexivity|reflexivity].
Qed.
(* a: "x" with quotes stripped. *)
Definition strip (s : list byte) : option (list byte) := Some (removelast (tl s)).
Example C95_lines_met : Forall2 (line_of strip) [[97; 58; 32; 34; 120; 34]%N; [100; 47]%N; [108; 32; 45; 62; 32; 97]%N] [PFile [97%N] [120%N]; PDir [100%N]; PSym [108%N] [97%N]] /\
  nowhere [32; 45; 62; 32]%N (34%N :: [120%N] ++ [34%N]) /\ (forall ps, ~ Forall2 (line_of strip) [[97]%N] ps).
Proof.
  split; [|split].
  - repeat (constructor; [apply parse_iff; vm_compute; reflexivity|]). constructor.
  - apply cut_none; [discriminate|vm_compute; reflexivity].
  - intros ps H. apply parse_lines_iff in H. vm_compute in H. discriminate.
Qed.

(* A file whose quoted content has an arrow in it becomes a symlink. *)
Theorem C95_arrow_in_content_refuted : exists uq l n q b, l = n ++ [58; 32]%N ++ q /\ uq q = Some b /\ ~ In 32%N n /\ parse_line uq l <> Some (PFile n b) /\ exists n' t, parse_line uq l = Some (PSym n' t).
Proof.
  exists strip, ([97; 58; 32; 34; 120; 32; 45; 62; 32; 121; 34]%N), [97%N], ([34; 120; 32; 45; 62; 32; 121; 34]%N). eexists. split; [reflexivity|]. split; [reflexivity|]. split; [intros [H|[]]; discriminate|].
  split; [vm_compute; discriminate|]. do 2 eexists. vm_compute. reflexivity.
Qed.
Print Assumptions C95_arrow_in_content_refuted.
(* A file whose unquoted content ends in a slash becomes a directory. *)
Theorem C95_slash_in_content_refuted : exists l n c, l = n ++ [58; 32]%N ++ c /\ ~ In 32%N n /\ ~ In 32%N c /\ forall uq, exists n', parse_line uq l = Some (PDir n').
Proof.
  exists ([97; 58; 32; 98; 47]%N), [97%N], ([98; 47]%N). split; [reflexivity|]. split; [intros [H|[]]; discriminate|]. split; [intros [H|[H|[]]]; discriminate|]. intros uq. eexists. vm_compute. reflexivity.
Qed.
Print Assumptions C95_slash_in_content_refuted.
(* A hard link to a hard link of the set: made or failing by how the names sort. *)
Theorem C95_link_to_link_refuted : exists ps st0, room ps st0 /\ (exists st, setup_in_order st0 ps = Some st) /\ setup st0 ps = None.
Proof.
  exists [PFile [102%N] []; PLink [98%N] [102%N]; PLink [97%N] [98%N]], (KDisk (fun _ => None) (fun _ => []) 0). split; [constructor; intros; cbn; auto; discriminate|]. split; [eexists; vm_compute; reflexivity|vm_compute; reflexivity].
Qed.
Print Assumptions C95_link_to_link_refuted.
