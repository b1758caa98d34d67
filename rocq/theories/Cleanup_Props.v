(* C82: cleaning up after interrupted writes by walking the tree with a policy's WalkFunc. *)
From Verif Require Import Common ContentRange_Model PathLex_Model PathLex_Proofs TempName_Model TempName_Spec Cleanup_Model Cleanup_Spec Cleanup_Proofs.
Open Scope nat_scope.

(* C82, random policy, whatever RemoveAll and ReadDir do: only what is at or below a name of the policy's form goes; when
   the walk ends without error all of it is gone; and without a failing call there is no error. *)
Theorem C82_random_policy : forall rm lists t, well t ->
  cleaned random_own t (clean_up random_walk rm lists t) /\
  ((forall p x, rm p x = None) -> (forall p, lists p = true) -> snd (clean_up random_walk rm lists t) = true).
Proof. exact random_cleans. Qed.
Print Assumptions C82_random_policy.

(* C82, directory policy on a directory below the walked one: exactly the "<10 digits>.tmp" directly in the directory, with
   all below them; a file of that form elsewhere, or deeper, stays. *)
Theorem C82_dir_policy_partial : forall td, Forall proper td -> td <> [] -> forall rm lists t, well t ->
  cleaned (dir_own td) t (clean_up (dir_walk (spelled td)) rm lists t) /\
  ((forall p x, rm p x = None) -> (forall p, lists p = true) -> snd (clean_up (dir_walk (spelled td)) rm lists t) = true).
Proof. exact dir_cleans. Qed.
Print Assumptions C82_dir_policy_partial.

(* "t/", "0123456789.tmp", "f.0123456789.tmp" *)
Definition c82_d : list byte := [100%N].
Definition c82_tmp : list byte := [48; 49; 50; 51; 52; 53; 54; 55; 56; 57; 46; 116; 109; 112]%N.
Definition c82_ftmp : list byte := 102%N :: 46%N :: c82_tmp.
Definition c82_tree : tree :=
  Node [(c82_d, Node [(c82_tmp, Leaf); (c82_ftmp, Node [(c82_d, Leaf)]); (c82_d, Node [(c82_tmp, Leaf)])]); (c82_ftmp, Leaf); (c82_tmp, Leaf)].

Example C82_met :
  well c82_tree /\ Forall proper [c82_d] /\
  clean_up random_walk (fun _ _ => None) (fun _ => true) c82_tree =
    (Some (Node [(c82_d, Node [(c82_tmp, Leaf); (c82_d, Node [(c82_tmp, Leaf)])]); (c82_tmp, Leaf)]), true) /\
  clean_up (dir_walk (spelled [c82_d])) (fun _ _ => None) (fun _ => true) c82_tree =
    (Some (Node [(c82_d, Node [(c82_ftmp, Node [(c82_d, Leaf)]); (c82_d, Node [(c82_tmp, Leaf)])]); (c82_ftmp, Leaf); (c82_tmp, Leaf)]), true).
Proof.
  assert (proper c82_d /\ proper c82_tmp /\ proper c82_ftmp) as (H1 & H2 & H3).
  { split; [|split]; (split; [discriminate|split; [discriminate|split; [discriminate|intros H; vm_compute in H; intuition discriminate]]]). }
  split; [|split; [auto|split; vm_compute; reflexivity]].
  unfold c82_tree. repeat match goal with
    | |- well Leaf => apply well_leaf
    | |- well (Node _) => constructor
    | |- NoDup _ => constructor; [intros H; vm_compute in H; intuition discriminate|]
    | |- NoDup [] => constructor
    | |- Forall _ [] => constructor
    | |- Forall _ (_ :: _) => constructor
    | |- _ /\ _ => split
    | |- proper (fst _) => cbn [fst]; assumption
    | |- well (snd _) => cbn [snd]
    end.
Qed.

(* For a policy on the walked directory itself, ".", it is false: the walk ends without error and every temporary file is
   still there. *)
Theorem C82_dir_policy_in_dot_refuted :
  ~ forall t, well t -> cleaned (dir_own []) t (clean_up (dir_walk (clean [dot])) (fun _ _ => None) (fun _ => true) t).
Proof.
  intros H. destruct (H (Node [(c82_tmp, Leaf)])) as [_ H2].
  - constructor; [constructor; [intros []|constructor]|]. constructor; [|constructor]. split; [|constructor].
    split; [discriminate|split; [discriminate|split; [discriminate|intros X; vm_compute in X; intuition discriminate]]].
  - specialize (H2 eq_refl [c82_tmp]). assert (covered (dir_own []) [c82_tmp]) as Hc.
    { exists [c82_tmp], []. split; [reflexivity|]. exists c82_tmp. split; [reflexivity|]. exists (firstn 10 c82_tmp). split; [|reflexivity].
      split; [reflexivity|]. repeat constructor; vm_compute; discriminate. }
    specialize (H2 Hc). vm_compute in H2. discriminate.
Qed.
Print Assumptions C82_dir_policy_in_dot_refuted.
