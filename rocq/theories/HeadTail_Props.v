(* C26: the path iterators of fsutil/pathutil and vroot/internal/paths. *)
From Verif Require Import Common PathLex_Model PathLex_Proofs HeadTail_Model HeadTail_Spec HeadTail_Proofs.

(* C26: PathFromHead yields the paths made of the first element, the first two, and so on up
   to the cleaned path itself (the root first, for an absolute path), prefixed by the volume. *)
Theorem C26_head_yields_every_prefix :
  forall vol p, path_from_head vol p = Some (map (app vol) (heads p)).
Proof. exact path_from_head_spec. Qed.
Print Assumptions C26_head_yields_every_prefix.

(* C26: PathFromTail yields the same in reverse, unless the cleaned path is the root. *)
Theorem C26_tail_yields_reverse_partial :
  forall vol p, clean p <> [sep] -> path_from_tail vol p = Some (map (app vol) (rev (heads p))).
Proof. exact path_from_tail_spec. Qed.
Print Assumptions C26_tail_yields_reverse_partial.

Theorem C26_heads_distinct : forall p, NoDup (heads p).
Proof. exact heads_nodup. Qed.
Print Assumptions C26_heads_distinct.

(* C26: vroot's copy agrees on relative paths, the only ones it is used on. *)
Theorem C26_vroot_head_relative : forall p, rooted p = false -> vpath_from_head p = Some (heads p).
Proof. exact vpath_from_head_spec. Qed.
Print Assumptions C26_vroot_head_relative.

(* Of the root, PathFromTail yields the root twice. *)
Theorem C26_tail_of_root_twice_refuted :
  exists p ys, path_from_tail [] p = Some ys /\ ~ NoDup ys.
Proof.
  exists [sep], [[sep]; [sep]]. split; [reflexivity|]. intros H. inversion H as [|? ? Hn _]; subst.
  apply Hn. left; reflexivity.
Qed.
Print Assumptions C26_tail_of_root_twice_refuted.

(* "../a//b/./c/../d" and "/x/y". *)
Example C26_hypotheses_met :
  let p := [46; 46; 47; 97; 47; 47; 98; 47; 46; 47; 99; 47; 46; 46; 47; 100]%N in
  clean p <> [sep] /\
  heads p = [[46; 46]; [46; 46; 47; 97]; [46; 46; 47; 97; 47; 98]; [46; 46; 47; 97; 47; 98; 47; 100]]%N /\
  path_from_head [] p = Some (heads p) /\ path_from_tail [] p = Some (rev (heads p)) /\
  path_from_head [67; 58]%N [47; 120; 47; 121]%N =
    Some [[67; 58; 47]; [67; 58; 47; 120]; [67; 58; 47; 120; 47; 121]]%N.
Proof. split; [vm_compute; discriminate|]. repeat split; vm_compute; reflexivity. Qed.
