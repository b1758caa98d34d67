(* What confinement to a sub-root means: the names an operation works on, and where the
   top's file system takes them. *)
From Verif Require Import Common ContentRange_Model PathLex_Model PathLex_Proofs Resolve_Model Resolve_Spec OverlayRoot_Model.
Open Scope nat_scope.

(* [full] is the directory with elements [b], or a name below it. *)
Definition within (b : list (list byte)) (full : list byte) : Prop := exists l, Forall proper l /\ full = join_sep (b ++ l).
Definition beneath (b : list (list byte)) (full : list byte) : Prop := exists l, l <> [] /\ Forall proper l /\ full = join_sep (b ++ l).

(* Calls that take a directory entry away, moving included. *)
Definition takes_away (q : call) : Prop := match q with QRemove _ _ | QRename _ _ => True | _ => False end.

(* ---- the top's own tree; paths from its root, the content under "merged" ---- *)
Definition at_top (l : list (list byte)) : list (list byte) := [109; 101; 114; 103; 101; 100]%N :: l.
(* No element on the way, the last included, is a symlink in the top. *)
Definition clear (t : tree) (l : list (list byte)) : Prop := forall k tgt, t (at_top (firstn k l)) <> Some (KLink tgt).
Definition shown (k : knode) : mst := match k with KDir => MDir | KFile => MFile | KLink tgt => MLink tgt end.
(* The merged view shows what the top holds at a name it reaches without a symlink, unless
   the lookup fails. *)
Definition shows_top (t : tree) (m : merged) : Prop :=
  forall l k, Forall proper l -> clear t (removelast l) -> t (at_top l) = Some k ->
  m (join_sep l) = shown k \/ exists c, c <> enoent /\ m (join_sep l) = MErr c.

(* Opening with O_CREATE: walking [rest] from the real directory [d], links followed to the
   end, opens or makes the file [r]. *)
Inductive kc (t : tree) : list (list byte) -> list (list byte) -> list (list byte) -> Prop :=
| kc_new d c : proper c -> t d = Some KDir -> t (d ++ [c]) = None -> kc t d [c] (d ++ [c])
| kc_old d c : proper c -> t (d ++ [c]) = Some KFile -> kc t d [c] (d ++ [c])
| kc_dot d rest r : kc t d rest r -> kc t d ([dot] :: rest) r
| kc_up d c rest r : kc t d rest r -> kc t (d ++ [c]) ([dot; dot] :: rest) r
| kc_dir d c rest r : proper c -> t (d ++ [c]) = Some KDir -> kc t (d ++ [c]) rest r -> kc t d (c :: rest) r
| kc_link d c l rest r : proper c -> t (d ++ [c]) = Some (KLink l) -> rooted l = false -> kc t d (split_sep l ++ rest) r -> kc t d (c :: rest) r.

(* A directory walk of the merged view from the overlay's root: every prefix is a directory. *)
Definition mdirs (m : merged) (b : list (list byte)) : Prop := forall k, 1 <= k <= length b -> m (join_sep (firstn k b)) = MDir.

(* Lstat in one file system that follows the links on the way, as os.Root does. *)
Fixpoint look (t : tree) (fuel : nat) (d rest : list (list byte)) : mst :=
  match fuel with
  | O => MErr 40
  | S fuel =>
      match rest with
      | [] => match t d with Some k => shown k | None => MErr enoent end
      | c :: rest' =>
          if is_dot c then look t fuel d rest'
          else if is_dotdot c then match d with [] => MErr escapes | _ => look t fuel (removelast d) rest' end
          else match t (d ++ [c]) with
               | None => MErr enoent
               | Some k =>
                   match rest', k with
                   | [], _ => shown k
                   | _, KDir => look t fuel (d ++ [c]) rest'
                   | _, KFile => MErr enotdir
                   | _, KLink l => if rooted l then MErr escapes else look t fuel d (split_sep l ++ rest')
                   end
               end
      end
  end.
(* The merged view of an overlay that has only its top. *)
Definition top_only (t : tree) : merged := fun full => look t (N.to_nat 300) [] (at_top (match full with [] => [] | _ => split_sep full end)).
(* Changes to a top's tree written out. *)
Definition listing := list (list (list byte) * knode).
Definition add_link (al : listing) (full tgt : list byte) : listing := al ++ [(at_top (split_sep full), KLink tgt)].
Definition without (al : listing) (full : list byte) : listing :=
  filter (fun e => negb (path_eqb (at_top (split_sep full)) (firstn (S (length (split_sep full))) (fst e)))) al.

(* Whether a call's operation follows a symlink at the end of the name it resolved. *)
Definition follows_last (q : call) : bool := match q with QRead skip _ | QChange skip _ => negb skip | _ => false end.
Definition plain_call (q : call) : Prop := match q with QWrite _ _ _ | QMkdirAll _ => False | _ => True end.
(* Not at or below a directory of the top's content. *)
Definition outside (b r : list (list byte)) : Prop := forall l, r <> at_top (b ++ l).
