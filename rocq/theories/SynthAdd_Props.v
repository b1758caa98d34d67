(* C42: what AddFS and AddFile do with what is already there. *)
From Verif Require Import Common ContentRange_Model PathLex_Model PathLex_Proofs Synth_Model Synth_Spec Synth_Proofs SynthTree_Proofs SynthPath_Proofs SynthEffect_Proofs SynthView_Proofs SynthAdd_Proofs.
Open Scope nat_scope.

(* Making the missing parents: everything listed before stays listed, except dangling links
   whose name is one of the parents'; and if no such link was in the way, the source's place is
   the entry the name resolves to. *)
Theorem C42_parents busy mode os st i b name sc h1 r1 : sane busy (new_state mode) os -> run busy (new_state mode) os = Some st -> nth_error (st_roots st) i = Some b ->
  mount (st_heap st) b name sc = (h1, r1) ->
  same_seen (st_heap st) h1 /\
  (forall e c n, lookup (st_heap st) e c = Some n -> lookup h1 e c = Some n \/ (is_link (st_heap st) n /\ exists comps, normalize name = Ok comps /\ In c (removelast comps))) /\
  (forall d pre, r1 = Ok (d, pre) -> is_dir_at h1 d /\ match pre with [] => d = b /\ normalize name = Ok [] | [base] => same_entries (st_heap st) h1 -> resolve_parent h1 b name = Ok (d, base) | _ => False end).
Proof. exact (run_mount busy mode os st i b name sc h1 r1). Qed.
Print Assumptions C42_parents.

(* Whatever the AddFunc answers: AddFS changes nothing outside the place of its source, and
   what exists looks as before wherever it is still listed. *)
Theorem C42_touches_only_below busy mode os st i b name s sc cb h' r h1 r1 : sane busy (new_state mode) os -> run busy (new_state mode) os = Some st -> nth_error (st_roots st) i = Some b ->
  add_fs (st_heap st) b name s sc cb = Some (h', r) -> mount (st_heap st) b name sc = (h1, r1) ->
  same_seen (st_heap st) h' /\ (forall e c, nodes h1 e <> None -> (forall d pre, r1 = Ok (d, pre) -> ~ below h1 d pre e c) -> lookup h' e c = lookup h1 e c).
Proof. exact (run_add_within busy mode os st i b name s sc cb h' r h1 r1). Qed.
Print Assumptions C42_touches_only_below.

(* AddFuncs that never answer Override about something existing, such as MergeKeep and
   FailOnConflict: AddFS, successful or not, loses nothing but the dangling links above and
   leaves that are where the source has a directory and for which the answer is Keep. *)
Theorem C42_keeps_existing_partial busy mode os st i b name s sc cb h' r h1 r1 : sane busy (new_state mode) os -> run busy (new_state mode) os = Some st -> nth_error (st_roots st) i = Some b ->
  source_ok s -> add_fs (st_heap st) b name s sc cb = Some (h', r) -> gentle cb -> mount (st_heap st) b name sc = (h1, r1) ->
  forall e c n, lookup h1 e c = Some n -> lookup h' e c = Some n \/ exists d pre comps, r1 = Ok (d, pre) /\ normalize name = Ok comps /\ lost_to cb comps s h1 d pre e c n.
Proof. intros Hs Hr Hi Hso Hadd. exact (whole_gentle busy mode os st i b name s sc cb h' r Hs Hr Hi Hso Hadd h1 r1). Qed.
Print Assumptions C42_keeps_existing_partial.
Theorem C42_merge_keep_is_gentle : gentle merge_keep.
Proof. exact keep_gentle. Qed.
Print Assumptions C42_merge_keep_is_gentle.

(* FailOnConflict: nothing existing is lost, whether the call succeeds or not, and it succeeds
   only if nothing but directories was in the way of directories. *)
Theorem C42_fail_on_conflict busy mode os st i b name s sc h' r h1 r1 : sane busy (new_state mode) os -> run busy (new_state mode) os = Some st -> nth_error (st_roots st) i = Some b ->
  source_ok s -> add_fs (st_heap st) b name s sc fail_on_conflict = Some (h', r) -> mount (st_heap st) b name sc = (h1, r1) ->
  same_entries h1 h' /\ (r = Ok tt -> exists d pre, r1 = Ok (d, pre) /\ forall q k n, source_at s q = Some k -> at_path h1 d (pre ++ q) = Some n -> source_dir k = true /\ is_dir_at h1 n).
Proof. exact (run_add_fail busy mode os st i b name s sc h' r h1 r1). Qed.
Print Assumptions C42_fail_on_conflict.

(* An AddFunc that lets everything in, such as MergeOverwrite: after success every path of the
   source leads to what the source has there. *)
Theorem C42_in_place busy mode os st i b name s sc cb h' : sane busy (new_state mode) os -> run busy (new_state mode) os = Some st -> nth_error (st_roots st) i = Some b ->
  source_ok s -> placing cb -> add_fs (st_heap st) b name s sc cb = Some (h', Ok tt) ->
  exists h1 d pre, mount (st_heap st) b name sc = (h1, Ok (d, pre)) /\ forall q k, source_at s q = Some k -> exists n, at_path h' d (pre ++ q) = Some n /\ shows h' n k.
Proof. exact (run_add_places busy mode os st i b name s sc cb h'). Qed.
Print Assumptions C42_in_place.
Theorem C42_merge_overwrite_places : placing merge_overwrite /\ placing fail_on_conflict.
Proof. exact overwrite_placing. Qed.
Print Assumptions C42_merge_overwrite_places.
(* One that never skips (MergeKeep): after success something is at every path of the source. *)
Theorem C42_something_in_place busy mode os st i b name s sc cb h' : sane busy (new_state mode) os -> run busy (new_state mode) os = Some st -> nth_error (st_roots st) i = Some b ->
  source_ok s -> (forall p inc ex, cb p inc ex <> Some Skip) -> add_fs (st_heap st) b name s sc cb = Some (h', Ok tt) ->
  exists h1 d pre, mount (st_heap st) b name sc = (h1, Ok (d, pre)) /\ forall q, source_at s q <> None -> at_path h' d (pre ++ q) <> None.
Proof. exact (run_add_something busy mode os st i b name s sc cb h'). Qed.
Print Assumptions C42_something_in_place.

(* AddFile: with Override the new file is the entry and no other entry changes; any other
   answer and any error leaves everything as the making of the parents left it. *)
Theorem C42_add_file busy mode os st i b name t fm sc stats cb h' r : sane busy (new_state mode) os -> run busy (new_state mode) os = Some st -> nth_error (st_roots st) i = Some b ->
  add_file (st_heap st) b name t fm sc stats cb = (h', r) ->
  match r with
  | Err _ => h' = st_heap st \/ h' = fst (ensure_parents (st_heap st) b name sc)
  | Ok _ => exists h1 d base comps, ensure_parents (st_heap st) b name sc = (h1, Ok (d, base)) /\ normalize name = Ok comps /\
      match cb comps false (option_map (existing_dir h1) (lookup h1 d base)) with
      | Some Override => (exists n, nodes h1 n = None /\ lookup h' d base = Some n /\ shows h' n (SFile fm t true)) /\ (forall e c, e <> d \/ c <> base -> lookup h' e c = lookup h1 e c) /\ same_seen h1 h'
      | Some _ => h' = h1
      | None => False
      end
  end.
Proof. exact (whole_file busy mode os st i b name t fm sc stats cb h' r). Qed.
Print Assumptions C42_add_file.

Definition na : list byte := [97%N].
Definition nb : list byte := [98%N].
Definition nf : list byte := [102%N].
Definition nx : list byte := [120%N].
Definition create (t : N) : oreq := {| o_create := true; o_excl := false; o_write := true; o_mode := 420; o_tag := t; o_opens := true; o_allocs := true |}.
Definition state_after (os : list sop) : sstate := match run false (new_state 493) os with Some st => st | None => new_state 493 end.
Definition added (os : list sop) (name : list byte) (s : source) (cb : addfunc) : heap := match add_fs (st_heap (state_after os)) 0 name s 493 cb with Some (h, _) => h | None => st_heap (state_after os) end.

(* /a/f (tag 7) and /a/b exist; a source with f, b/x and x is merged into /a in three ways. *)
Definition ex_ops : list sop := [OMkdirAll 0 (join_sep [na; nb]) 493; OOpen 0 (join_sep [na; nf]) (create 7)].
Definition ex_source : source := SDir 448 [(nf, SFile 384 8 true); (nb, SDir 448 [(nx, SFile 384 9 true)] true); (nx, SLink 511 nf true)] true.
Definition tag_at (h : heap) (l : list (list byte)) : option N :=
  match seen_at h 0 l with Some (LookFile _ v) => Some (tag h v) | _ => None end.
Example C42_ex : sane false (new_state 493) ex_ops /\ source_ok ex_source /\ run false (new_state 493) ex_ops = Some (state_after ex_ops) /\
  map (tag_at (added ex_ops na ex_source merge_overwrite)) [[na; nf]; [na; nb; nx]] = [Some 8%N; Some 9%N] /\ seen_at (added ex_ops na ex_source merge_overwrite) 0 [na; nx] = Some (LookLink 511 nf) /\
  map (tag_at (added ex_ops na ex_source merge_keep)) [[na; nf]; [na; nb; nx]] = [Some 7%N; Some 9%N] /\
  map (tag_at (added ex_ops na ex_source fail_on_conflict)) [[na; nf]; [na; nb; nx]] = [Some 7%N; None] /\
  option_map snd (add_fs (st_heap (state_after ex_ops)) 0 na ex_source 493 fail_on_conflict) = Some (Err EOther).
Proof.
  split; [|split].
  - rewrite <- (app_nil_r ex_ops). eapply sane_prefix; [reflexivity|vm_compute; reflexivity|exact I].
  - assert (forall c, c <> [] -> c <> [dot] -> c <> [dot; dot] -> ~ In sep c -> proper c) as Hpr by (intros; repeat split; assumption).
    assert (proper nf) as P1 by (apply Hpr; [discriminate ..|intros [E|[]]; discriminate]). assert (proper nb) as P2 by (apply Hpr; [discriminate ..|intros [E|[]]; discriminate]). assert (proper nx) as P3 by (apply Hpr; [discriminate ..|intros [E|[]]; discriminate]).
    assert (~ In nf [nb; nx]) as Q1 by (intros [E|[E|[]]]; discriminate). assert (~ In nb [nx]) as Q2 by (intros [E|[]]; discriminate).
    constructor; [cbn; constructor; [exact Q1|constructor; [exact Q2|constructor; [easy|constructor]]]|].
    constructor; [split; [exact P1|constructor]|]. constructor; [split; [exact P2|]|constructor; [split; [exact P3|constructor]|constructor]].
    constructor; [cbn; constructor; [easy|constructor]|constructor; [split; [exact P3|constructor]|constructor]].
  - vm_compute. repeat split; reflexivity.
Qed.

(* MergeKeep, a directory coming in where a file is: the file is gone. *)
Theorem C42_merge_keep_removes_refuted : exists os st h' s, run false (new_state 493) os = Some st /\ add_fs (st_heap st) 0 nf s 493 merge_keep = Some (h', Ok tt) /\
  seen_at (st_heap st) 0 [nf] = Some (LookFile 420 0) /\ seen_at h' 0 [nf] = Some (LookDir 448).
Proof. exact keep_removes. Qed.
Print Assumptions C42_merge_keep_removes_refuted.
(* The answer Keep where nothing exists: documented as not adding, but AddFS adds. *)
Theorem C42_keep_adds_refuted : exists st h', run false (new_state 493) [] = Some st /\ add_fs (st_heap st) 0 nf (SFile 384 8 true) 493 (fun _ _ _ => Some Keep) = Some (h', Ok tt) /\
  seen_at (st_heap st) 0 [nf] = None /\ seen_at h' 0 [nf] = Some (LookFile 384 0).
Proof. exact keep_adds. Qed.
Print Assumptions C42_keep_adds_refuted.
(* A dangling link named as a parent is replaced by a directory, even with MergeKeep. *)
Theorem C42_dangling_parent_refuted : exists os st h', run false (new_state 493) os = Some st /\ add_fs (st_heap st) 0 (join_sep [na; nf]) (SFile 384 8 true) 493 merge_keep = Some (h', Ok tt) /\
  seen_at (st_heap st) 0 [na] = Some (LookLink 511 nx) /\ seen_at h' 0 [na] = Some (LookDir 493).
Proof. exact dangling_replaced. Qed.
Print Assumptions C42_dangling_parent_refuted.
