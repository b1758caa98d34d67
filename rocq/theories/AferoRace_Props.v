(* C77: several goroutines on one aferofs/synth file system. *)
From Verif Require Import Common AferoRace_Model AferoRace_Spec AferoRace_Proofs AferoRaceOwn_Proofs AferoRaceApart_Proofs AferoRaceWrong_Proofs.
Open Scope nat_scope.

(* Whatever the others do between its steps, a goroutine's calls are over after so many steps
   of its own, each with one result. *)
Theorem C77_calls_return : forall h scripts sched i cs,
  nth_error scripts i = Some cs -> costs cs <= turns i sched ->
  exists rs, returned (run (machine_of h scripts) sched) i rs /\ length rs = length cs.
Proof. exact calls_return. Qed.
Print Assumptions C77_calls_return.

(* Two goroutines that take turns strictly. *)
Example C77_calls_return_example :
  let m := run (machine_of fresh [[MkdirAll [1; 2]; Open ([1], 3) true false true]; [Mkdir ([], 4); Rename ([], 4) ([1; 2], 4)]])
               (flat_map (fun _ => [0; 1]) (repeat tt 30)) in
  returned m 0 [Done; Got (1, 2)] /\ returned m 1 [Done; Done].
Proof. split; ran. Qed.

(* Whatever the others do, each call answers with what belongs to it: an error only of its own
   kinds, and Rename of a name to itself or below itself the same answer always. *)
Theorem C77_answers : forall h scripts sched i cs rs,
  nth_error scripts i = Some cs -> returned (run (machine_of h scripts) sched) i rs -> Forall2 answers cs rs.
Proof. exact each_answers. Qed.
Print Assumptions C77_answers.

Example C77_answers_example :
  let m := run (machine_of fresh [[MkdirAll [1; 2]; Rename ([], 1) ([1; 2], 3); Rename ([], 1) ([], 1)]; [Open ([], 1) true true true]])
               (flat_map (fun _ => [0; 0; 0; 1]) (repeat tt 20)) in
  returned m 0 [Done; Fail EInval; Done] /\ returned m 1 [Fail EExist] /\ above ([], 1) ([1; 2], 3).
Proof. split; [ran|]. split; [ran|]. exists 2, [3]. reflexivity. Qed.

(* In every interleaving every directory has each name once, for an object of that name. *)
Theorem C77_directories_consistent : forall h scripts sched,
  tidy h -> nobodys h -> tidy (m_heap (run (machine_of h scripts) sched)).
Proof. exact stays_tidy. Qed.
Print Assumptions C77_directories_consistent.

Example C77_directories_consistent_example : tidy fresh /\ nobodys fresh.
Proof. exact fresh_ok. Qed.

(* Goroutines that work below a directory of their own do not notice each other: in every
   interleaving each gets the results, and leaves the objects, it would alone. *)
Theorem C77_apart : forall h mine top home scripts sched i,
  tidy h -> apart (length scripts) h mine top home -> i < length scripts ->
  (forall j cs, nth_error scripts j = Some cs -> Forall (works_below (top j)) cs) ->
  let m := run (machine_of h scripts) sched in
  let alone := run (machine_of h scripts) (filter (Nat.eqb i) sched) in
  (forall rs, returned m i rs <-> returned alone i rs) /\ forall u, mine i u -> m_heap m u = m_heap alone u.
Proof. exact goroutines_apart. Qed.
Print Assumptions C77_apart.

(* Directories 7 and 8 in the root, one for each of two goroutines. *)
Example C77_apart_example :
  let scripts := [[MkdirAll [7; 1]; Open ([7], 2) true true true; Rename ([7], 2) ([7; 1], 2); Remove ([7; 1], 2)];
                  [Open ([8], 2) true true true]] in
  tidy two_homes /\ apart (length scripts) two_homes two_mine two_top two_home /\
  forall j cs, nth_error scripts j = Some cs -> Forall (works_below (two_top j)) cs.
Proof. exact two_homes_ok. Qed.

(* Goroutines that only make and find, each making names of its own: what a call made or found
   is where it said, in every interleaving and for good. *)
Theorem C77_kept_partial : forall h scripts sched i cs rs,
  nobodys h -> a_dir h root -> own_names scripts -> Forall (Forall only_makes) scripts -> nth_error scripts i = Some cs ->
  let m := run (machine_of h scripts) sched in
  returned m i rs -> Forall2 (holds i (m_heap m)) cs rs.
Proof. exact own_names_keep. Qed.
Print Assumptions C77_kept_partial.

Example C77_kept_example :
  let scripts := [[MkdirAll [1; 2]; Open ([1], 3) true true true]; [Open ([], 4) true true true; Stat ([1; 2], 3); Stat ([], 1)]] in
  nobodys fresh /\ a_dir fresh root /\ own_names scripts /\ Forall (Forall only_makes) scripts /\
  exists sched, returned (run (machine_of fresh scripts) sched) 0 [Done; Got (1, 2)] /\
                returned (run (machine_of fresh scripts) sched) 1 [Got (2, 0); Fail ENoEnt; Got (1, 0)].
Proof. exact kept_example. Qed.

(* Finding: two goroutines can both create one name exclusively; the file of the first has no
   name any more. *)
Theorem C77_exclusive_refuted : ~ exclusive.
Proof. exact exclusive_wrong. Qed.
Print Assumptions C77_exclusive_refuted.

(* Finding: of two goroutines that make the same directory, one replaces the other's with all
   that was made in it meanwhile, though nobody removes anything. *)
Theorem C77_kept_refuted : ~ keeps.
Proof. exact keeps_wrong. Qed.
Print Assumptions C77_kept_refuted.

(* Finding: Remove can take away a directory with a file just created in it. *)
Theorem C77_remove_refuted : ~ removes_empty.
Proof. exact removes_wrong. Qed.
Print Assumptions C77_remove_refuted.

(* Finding: during a Rename there is a moment when neither name is there. *)
Theorem C77_rename_atomic_refuted : ~ renames_at_once.
Proof. exact renames_wrong. Qed.
Print Assumptions C77_rename_atomic_refuted.

(* Finding: two Renames of one file both succeed and leave it in two directories. *)
Theorem C77_one_place_refuted : ~ stays_in_one_place.
Proof. exact one_place_wrong. Qed.
Print Assumptions C77_one_place_refuted.

(* Finding: two Renames of two directories into each other both succeed; then neither can be
   reached from the root. *)
Theorem C77_rename_cycle_refuted : ~ renames_lose_nothing.
Proof. exact cycle_wrong. Qed.
Print Assumptions C77_rename_cycle_refuted.
