(* Property theorems for C99: the test context of testhelper. *)
From Coq Require Import String.
From Verif Require Import Common TestCtx_Model TestCtx_Spec TestCtx_Proofs.
Open Scope nat_scope.
Open Scope list_scope.

(* A test of any calls, each wanting success or an error, over any file system. The calls
   reach it in order and once each, with nothing else but the Close of a handle that came
   where an error was wanted; its answers come back unchanged. Each call that went wrong is
   reported with one message, which names it, says what was wrong and ends with all calls so
   far in order; no other message is given. With testing.T the first such call ends the test. *)
Theorem C99_whole_test :
  forall stops sh fs l w rs, (forall a, one_line (sh a)) -> run stops sh fs l new_ctx = (w, rs) ->
  exists ms, map fst ms = firstn (length ms) l /\ answered fs [] ms /\ c_evs w = concat (map block ms) /\
    all_reported sh [] ms (c_fatal w) /\ c_stopped w = stops && existsb unexpected ms /\
    (c_stopped w = false -> length ms = length l /\ rs = map snd ms) /\
    (c_stopped w = true -> exists good bad, ms = good ++ [bad] /\ unexpected bad = true /\ existsb unexpected good = false /\ rs = map snd good).
Proof. exact new_run_spec. Qed.
Print Assumptions C99_whole_test.

(* A test that reports nothing has made all its calls and each ended as wanted; one that
   reports, with testing.T, reports once and does not go on. *)
Theorem C99_verdict :
  forall stops sh fs l w rs, (forall a, one_line (sh a)) -> run stops sh fs l new_ctx = (w, rs) ->
  (c_fatal w = [] -> length rs = length l /\ (forall i e c r, nth_error l i = Some (e, c) -> nth_error rs i = Some r -> unexpected (e, c, r) = false)) /\
  (stops = true -> length (c_fatal w) <= 1) /\
  (c_fatal w <> [] -> stops = true -> length rs < length l).
Proof. exact new_run_verdict. Qed.
Print Assumptions C99_verdict.

(* Different calls never look alike in the history. *)
Theorem C99_history_tells_calls_apart :
  forall sh c d, readable sh -> show sh c = show sh d -> c = d.
Proof. exact show_inj. Qed.
Print Assumptions C99_history_tells_calls_apart.

(* Finding: ReportFailf before any call, with a T whose Fatalf returns, reports twice, the
   second time with the heading of a history that is empty. *)
Theorem C99_reported_once_refuted :
  forall msg, c_fatal (report_failf false new_ctx msg) = [msg; msg ++ 10%N :: lit "operation history:"].
Proof. exact report_twice. Qed.
Print Assumptions C99_reported_once_refuted.

(* Printing as assumed, also for a name with a quote and a line end in it. *)
Example C99_printing_met : readable sh_sample /\ (forall a, one_line (sh_sample a)).
Proof. split; [exact sample_readable|exact sample_one_line]. Qed.

(* A test that expects an error from Create and gets a handle, with and without stopping. *)
Example C99_met :
  let fs := fun seen c => match c with Mkdir _ _ => Ok 0 | Create _ => Ok (length seen) | _ => Err (lit "boom") end in
  let l := [(false, Mkdir (lit "d") 3%N); (true, Create (lit "d/f")); (true, Remove (lit "x")); (false, Open (lit "y"))] in
  let w := fst (run false sh_sample fs l new_ctx) in
  let w' := fst (run true sh_sample fs l new_ctx) in
  length (c_fatal w) = 2 /\
  c_evs w = [EvCall (Mkdir (lit "d") 3%N) (Ok 0); EvCall (Create (lit "d/f")) (Ok 1); EvClose 1;
             EvCall (Remove (lit "x")) (Err (lit "boom")); EvCall (Open (lit "y")) (Err (lit "boom"))] /\
  map lines (c_fatal w') = [[lit "Create(""d/f"") succeeded, want error"; lit "operation history:"; lit "  - Mkdir(""d"", xxx)"; lit "  - Create(""d/f"")"]] /\
  c_evs w' = [EvCall (Mkdir (lit "d") 3%N) (Ok 0); EvCall (Create (lit "d/f")) (Ok 1); EvClose 1] /\
  snd (run true sh_sample fs l new_ctx) = [Ok 0].
Proof. vm_compute. repeat split. Qed.

(* The texts of all calls. *)
Example C99_texts :
  let n := lit "a" in let m := lit "b" in
  map (show sh_sample) [Chmod n 2; Chown n 1 2; Chtimes n 1 2; Create n; Lchown n 1 2; Link n m; Lstat n; Mkdir n 2; MkdirAll n 2;
                        Open n; OpenFile n 1 2; ReadLink n; Remove n; RemoveAll n; Rename n m; Stat n; Symlink n m] =
  map lit ["Chmod(""a"", xx)"; "Chown(""a"", 1, 11)"; "Chtimes(""a"", 1, 11)"; "Create(""a"")"; "Lchown(""a"", 1, 11)"; "Link(""a"", ""b"")"; "Lstat(""a"")";
           "Mkdir(""a"", xx)"; "MkdirAll(""a"", xx)"; "Open(""a"")"; "OpenFile(""a"", 1, xx)"; "ReadLink(""a"")"; "Remove(""a"")"; "RemoveAll(""a"")";
           "Rename(""a"", ""b"")"; "Stat(""a"")"; "Symlink(""a"", ""b"")"]%string.
Proof. vm_compute. reflexivity. Qed.
