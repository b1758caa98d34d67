(* C85: what sftpfs's errors say, and its directory handles under several goroutines. *)
From Verif Require Import Common ContentRange_Model SftpErr_Model SftpErr_Spec SftpErr_Proofs.
Open Scope nat_scope.

(* mapSftpErr keeps everything an error matches and adds ErrExist exactly to a failure whose text
   says that the file exists; nil stays nil and nothing else becomes nil. *)
Theorem C85_mapping : forall e,
  (map_err e = None <-> e = None) /\
  forall t, result_is (map_err e) t <->
    result_is e t \/ (t = s_exist /\ exists e0 m, e = Some e0 /\ first_status e0 fx_failure m /\ says_exists m).
Proof. exact (fun e => conj (map_nil e) (map_exact e)). Qed.
Print Assumptions C85_mapping.

(* An error is taken for a missing file exactly when it matches ErrNotExist or its first status is
   no-such-file. *)
Theorem C85_missing : forall e, is_not_exist e = true <->
  result_is e s_not_exist \/ exists e0 m, e = Some e0 /\ first_status e0 fx_no_such_file m.
Proof. exact not_exist_exact. Qed.
Print Assumptions C85_missing.

(* Sync reports nothing exactly when it worked or the server has no such operation. *)
Theorem C85_sync : forall e,
  (sync_err e = None <-> e = None \/ exists e0 m, e = Some e0 /\ first_status e0 fx_unsupported m) /\
  (sync_err e <> None -> sync_err e = e).
Proof. exact sync_exact. Qed.
Print Assumptions C85_sync.

(* Over the stock server Mkdir, OpenFile and Symlink fail with ErrExist exactly when something was
   in the way, ErrNotExist exactly when something was missing, ErrPermission exactly when that was -
   for a path that does not itself say that a file exists. *)
Theorem C85_stock_errors_partial : forall q op abs n c r, q abs = 47%N :: r -> ~ says_exists op -> ~ says_exists (q abs) ->
  (forall text, n = Other text -> ~ says_exists text) -> In c [EMkdir; EOpenFile; ESymlink] ->
  (result_is (returned c (Some (stock q op abs n))) s_exist <-> n = Exist) /\
  (result_is (returned c (Some (stock q op abs n))) s_not_exist <-> n = NoEnt) /\
  (result_is (returned c (Some (stock q op abs n))) s_permission <-> n = NoPerm).
Proof. exact stock_exists. Qed.
Print Assumptions C85_stock_errors_partial.

(* "mkdir", "/b/x", "/b/file exists/x", "not a directory" *)
Definition ex_op : list byte := [109; 107; 100; 105; 114]%N.
Definition ex_abs : list byte := [47; 98; 47; 120]%N.
Definition ex_bad : list byte := [47; 98; 47; 102; 105; 108; 101; 32; 101; 120; 105; 115; 116; 115; 47; 120]%N.
Definition ex_text : list byte := [110; 111; 116; 32; 97; 32; 100; 105; 114; 101; 99; 116; 111; 114; 121]%N.
Example C85_errors_met : ~ says_exists ex_op /\ ~ says_exists ex_abs /\ ~ says_exists ex_text /\
  result_is (returned EMkdir (Some (stock (fun p => p) ex_op ex_abs Exist))) s_exist /\
  ~ result_is (returned EMkdir (Some (stock (fun p => p) ex_op ex_abs (Other ex_text)))) s_exist /\
  is_not_exist (Some (GWrap (GStatus fx_no_such_file []))) = true /\
  sync_err (Some (GWrap (GStatus fx_unsupported []))) = None.
Proof.
  assert (~ says_exists ex_op) as A by (apply says_not; reflexivity).
  assert (~ says_exists ex_abs) as B by (apply says_not; reflexivity).
  assert (~ says_exists ex_text) as C by (apply says_not; reflexivity).
  split; [exact A|]. split; [exact B|]. split; [exact C|].
  split; [exact (proj2 (proj1 (stock_exists (fun p => p) ex_op ex_abs Exist EMkdir _ eq_refl A B ltac:(discriminate) (or_introl eq_refl))) eq_refl)|].
  split; [|split; reflexivity]. intros K.
  apply (stock_exists (fun p => p) ex_op ex_abs (Other ex_text) EMkdir _ eq_refl A B) in K; [discriminate| |left; reflexivity].
  intros text E. injection E as <-. exact C.
Qed.

(* FINDING: the path is part of the text looked at, so Mkdir("file exists/x") below a regular file
   fails as if x existed. *)
Theorem C85_stock_errors_refuted : ~ (forall q op abs n c r, q abs = 47%N :: r -> ~ says_exists op ->
  (forall text, n = Other text -> ~ says_exists text) -> In c [EMkdir; EOpenFile; ESymlink] ->
  result_is (returned c (Some (stock q op abs n))) s_exist -> n = Exist).
Proof.
  intros H. destruct C85_errors_met as (A & _ & C & _).
  enough (Other ex_text = Exist) as K by discriminate K.
  apply (H (fun p => p) ex_op ex_bad (Other ex_text) EMkdir _ eq_refl A); [intros text E; injection E as <-; exact C|left; reflexivity|].
  eexists. split; [vm_compute; reflexivity|]. apply m_right. constructor.
Qed.
Print Assumptions C85_stock_errors_refuted.

(* FINDING: Link (and Rename, and MkdirAll) return the client's error as it is; onto an existing
   name it matches nothing. *)
Theorem C85_link_onto_existing_refuted : ~ (forall c op abs, result_is (returned c (Some (stock (fun p => p) op abs Exist))) s_exist).
Proof.
  intros H. destruct (H ELink ex_op ex_abs) as (e & E & M). injection E as <-. inversion M.
Qed.
Print Assumptions C85_link_onto_existing_refuted.

(* Any number of goroutines calling Readdir on one handle, in any interleaving: the server is asked
   once, the answers in the order they come partition the listing from the front, each is what the
   call asked for out of what was left, and every call of a goroutine is answered in its turn. *)
Theorem C85_listing : forall A (srv : nat -> list A * option nat) calls sched l, srv 0 = (l, None) ->
  let m := drun srv (dstart calls) sched in
  d_asked (m_dir m) <= 1 /\ (exists rest, l = all_handed (m_log m) ++ rest) /\
  (forall pre i n r post, m_log m = pre ++ (i, n, r) :: post -> right_answer (skipn (length (all_handed pre)) l) n r) /\
  (forall i ns, nth_error calls i = Some ns -> exists g, nth_error (m_gors m) i = Some g /\ ns = ns_of i (m_log m) ++ g_todo g).
Proof. exact @listing_served. Qed.
Print Assumptions C85_listing.

(* If the one listing fails, every call fails with that error. *)
Theorem C85_listing_failed : forall A (srv : nat -> list A * option nat) calls sched l e, srv 0 = (l, Some e) ->
  let m := drun srv (dstart calls) sched in d_asked (m_dir m) <= 1 /\ forall x, In x (m_log m) -> snd x = DErr e.
Proof. exact @listing_failed. Qed.
Print Assumptions C85_listing_failed.

Example C85_listing_met :
  m_log (drun (fun _ => ([1; 2; 3; 4], None)) (dstart [[2%Z; 5%Z]; [1%Z; 3%Z]]) [0; 1; 1; 0; 0; 1; 0; 1]) =
    [(1, 1%Z, DOk [1]); (0, 2%Z, DOk [2; 3]); (0, 5%Z, DOk [4]); (1, 3%Z, DEof)].
Proof. reflexivity. Qed.
