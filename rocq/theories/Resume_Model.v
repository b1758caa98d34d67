(* Model of fsutil/resumable.go (Pull, Push) and fsutil/resumable_fs.go (FsSink): a final
   file, a part file and an ETag sidecar, with every file-system call able to fail or to be
   the last one before a crash. *)
From Verif Require Import Common ContentRange_Model.
Open Scope Z_scope.

(* name, name + suffix, name + suffix + ".etag". *)
Record files := Files {
  f_final : option (list byte);
  f_part : option (list byte);
  f_side : option (list byte)
}.

(* The calls that reach the file system (or ctx.Err). *)
Inductive opk :=
| OStatFinal | OStatPart | OReadSide | ORmPart | ORmSide | OOpenPart | OSideOpen | OSideWrite
| OSideClose | OSeek | OCtx | OWrite | OHookSeek | OClose | ORename | OTruncate | OOpenLocal | OStatLocal.

(* What happens at a call. EvErr k: the call fails; a write has written its first k bytes,
   other calls have done nothing. EvCrash k: the process dies; a write has written k bytes,
   another call has taken effect iff k is not 0. *)
Inductive ev := EvOk | EvErr (k : nat) | EvCrash (k : nat).

(* The environment: what happens at the n-th call, given its kind. *)
Definition env := opk -> nat -> ev.

Inductive run (A : Type) := Done (a : A) (n : nat) (s : files) | Crashed (s : files).
Arguments Done {A}. Arguments Crashed {A}.

Definition M (A : Type) := env -> nat -> files -> run A.

Definition ret {A} (a : A) : M A := fun _ n s => Done a n s.

Definition bind {A B} (m : M A) (f : A -> M B) : M B := fun e n s =>
  match m e n s with Done a n' s' => f a e n' s' | Crashed s' => Crashed s' end.

Notation "x <- a ;; b" := (bind a (fun x => b)) (at level 61, a at next level, right associativity).

(* A call with an all-or-nothing effect; the result says whether it succeeded. *)
Definition atomic (k : opk) (eff : files -> files) : M bool := fun e n s =>
  match e k n with
  | EvOk => Done true (S n) (eff s)
  | EvErr _ => Done false (S n) s
  | EvCrash O => Crashed s
  | EvCrash (S _) => Crashed (eff s)
  end.

(* A call without effect on the files. *)
Definition query (k : opk) : M bool := atomic k (fun s => s).

(* Bytes of a file after writing [d] at [pos] (a hole would read as zeros). *)
Definition write_at (f : list byte) (pos : nat) (d : list byte) : list byte :=
  firstn pos (f ++ repeat 0%N (pos - length f)) ++ d ++ skipn (pos + length d) f.

Definition set_final s x := Files x (f_part s) (f_side s).
Definition set_part s x := Files (f_final s) x (f_side s).
Definition set_side s x := Files (f_final s) (f_part s) x.

Definition oget (o : option (list byte)) : list byte := match o with Some b => b | None => [] end.

(* Write of [d] at [pos] through an open handle of the part file. *)
Definition write_part (pos : nat) (d : list byte) : M bool := fun e n s =>
  let eff k := set_part s (Some (write_at (oget (f_part s)) pos (firstn k d))) in
  match e OWrite n with
  | EvOk => Done true (S n) (eff (length d))
  | EvErr k => Done false (S n) (eff k)
  | EvCrash k => Crashed (eff k)
  end.

Inductive statr := StatErr | StatNone | StatSize (sz : Z).

Definition stat_of (k : opk) (sel : files -> option (list byte)) : M statr := fun e n s =>
  match e k n with
  | EvOk => Done (match sel s with None => StatNone | Some b => StatSize (zlen b) end) (S n) s
  | EvErr _ => Done StatErr (S n) s
  | EvCrash _ => Crashed s
  end.

(* readSidecar (resumable.go:184-201, resumable_fs.go:142-156): absent reads as "". *)
Definition read_sidecar : M (option (list byte)) := fun e n s =>
  match e OReadSide n with
  | EvOk => Done (Some (match f_side s with None => [] | Some b => trim_space b end)) (S n) s
  | EvErr _ => Done None (S n) s
  | EvCrash _ => Crashed s
  end.

(* writeSidecar (resumable.go:204-218, resumable_fs.go:160-172): truncate, write, close. *)
Definition side_write_op (etag : list byte) : M bool := fun e n s =>
  let eff k := set_side s (Some (firstn k etag)) in
  match e OSideWrite n with
  | EvOk => Done true (S n) (eff (length etag))
  | EvErr k => Done false (S n) (eff k)
  | EvCrash k => Crashed (eff k)
  end.

Definition write_sidecar (etag : list byte) : M bool :=
  o <- atomic OSideOpen (fun s => set_side s (Some [])) ;;
  if negb o then ret false
  else
    w <- side_write_op etag ;;
    c <- query OSideClose ;;
    ret (w && c).

(* removePartFiles (resumable.go:167-180); a missing file is fine. *)
Definition remove_part_files : M bool :=
  a <- atomic ORmPart (fun s => set_part s None) ;;
  if negb a then ret false else atomic ORmSide (fun s => set_side s None).

(* What a source's Open answers: identity, size (negative: unknown), the pieces its reader
   delivers, and whether it then ends in io.EOF or in an error. *)
Record answer := Answer {
  a_etag : list byte;
  a_size : Z;
  a_chunks : list (list byte);
  a_eof : bool
}.

(* The source during one Pull: the i-th Open (0 or 1) at an offset; None is an error. *)
Definition psource := nat -> Z -> option answer.

Inductive perr :=
| EStat | ESizeMismatch | EReadSide | ERemovePart | EOpenSource | EContentChanged | EOpenPart
| EWriteSide | ESeek | EShort | ECopy | EHook | EClosePart | ERename.

Inductive pres := PExisting | PCommitted | PErr (e : perr).

(* ctxCopy (:222-246). Returns (err == nil, written). *)
Fixpoint ctx_copy (chunks : list (list byte)) (eof : bool) (pos : nat) (written : Z) : M (bool * Z) :=
  c <- query OCtx ;;
  if negb c then ret (false, written)
  else
    match chunks with
    | [] => ret (eof, written)
    | d :: rest =>
        match d with
        | [] => ctx_copy rest eof pos written
        | _ =>
            w <- write_part pos d ;;
            if w then ctx_copy rest eof (pos + length d) (written + zlen d)
            else ret (false, written)
        end
    end.

(* Step 7 (:423-434). A hook is a verdict on the part file's bytes. *)
Fixpoint run_hooks (hooks : list (list byte -> bool)) : M bool :=
  match hooks with
  | [] => ret true
  | h :: rest =>
      k <- query OHookSeek ;;
      v <- (fun e n s => Done (k && h (oget (f_part s))) n s) ;;
      if v then run_hooks rest
      else
        _ <- query OClose ;;
        _ <- remove_part_files ;;
        ret false
  end.

(* Rename of the part file onto the final name; fails when there is no part file. *)
Definition rename_part : M bool := fun e n s =>
  match f_part s with
  | None => Done false (S n) s
  | Some b => atomic ORename (fun s => Files (Some b) None (f_side s)) e n s
  end.

(* Pull from "Resolve effective size" on (:359-446). *)
Definition pull_copy (hooks : list (list byte -> bool)) (a : answer) (startAt : Z)
    (stored exp_etag : list byte) (exp_size : Z) : M pres :=
  let mismatch := (0 <=? a_size a) && (0 <=? exp_size) && negb (a_size a =? exp_size) in
  let effSize := if 0 <=? a_size a then a_size a else if 0 <=? exp_size then exp_size else -1 in
  let effETag := match a_etag a with [] => exp_etag | _ => a_etag a end in
  if mismatch then ret (PErr ESizeMismatch)
  else
    o <- atomic OOpenPart
           (fun s => set_part s (if startAt =? 0 then Some []
                                 else Some (oget (f_part s)))) ;;
    if negb o then ret (PErr EOpenPart)
    else
      sw <- (if negb (bytes_eqb effETag []) && negb (bytes_eqb effETag stored)
             then write_sidecar effETag else ret true) ;;
      if negb sw then (_ <- query OClose ;; ret (PErr EWriteSide))
      else
        sk <- (if 0 <? startAt then query OSeek else ret true) ;;
        if negb sk then (_ <- query OClose ;; ret (PErr ESeek))
        else
          r <- ctx_copy (a_chunks a) (a_eof a) (Z.to_nat startAt) 0 ;;
          let (ok, written) := r : bool * Z in
          if ok && (0 <=? effSize) && negb (startAt + written =? effSize)
          then (_ <- query OClose ;; ret (PErr EShort))
          else if negb ok then (_ <- query OClose ;; ret (PErr ECopy))
          else
            h <- run_hooks hooks ;;
            if negb h then ret (PErr EHook)
            else
              c <- query OClose ;;
              if negb c then ret (PErr EClosePart)
              else
                rn <- rename_part ;;
                if negb rn then ret (PErr ERename)
                else
                  _ <- atomic ORmSide (fun s => set_side s None) ;;
                  ret PCommitted.

(* Pull from step 3 on (:327-357). *)
Definition pull_open hooks (src : psource) (startAt : Z) (stored exp_etag : list byte) (exp_size : Z)
    : M pres :=
  match src O startAt with
  | None => ret (PErr EOpenSource)
  | Some a =>
      if negb (bytes_eqb exp_etag []) && negb (bytes_eqb (a_etag a) []) &&
         negb (bytes_eqb (a_etag a) exp_etag)
      then ret (PErr EContentChanged)
      else
        let trusted := bytes_eqb (a_etag a) [] || bytes_eqb (a_etag a) stored ||
                       (bytes_eqb stored [] && negb (bytes_eqb exp_etag []) &&
                        bytes_eqb (a_etag a) exp_etag) in
        if (0 <? startAt) && negb trusted then
          ok <- remove_part_files ;;
          if negb ok then ret (PErr ERemovePart)
          else
            match src 1%nat 0 with
            | None => ret (PErr EOpenSource)
            | Some a' => pull_copy hooks a' 0 [] exp_etag exp_size
            end
        else pull_copy hooks a startAt stored exp_etag exp_size
  end.

(* Pull (:268-325). *)
Definition pull hooks (src : psource) (exp_etag : list byte) (exp_size : Z) : M pres :=
  f <- stat_of OStatFinal f_final ;;
  match f with
  | StatErr => ret (PErr EStat)
  | StatSize sz =>
      if (0 <=? exp_size) && negb (sz =? exp_size) then ret (PErr ESizeMismatch) else ret PExisting
  | StatNone =>
      p <- stat_of OStatPart f_part ;;
      match p with
      | StatErr => ret (PErr EStat)
      | StatNone => pull_open hooks src 0 [] exp_etag exp_size
      | StatSize partSize =>
          r <- read_sidecar ;;
          match r with
          | None => ret (PErr EReadSide)
          | Some stored =>
              let oversized := (0 <=? exp_size) && (exp_size <? partSize) in
              let conflict := negb (bytes_eqb stored []) && negb (bytes_eqb exp_etag []) &&
                              negb (bytes_eqb stored exp_etag) in
              if oversized || conflict then
                ok <- remove_part_files ;;
                if negb ok then ret (PErr ERemovePart)
                else pull_open hooks src 0 [] exp_etag exp_size
              else pull_open hooks src partSize stored exp_etag exp_size
          end
      end
  end.

(* One Pull call of a history, with everything the outside world does during it. *)
Record pcall := PCall {
  pc_env : env;
  pc_src : psource;
  pc_hooks : list (list byte -> bool);
  pc_etag : list byte;
  pc_size : Z
}.

Definition run_pull (c : pcall) (s : files) : run pres :=
  pull (pc_hooks c) (pc_src c) (pc_etag c) (pc_size c) (pc_env c) 0%nat s.

Definition run_files {A} (r : run A) : files := match r with Done _ _ s => s | Crashed s => s end.

Fixpoint run_pulls (cs : list pcall) (s : files) : files :=
  match cs with [] => s | c :: rest => run_pulls rest (run_files (run_pull c s)) end.

(* ---- FsSink and Push ---- *)

Inductive kres := KErr | KState (offset : Z) (etag : list byte) (complete : bool).

(* FsSink.State (resumable_fs.go:180-205). *)
Definition sink_state : M kres :=
  f <- stat_of OStatFinal f_final ;;
  match f with
  | StatErr => ret KErr
  | StatSize sz => ret (KState sz [] true)
  | StatNone =>
      p <- stat_of OStatPart f_part ;;
      match p with
      | StatErr => ret KErr
      | StatNone => ret (KState 0 [] false)
      | StatSize sz =>
          r <- read_sidecar ;;
          match r with None => ret KErr | Some etag => ret (KState sz etag false) end
      end
  end.

Fixpoint io_copy (chunks : list (list byte)) (eof : bool) (pos : nat) : M bool :=
  match chunks with
  | [] => ret eof
  | d :: rest =>
      w <- write_part pos d ;;
      if w then io_copy rest eof (pos + length d) else ret false
  end.

(* FsSink.Append (:213-274); true is a nil error. *)
Definition sink_append (etag : list byte) (offset : Z) (chunks : list (list byte)) (eof : bool)
    : M bool :=
  o <- atomic OOpenPart
         (fun s => set_part s (if offset =? 0 then Some [] else Some (oget (f_part s)))) ;;
  if negb o then ret false
  else
    ready <-
      (if offset =? 0 then ret true
       else
         p <- stat_of OStatPart f_part ;;
         match p with
         | StatErr | StatNone => _ <- query OClose ;; ret false
         | StatSize sz =>
             t <- (if offset <? sz
                   then atomic OTruncate
                          (fun s => set_part s (option_map (firstn (Z.to_nat offset)) (f_part s)))
                   else ret (negb (sz <? offset))) ;;
             if negb t then (_ <- query OClose ;; ret false)
             else
               sk <- query OSeek ;;
               if negb sk then (_ <- query OClose ;; ret false) else ret true
         end) ;;
    if negb ready then ret false
    else
      sw <- (if negb (bytes_eqb etag []) then write_sidecar etag else ret true) ;;
      if negb sw then (_ <- query OClose ;; ret false)
      else
        c <- io_copy chunks eof (Z.to_nat offset) ;;
        cl <- query OClose ;;
        ret (c && cl).

(* FsSink.Commit (:282-306). *)
Definition sink_commit : M bool :=
  f <- stat_of OStatFinal f_final ;;
  match f with
  | StatErr => ret false
  | StatSize _ =>
      r <- atomic ORmPart (fun s => set_part s None) ;;
      if negb r then ret false
      else (_ <- atomic ORmSide (fun s => set_side s None) ;; ret true)
  | StatNone =>
      r <- rename_part ;;
      if negb r then ret false
      else (_ <- atomic ORmSide (fun s => set_side s None) ;; ret true)
  end.

(* Push (resumable.go:460-523) of the local file [d]; [rd off] is how the local reader
   delivers the bytes from [off] on. UComplete: nil because State said complete;
   UCommitted: nil from Commit. *)
Inductive ures := UComplete | UCommitted | UErr.

Definition push (d : list byte) (rd : Z -> list (list byte) * bool) (etag : list byte) (size : Z)
    : M ures :=
  o <- query OOpenLocal ;;
  if negb o then ret UErr
  else
    st <- query OStatLocal ;;
    if negb st then ret UErr
    else
      let actual := zlen d in
      if (0 <=? size) && negb (size =? actual) then ret UErr
      else
        k <- sink_state ;;
        match k with
        | KErr => ret UErr
        | KState _ _ true => ret UComplete
        | KState off0 setag false =>
            let off1 := if actual <? off0 then 0 else off0 in
            let offset := if negb (bytes_eqb setag []) && negb (bytes_eqb etag []) &&
                             negb (bytes_eqb setag etag) then 0 else off1 in
            let commit := (c <- sink_commit ;; ret (if c then UCommitted else UErr)) in
            if offset =? actual then commit
            else
              a <- (let (chunks, eof) := rd offset in sink_append etag offset chunks eof) ;;
              if negb a then ret UErr else commit
        end.

Record ucall := UCall {
  uc_env : env;
  uc_data : list byte;
  uc_rd : Z -> list (list byte) * bool;
  uc_etag : list byte;
  uc_size : Z
}.

Definition run_push (c : ucall) (s : files) : run ures :=
  push (uc_data c) (uc_rd c) (uc_etag c) (uc_size c) (uc_env c) 0%nat s.

Fixpoint run_pushes (cs : list ucall) (s : files) : files :=
  match cs with [] => s | c :: rest => run_pushes rest (run_files (run_push c s)) end.
