(* Model of the temp-file names of fsutil/safe_write.go and of fsutil/open_random.go. *)
From Verif Require Import Common ContentRange_Model PathLex_Model Utf8_Model.
Open Scope nat_scope.

(* strconv.FormatUint(n, 10); [fuel] bounds the number of digits. *)
Fixpoint fmt_uint_loop (fuel : nat) (n : N) (acc : list byte) : list byte :=
  match fuel with
  | O => acc
  | S fuel =>
      let acc := (48 + n mod 10)%N :: acc in
      if (n / 10 =? 0)%N then acc else fmt_uint_loop fuel (n / 10)%N acc
  end.
Definition fmt_uint (n : N) : list byte := fmt_uint_loop 20 n [].

(* randomUint32Padded (open_random.go:123-137); [r] is what rand.Uint32 returned. *)
Definition random_padded (r : N) : list byte :=
  let s := fmt_uint r in repeat 48%N (10 - length s) ++ s.

(* strings.LastIndex(s, string(b)): what precedes and what follows the last b. *)
Fixpoint cut_last (b : byte) (s : list byte) : option (list byte * list byte) :=
  match s with
  | [] => None
  | c :: r =>
      match cut_last b r with
      | Some (x, y) => Some (c :: x, y)
      | None => if N.eqb c b then Some ([], r) else None
      end
  end.

(* open_random.go:86-95: None is ErrBadPattern. *)
Definition star : byte := 42%N.
Definition split_pattern (pat : list byte) : option (list byte * list byte) :=
  if existsb (N.eqb sep) pat then None
  else Some (match cut_last star pat with Some xy => xy | None => (pat, []) end).

(* The name tried with random value r (open_random.go:82-84, 99-100). *)
Definition random_name (d : list byte) (ps : list byte * list byte) (r : N) : list byte :=
  let d := match d with [] => [dot; sep] | _ => d end in
  join2 d (fst ps ++ random_padded r ++ snd ps).

Inductive or_err := EExist | EOther (code : nat).

Inductive or_res :=
| Created (name : list byte)
| MaxRetry
| Failed (code : nat)
| BadPattern
| OutOfFuel.

(* A file system as far as creation is concerned: what each name holds. *)
Definition names (V : Type) := list byte -> option V.
Definition name_set {V} (w : names V) (p : list byte) (v : option V) : names V :=
  fun q => if bytes_eqb q p then v else w q.

(* 10000 (open_random.go:107). *)
Definition max_attempts : nat := N.to_nat 10000.

(* The loop (open_random.go:97-118). [env k] is what other processes do before attempt k,
   [rnd k] the random value, [openf k] the open callback. The trace holds, per attempt, the
   name and the states before and after the callback. *)
Fixpoint or_loop {V} (fuel : nat) (env : nat -> names V -> names V) (rnd : nat -> N)
    (openf : nat -> names V -> list byte -> names V * option or_err)
    (d : list byte) (ps : list byte * list byte) (attempt : nat) (w : names V)
    : or_res * names V * list (list byte * names V * names V) :=
  match fuel with
  | O => (OutOfFuel, w, [])
  | S fuel =>
      let w1 := env attempt w in
      let name := random_name d ps (rnd attempt) in
      let '(w2, e) := openf attempt w1 name in
      match e with
      | None => (Created name, w2, [(name, w1, w2)])
      | Some EExist =>
          if S attempt <? max_attempts then
            let '(res, w3, tr) := or_loop fuel env rnd openf d ps (S attempt) w2 in
            (res, w3, (name, w1, w2) :: tr)
          else (MaxRetry, w2, [(name, w1, w2)])
      | Some (EOther c) => (Failed c, w2, [(name, w1, w2)])
      end
  end.

Definition open_random {V} (env : nat -> names V -> names V) (rnd : nat -> N)
    (openf : nat -> names V -> list byte -> names V * option or_err)
    (d pat : list byte) (w : names V) :=
  match split_pattern pat with
  | None => (BadPattern, w, [])
  | Some ps => or_loop max_attempts env rnd openf d ps 0 w
  end.

(* The callback of OpenFileRandom (open_random.go:38-44): open(O_RDWR|O_CREATE|O_EXCL).
   The system call fails with EEXIST on an existing name, may fail for other reasons
   ([io k], possibly reported as EEXIST), and creates an empty file otherwise. *)
Definition open_excl {V} (io : nat -> option or_err) (fresh : V) (k : nat) (w : names V) (name : list byte)
    : names V * option or_err :=
  match w name with
  | Some _ => (w, Some EExist)
  | None => match io k with Some e => (w, Some e) | None => (name_set w name (Some fresh), None) end
  end.

(* The callback of MkdirRandom (open_random.go:65-71): mkdir, then open for reading, which
   may fail on its own ([io2]). *)
Definition mkdir_open {V} (io io2 : nat -> option or_err) (fresh : V) (k : nat) (w : names V) (name : list byte)
    : names V * option or_err :=
  let '(w1, e) := open_excl io fresh k w name in
  match e with Some _ => (w1, e) | None => (w1, io2 k) end.

(* ---- safe_write.go ---- *)

Definition tmp_ext : list byte := [46; 116; 109; 112]%N.     (* ".tmp" *)
Definition max_prefix : Z := 240%Z.                          (* :257 *)

(* (TempFilePolicyRandom).pattern (safe_write.go:255-273), the part before ".*.tmp". *)
Definition pattern_base (path : list byte) : list byte :=
  let b := base path in
  if (max_prefix <? zlen b)%Z then
    match trunc_loop (length b) b 0 max_prefix with Some off => firstn off b | None => b end
  else b.
Definition policy_pattern (path : list byte) : list byte := pattern_base path ++ dot :: star :: tmp_ext.

(* The arguments (TempFilePolicyRandom).Create and Mkdir pass on (:275-299). *)
Definition random_policy_dir (target : list byte) : list byte := dir (clean target).

(* strings.CutSuffix. *)
Definition cut_suffix (suf s : list byte) : option (list byte) :=
  let n := length s - length suf in
  if bytes_eqb (skipn n s) suf then Some (firstn n s) else None.

Definition ten_digits (s : list byte) : bool := (length s =? 10) && forallb is_digit s.

(* (TempFilePolicyRandom).Match (:330-359). The loop ranges over runes; a rune is an ASCII
   digit exactly when it is that single byte. *)
Definition random_match (path : list byte) : bool :=
  match cut_suffix tmp_ext (base path) with
  | None => false
  | Some s =>
      match cut_last dot s with
      | None => false
      | Some ([], _) => false
      | Some (_, r) => ten_digits r
      end
  end.

(* TempFilePolicyDir (:361-406): tempDir is cleaned on construction; pattern "*.tmp". *)
Definition dir_pattern : list byte := star :: tmp_ext.

(* (TempFilePolicyDir).Match (:470-504). *)
Definition in_temp_dir (td path : list byte) : bool :=
  let cp := clean path in
  let ct := clean td in
  bytes_eqb cp ct ||
  ((length ct + 1 <? length cp) && bytes_eqb (firstn (length ct) cp) ct &&
   match nth_error cp (length ct) with Some c => N.eqb c sep | None => false end).
Definition dir_match (td path : list byte) : bool :=
  in_temp_dir td path &&
  match cut_suffix tmp_ext (base (clean path)) with
  | None => false
  | Some s => ten_digits s
  end.

(* What the WalkFuncs do with an entry they are called on without error. *)
Inductive walk_act := Continue | SkipDir | Remove.

(* (TempFilePolicyRandom).WalkFunc (:301-328); removing a directory also skips it. *)
Definition random_walk (path : list byte) (isdir : bool) : walk_act :=
  if random_match path then Remove else Continue.

(* strings.HasPrefix *)
Definition has_prefix (pre s : list byte) : bool := bytes_eqb (firstn (length pre) s) pre.

(* (TempFilePolicyDir).WalkFunc (:409-466); td is the cleaned tempDir. *)
Definition dir_walk (td path : list byte) (isdir : bool) : walk_act :=
  let cp := clean path in
  if bytes_eqb cp td then Continue
  else if isdir && (is_dot cp || has_prefix (cp ++ [sep]) (td ++ [sep])) then Continue
  else if dir_match td path then Remove
  else if isdir then SkipDir else Continue.
