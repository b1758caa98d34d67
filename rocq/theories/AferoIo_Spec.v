(* What the adapters of aferofs must do. *)
From Verif Require Import Common ContentRange_Model PathLex_Model PathLex_Proofs Utf8_Model Views_Model Views_Spec IoBridge_Model IoBridge_Spec AferoIo_Model.
Open Scope Z_scope.

Definition names (c : acall) : list (list byte) :=
  match c with A1 _ n => [n] | ARename a b => [a; b] | AName => [] end.
(* The call with other names. *)
Definition renamed (c c' : acall) : Prop :=
  match c, c' with
  | A1 o _, A1 o' _ => o = o'
  | ARename _ _, ARename _ _ => True
  | AName, AName => True
  | _, _ => False
  end.

Definition writes_fs (fl : oflags) (c : acall) : Prop :=
  match c with
  | A1 (AOpen | AStat) _ | AName => False
  | A1 (AOpenFile flag) _ =>
      Z.land flag (f_wronly fl) <> 0 \/ Z.land flag (f_rdwr fl) <> 0 \/ Z.land flag (f_append fl) <> 0 \/ Z.land flag (f_create fl) <> 0 \/ Z.land flag (f_trunc fl) <> 0
  | _ => True
  end.
Definition writes_file (o : fop) : Prop := match o with OTruncate | OWrite | OWriteAt | OWriteString => True | _ => False end.

(* What a history shows when looked at, and a log that keeps the bytes. *)
Inductive shown_arg := SBytes (b : list byte) | SVal (v : nat).
Definition look (b : list (list byte)) (a : arg) : shown_arg :=
  match a with ABuf i => SBytes (nth i b []) | AVal v => SVal v end.
Definition line := (bool * bool * nat * list shown_arg)%type.
Definition shows_history (s : ost) : list line :=
  map (fun e => (r_fs e, r_before e, r_method e, map (look (bufs s)) (r_args e))) (hist s).
Definition fill (b : list (list byte)) (f : nat * list byte) : list (list byte) := firstn (fst f) b ++ match skipn (fst f) b with [] => [] | _ :: r => snd f :: r end.
Fixpoint ideal (b : list (list byte)) (es : list event) : list line :=
  match es with
  | [] => []
  | ECall isfs m args fills results :: es =>
      let b' := fold_left fill fills b in
      (isfs, true, m, map (look b) args) :: (isfs, false, m, map (look b') results) :: ideal b' es
  | ECaller i v :: es => ideal (fill b (i, v)) es
  end.
(* No buffer is changed once it is in the history. *)
Definition mentions (i : nat) (args : list arg) : Prop := In (ABuf i) args.
Fixpoint untouched (seen : nat -> Prop) (es : list event) : Prop :=
  match es with
  | [] => True
  | ECall _ _ args fills results :: es =>
      (forall f, In f fills -> ~ seen (fst f) /\ ~ mentions (fst f) args) /\ untouched (fun i => seen i \/ mentions i args \/ mentions i results) es
  | ECaller i _ :: es => ~ seen i /\ untouched seen es
  end.
Fixpoint calls_of (es : list event) : list entry :=
  match es with
  | [] => []
  | ECall isfs m args _ results :: es =>
      {| r_fs := isfs; r_before := true; r_method := m; r_args := args |} :: {| r_fs := isfs; r_before := false; r_method := m; r_args := results |} :: calls_of es
  | ECaller _ _ :: es => calls_of es
  end.

(* What a call on the adapted file comes to: the method of the file where it has one, the
   substitute where one method can stand in for another, and nothing else. *)
Definition has (m : methods) (o : fop) : bool :=
  match o with
  | OReadAt => m_readat m | OReaddir => m_readdir m | OReaddirnames => m_readdirnames m | OSeek => m_seek m | OSync => m_sync m
  | OTruncate => m_truncate m | OWrite => m_write m | OWriteAt => m_writeat m | OWriteString => m_writestring m
  | ORead | OStat | OClose => true
  | OName => false
  end.
Definition stand_in (o : fop) : option fop :=
  match o with OReaddirnames => Some OReaddir | OWriteString => Some OWrite | _ => None end.
Definition answered (readonly : bool) (m : methods) (o : fop) (a : fact) : Prop :=
  (a = FROFS <-> readonly = true /\ writes_file o) /\
  (a = FOwn <-> o = OName) /\
  (a = FUnsupported <-> o <> OName /\ ~ (readonly = true /\ writes_file o) /\ has m o = false /\ forall o', stand_in o = Some o' -> has m o' = false) /\
  (forall o', a = Does o' <-> ~ (readonly = true /\ writes_file o) /\ ((has m o = true /\ o' = o) \/ (has m o = false /\ stand_in o = Some o' /\ has m o' = true))).
