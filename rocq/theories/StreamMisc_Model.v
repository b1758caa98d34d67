(* Models of stream/cancellable.go, stream/internal/serr and the Close methods of
   stream/multi_read_at_closer.go and stream/multi_read_closer.go. *)
From Verif Require Import Common MultiRead_Model.
Open Scope Z_scope.

(* ---------- cancellable.go ---------- *)

(* Errors a cancellable reader can hand out: io.EOF or another error of the source,
   or the context's error. *)
Inductive cerr := CEof | CSrc (code : N) | CCtx (code : N).

(* The world: ctx.Err() and r.Read as functions of a clock that ticks on every such
   call ([Some c] = cancelled with error c). *)
Record cworld := CWorld {
  cw_ctx : nat -> option N;
  cw_read : nat -> Z -> list byte * rerr
}.

(* cancellable (cancellable.go:8-12) plus the clock and the number of calls made to
   the underlying reader. *)
Record canc := Canc { ca_err : option cerr; ca_t : nat; ca_calls : nat }.

Definition new_canc : canc := Canc None 0 0.   (* NewCancellable, :34-39 *)

Definition of_rerr (e : rerr) : option cerr :=
  match e with RNil => None | REof => Some CEof | ROther c => Some (CSrc c) end.

(* Read (:41-54). ctx.Err() is evaluated twice, as in the code. *)
Definition canc_read (w : cworld) (c : canc) (buflen : Z) : (list byte * option cerr) * canc :=
  match ca_err c with
  | Some e => (([], Some e), c)
  | None =>
      match cw_ctx w (ca_t c) with
      | Some _ =>
          let e := match cw_ctx w (S (ca_t c)) with Some k => Some (CCtx k) | None => None end in
          (([], e), Canc e (S (S (ca_t c))) (ca_calls c))
      | None =>
          let (data, e) := cw_read w (S (ca_t c)) buflen in
          ((data, of_rerr e), Canc (of_rerr e) (S (S (ca_t c))) (S (ca_calls c)))
      end
  end.

Fixpoint canc_run (w : cworld) (c : canc) (lens : list Z) : list (list byte * option cerr) * canc :=
  match lens with
  | [] => ([], c)
  | l :: rest =>
      let (x, c') := canc_read w c l in
      let (xs, c'') := canc_run w c' rest in (x :: xs, c'')
  end.

(* ---------- internal/serr ---------- *)

(* Go error values of interest: a leaf error, *prefixed and *gathered
   (serr/prefix.go:14-17, serr/gathered.go:17). A nil error is [None]. *)
Inductive gerr :=
| GLeaf (code : N)
| GPrefixed (prefix : N) (e : option gerr)
| GGathered (es : list (option gerr)).

(* Gather (gathered.go:27-66). The two counting passes build exactly the list of the
   non-nil errors. *)
Definition all_non_nil (es : list (option gerr)) : bool :=
  forallb (fun e => match e with Some _ => true | None => false end) es.

Fixpoint count_non_nil (es : list (option gerr)) : nat :=
  match es with [] => 0 | Some _ :: r => S (count_non_nil r) | None :: r => count_non_nil r end.

(* filtered := make([]error, count); the second loop writes the idx-th slot. *)
Fixpoint fill (es : list (option gerr)) (idx : nat) (filtered : list (option gerr)) : list (option gerr) :=
  match es with
  | [] => filtered
  | Some e :: r => fill r (S idx) (firstn idx filtered ++ Some e :: skipn (S idx) filtered)
  | None :: r => fill r idx filtered
  end.

Definition gather (es : list (option gerr)) : option gerr :=
  match es with
  | [] => None
  | _ =>
      if all_non_nil es then Some (GGathered es)
      else
        let filtered := fill es 0 (repeat None (count_non_nil es)) in
        match filtered with [] => None | _ => Some (GGathered filtered) end
  end.

(* GatherPrefixed (gathered.go:120-145); prefixes are the member indexes. *)
Definition gather_prefixed (es : list (N * option gerr)) : option gerr :=
  if existsb (fun pe => match snd pe with Some _ => true | None => false end) es
  then Some (GGathered (map (fun pe => Some (GPrefixed (fst pe) (snd pe))) es))
  else None.

(* errors.Is against a leaf: walk Unwrap() error and Unwrap() []error. *)
Fixpoint err_is (e : gerr) (code : N) : bool :=
  match e with
  | GLeaf c => N.eqb c code
  | GPrefixed _ None => false
  | GPrefixed _ (Some e') => err_is e' code
  | GGathered es =>
      (fix any (l : list (option gerr)) : bool :=
         match l with
         | [] => false
         | None :: r => any r
         | Some e' :: r => err_is e' code || any r
         end) es
  end.

Definition opt_is (e : option gerr) (code : N) : bool :=
  match e with None => false | Some e' => err_is e' code end.

(* ---------- Close of the aggregates ---------- *)

(* A member is either not an io.Closer (None) or a closer returning the given error.
   Close (multi_read_at_closer.go:257-265, multi_read_closer.go:33-39): loops over the
   members, records the calls made ([trace]: member indexes, in order) and gathers. *)
Fixpoint close_loop (i : N) (members : list (option (option gerr))) (trace : list N)
    (errs : list (N * option gerr)) : list N * list (N * option gerr) :=
  match members with
  | [] => (trace, errs)
  | None :: rest => close_loop (N.succ i) rest trace errs
  | Some res :: rest => close_loop (N.succ i) rest (trace ++ [i]) (errs ++ [(i, res)])
  end.

Definition close_all (members : list (option (option gerr))) : list N * option gerr :=
  let (trace, errs) := close_loop 0 members [] [] in (trace, gather_prefixed errs).
