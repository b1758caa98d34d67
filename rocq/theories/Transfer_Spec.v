(* A plain store behind an unreliable network, and local files. *)
From Verif Require Import Common MultiRead_Model SeqRead_Model SeqRead_Spec Chunk_Model Chunk_Spec FileClient_Model FileClient_Spec Transfer_Model.
Open Scope Z_scope.

(* What may happen to a request: it is served; it does not arrive; it is served and the
   answer is lost; of a PUT only the first [k] bytes arrive and are kept; the server or
   something before it answers with a status of its own. *)
Inductive fault := Serve | Drop | Lost | Part (k : nat) | Status (code : Z).
Definition net := nat -> fault.
Definition faithful (f : net) : Prop := forall n c, f n = Status c -> ~ 200 <= c < 300 /\ c <> 404 /\ c <> 410.

(* The store and the number of requests so far. *)
Definition wire (f : net) (w : store * nat) (q : hreq) : doing * (store * nat) :=
  let (s, n) := w in
  match f n with
  | Serve => let (x, s') := plain_server s q in (x, (s', S n))
  | Drop => (DoErr false, (s, S n))
  | Lost => (DoErr false, (snd (plain_server s q), S n))
  | Part k =>
      (DoErr false,
       (match h_method q, h_body q with
        | MPut, Some (_, d) => store_set s (url_path (h_url q)) (firstn k d)
        | _, _ => s
        end, S n))
  | Status c => (DoResp (HResp c 0 [] []), (s, S n))
  end.

(* A local file [d] that nobody changes meanwhile: reading may fail anywhere, and what it
   delivers before is the file's. *)
Definition steady (d : list byte) (l : local) : Prop :=
  l_size l = zlen d /\
  forall off, 0 <= off -> exists rest, skipn (Z.to_nat off) d = ar_data (l_read l off) ++ rest /\ (ar_err (l_read l off) = None -> rest = []).
Definition calm_local (d : list byte) : local := Local false false false (zlen d) (fun off => AReader (skipn (Z.to_nat off) d) None).

(* One Push with everything the outside does during it. *)
Record pcall := PCall { pc_net : net; pc_tmp : Z -> bool; pc_rewind : Z -> bool; pc_local : local; pc_size : Z }.
Definition pcall_ok (d : list byte) (c : pcall) : Prop := faithful (pc_net c) /\ steady d (pc_local c).
(* Nothing goes wrong. *)
Definition calm (d : list byte) (c : pcall) : Prop :=
  (forall n, pc_net c n = Serve) /\ (forall i, pc_tmp c i = false) /\ (forall i, pc_rewind c i = false) /\
  pc_local c = calm_local d /\ (pc_size c < 0 \/ pc_size c = zlen d).
Definition run_push (base : str) (name : Z -> str) (total chunk : Z) (c : pcall) (s : store) : pushed * store :=
  let (r, w) := push_over (wire (pc_net c)) base name total chunk (pc_tmp c) (pc_rewind c) (pc_local c) (pc_size c) (s, O) in (r, fst w).
Definition run_pushes base name total chunk (cs : list pcall) (s : store) : store :=
  fold_left (fun s c => snd (run_push base name total chunk c s)) cs s.

(* The chunks' names: strings, and distinct. *)
Definition names_ok (name : Z -> str) (n : Z) : Prop :=
  (forall i, 0 <= i < n -> octets (name i)) /\ (forall i j, 0 <= i < n -> 0 <= j < n -> name i = name j -> i = j).

(* What a store holds under a chunk's name; chunk objects never hold wrong bytes at the
   right size (an empty store, or one that only such pushes wrote). *)
Definition at_chunk (base : str) (name : Z -> str) (s : store) (i : Z) : option (list byte) := s (object_url base (name i)).
Definition only_parts base name (d : list byte) (chunk n : Z) (s : store) : Prop :=
  forall i v, 0 <= i < n -> at_chunk base name s i = Some v -> zlen v = zlen (chunk_of d chunk i) -> v = chunk_of d chunk i.
Definition holds_file base name (d : list byte) (chunk n : Z) (s : store) : Prop :=
  forall i, 0 <= i < n -> at_chunk base name s i = Some (chunk_of d chunk i).

(* Downloading from a store: the chunk sources ChunkedSource opens, each Get meeting its own
   part of the network's history. *)
Definition stored_chunk base name (s : store) (i : Z) : list byte := match at_chunk base name s i with Some v => v | None => [] end.
Definition download (f : net) (base : str) (name : Z -> str) (s : store) (at_ : Z -> nat -> nat)
    (close : Z -> nat -> option N) (rd : Z -> nat -> Z -> Z -> Z * rerr) : Z -> source :=
  chunk_source (wire f) base name (fun i t => (s, at_ i t)) (stored_chunk base name s) close rd.

(* A whole chunk under each name but the last, where there is no more than that. *)
Definition whole_but_last base name (chunk n : Z) (s : store) : Prop :=
  forall i, 0 <= i < n -> exists v, at_chunk base name s i = Some v /\ zlen v <= chunk /\ (i < n - 1 -> zlen v = chunk).
