(* Property theorems for C101: pooled buffers. *)
From Verif Require Import Common BufPool_Model BufPool_Spec BufPool_Proofs.
Open Scope Z_scope.

(* After any history in which callers use and give back only what they have, whatever the
   collector drops and whichever entry sync.Pool picks: GetBytes gives a slice of 64 KiB, full
   length and capacity, GetBuf an empty buffer of at most 64 KiB; what is handed out is nobody
   else's, neither the pointer nor the array, and what others have is not changed. *)
Theorem C101_get :
  forall k l st pick st' p, do_pops k empty_pool l = Some st -> get k pick st = (st', p) ->
  fit k (p_item st' p) /\ p_held st' = p :: p_held st /\
  (forall q, In q (p_held st) -> q <> p /\ p_item st' q = p_item st q /\ i_arr (p_item st' q) <> i_arr (p_item st' p)).
Proof. exact reachable_get. Qed.
Print Assumptions C101_get.

(* At any moment no two of the buffers handed out share memory. *)
Theorem C101_never_shared :
  forall k l st, do_pops k empty_pool l = Some st -> apart st (p_held st).
Proof. exact reachable_apart. Qed.
Print Assumptions C101_never_shared.

(* Giving back changes nothing others have, and keeps exactly the slices of the right length
   and capacity, and the buffers not above the limit. *)
Theorem C101_put :
  forall k l st p, do_pops k empty_pool l = Some st -> In p (p_held st) ->
  ~ In p (p_held (put k p st)) /\ (forall q, q <> p -> (In q (p_held (put k p st)) <-> In q (p_held st)) /\ p_item (put k p st) q = p_item st q) /\
  (In p (p_free (put k p st)) <->
   match k with KBytes => i_len (p_item st p) = 65536 /\ i_cap (p_item st p) = 65536 | KBuf => i_cap (p_item st p) <= 65536 end).
Proof. exact reachable_put. Qed.
Print Assumptions C101_put.

(* Two slices, one shrunk and so not taken back, one reused; a buffer written to and reused,
   a grown one not. That callers give back only what they have is needed: giving a slice back
   twice hands it to two. *)
Example C101_met :
  (exists st, do_pops KBytes empty_pool [PGet 0; PGet 0; PUse 0 10 65536 false; PPut 0; PPut 1] = Some st /\ p_free st = [1%nat] /\ snd (get KBytes 0 st) = 1%nat) /\
  (exists st, do_pops KBuf empty_pool [PGet 0; PGet 0; PUse 0 10 64 true; PUse 1 9 70000 true; PPut 1; PPut 0; PCollect 3] = Some st /\ p_free st = [0%nat] /\
     p_item (fst (get KBuf 0 st)) 0%nat = Item 2 0 64) /\
  do_pops KBytes empty_pool [PGet 0; PPut 0; PPut 0] = None /\
  (let st := put KBytes 0 (put KBytes 0 (fst (get KBytes 0 empty_pool))) in snd (get KBytes 0 st) = 0%nat /\ snd (get KBytes 0 (fst (get KBytes 0 st))) = 0%nat).
Proof.
  split; [|split; [|split; [reflexivity|split; reflexivity]]]; eexists; (split; [reflexivity|]); split; reflexivity.
Qed.
