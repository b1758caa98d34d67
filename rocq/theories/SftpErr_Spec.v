(* What the errors and listings of sftpfs are to say. *)
From Verif Require Import Common SftpErr_Model.
Open Scope nat_scope.

(* The sentinels an error matches. *)
Inductive matches : gerr -> nat -> Prop :=
| m_leaf t : matches (GLeaf t) t
| m_wrap e t : matches e t -> matches (GWrap e) t
| m_left a b t : matches a t -> matches (GJoin a b) t
| m_right a b t : matches b t -> matches (GJoin a b) t.

(* The first status error in it, and there being none. *)
Inductive unstated : gerr -> Prop :=
| u_leaf t : unstated (GLeaf t)
| u_wrap e : unstated e -> unstated (GWrap e)
| u_join a b : unstated a -> unstated b -> unstated (GJoin a b).
Inductive first_status : gerr -> nat -> list byte -> Prop :=
| f_status c m : first_status (GStatus c m) c m
| f_wrap e c m : first_status e c m -> first_status (GWrap e) c m
| f_left a b c m : first_status a c m -> first_status (GJoin a b) c m
| f_right a b c m : unstated a -> first_status b c m -> first_status (GJoin a b) c m.

Definition within (p s : list byte) : Prop := exists a b, s = a ++ p ++ b.
(* "file exists", "file already exists" *)
Definition says_exists (s : list byte) : Prop :=
  within [102; 105; 108; 101; 32; 101; 120; 105; 115; 116; 115]%N s \/
  within [102; 105; 108; 101; 32; 97; 108; 114; 101; 97; 100; 121; 32; 101; 120; 105; 115; 116; 115]%N s.

(* Matching of what a call returns; nil matches nothing. *)
Definition result_is (r : option gerr) (t : nat) : Prop := exists e, r = Some e /\ matches e t.

(* The entries a finished call handed out, and those of all calls in the order they returned. *)
Definition handed {A} (r : nat * Z * dres A) : list A := match snd r with DOk l => l | _ => [] end.
Definition all_handed {A} (log : list (nat * Z * dres A)) : list A := concat (map handed log).

(* One call's answer, [rest] being what nobody has had yet: everything for n <= 0, else the next n
   or as many as there are, and io.EOF when there are none. *)
Definition right_answer {A} (rest : list A) (n : Z) (r : dres A) : Prop :=
  if (n <=? 0)%Z then r = DOk rest
  else match rest with
       | [] => r = DEof
       | _ => exists l more, r = DOk l /\ rest = l ++ more /\ l <> [] /\ (Z.of_nat (length l) <= n)%Z /\ (more <> [] -> Z.of_nat (length l) = n)
       end.

(* The calls of goroutine [i] that have returned, by their argument, in order. *)
Definition ns_of {A} (i : nat) (log : list (nat * Z * dres A)) : list Z := map (fun x => snd (fst x)) (filter (fun x => fst (fst x) =? i) log).
