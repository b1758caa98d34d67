(* One plain tree of files: what each call answers on it and makes of it. It knows nothing of
   layers, marks or copies. *)
From Verif Require Import Common ContentRange_Model Overlay_Model Overlay_Spec.
Open Scope nat_scope.

(* What can be seen of a node: a directory's own mode and the bits beyond permissions are left
   out (C47 refutes that an overlay keeps them). *)
Inductive thing := TDir | TFile (mode data : N) | TLink (target : list byte) | TSpecial (mode : N).
Definition shape (n : node) : thing :=
  match n with ODir _ => TDir | OFile m d => TFile (N.land m 511) d | OLink g => TLink g | OSpecial m => TSpecial (N.land m 511) end.

Definition same (p q : path) : bool := if list_eq_dec (list_eq_dec N.eq_dec) p q then true else false.
Fixpoint inside (p q : path) : bool := same p q || match q with [] => false | _ :: q' => inside p q' end.
(* q moved from o to n. *)
Definition moved (o n q : path) : path := firstn (length q - length o) q ++ n.

(* A tree is the list of its entries; an earlier entry stands before a later one of its name. *)
Definition ptree := list (path * thing).
Definition pat (t : ptree) (p : path) : option thing :=
  match p with [] => Some TDir | _ => option_map snd (find (fun e => same p (fst e)) t) end.
Definition put (t : ptree) (p : path) (x : thing) : ptree := (p, x) :: t.
Definition drop (t : ptree) (p : path) : ptree := filter (fun e => negb (inside p (fst e))) t.
Definition move (t : ptree) (o n : path) : ptree :=
  map (fun e => (moved o n (fst e), snd e)) (filter (fun e => inside o (fst e)) t) ++ drop (drop t o) n.
Definition childless (t : ptree) (p : path) : bool := forallb (fun e => match fst e with [] => true | _ :: q => negb (same p q) end) t.
Definition is_tdir (x : option thing) : bool := match x with Some TDir => true | _ => false end.
(* p and the names above it, but the root. *)
Fixpoint chain (p : path) : list path := match p with [] => [] | _ :: q => p :: chain q end.

(* What a call answers. [PNoParent]: the directory above is missing or no directory. [PNothing]:
   so it is, and there is nothing to remove. *)
Inductive panswer := PDone | PErr (e : oerr) | PNoParent | PNothing.
Definition under_dir (t : ptree) (p : path) (a : panswer) : panswer := if is_tdir (pat t (tl p)) then a else PNoParent.
Definition opens (t : ptree) (p : path) (creating excl : bool) : panswer :=
  under_dir t p
    match pat t p with
    | Some TDir => PErr EIsDir
    | Some _ => if creating && excl then PErr EExist else PDone
    | None => if creating then PDone else PErr ENotExist
    end.
Definition answer (t : ptree) (c : ocall) : panswer :=
  match c with
  | CRemove p =>
      if same p [] then PErr EInval
      else under_dir t p match pat t p with None => PErr ENotExist | Some _ => if childless t p then PDone else PErr ENotEmpty end
  | CRemoveAll p => if same p [] then PErr EInval else if is_tdir (pat t (tl p)) then PDone else PNothing
  | CMkdir p _ | CSymlink _ p => under_dir t p match pat t p with Some _ => PErr EExist | None => PDone end
  | CMkdirAll p _ => if forallb (fun a => match pat t a with None | Some TDir => true | _ => false end) (chain p) then PDone else PErr ENotDir
  | COpen p creating excl _ _ => opens t p creating excl
  | CChmod p _ => under_dir t p match pat t p with Some _ => PDone | None => PErr ENotExist end
  | CRename o n =>
      if same o [] || same n [] then PErr EInval
      else match pat t o with
           | None => PErr ENotExist
           | Some x =>
               if same o n then PDone else if inside o n then PErr EInval
               else match x, pat t n with
                    | TDir, Some TDir => if childless t n then PDone else PErr ENotEmpty
                    | TDir, Some _ => PErr ENotDir
                    | _, Some TDir => PErr EIsDir
                    | _, _ => PDone
                    end
           end
  | CWrite _ _ | CLink _ _ => PErr EOther
  end.

(* What it makes of the tree. *)
Definition opened (t : ptree) (p : path) (trunc : bool) (m : N) : ptree :=
  match pat t p with
  | Some (TFile m0 d) => put t p (TFile m0 (if trunc then 0%N else d))
  | None => put t p (TFile (N.land m 511) 0)
  | _ => t
  end.
Definition effect (t : ptree) (c : ocall) : ptree :=
  match answer t c with
  | PDone =>
      match c with
      | CRemove p | CRemoveAll p => drop t p
      | CMkdir p _ => put t p TDir
      | CSymlink g p => put t p (TLink g)
      | CMkdirAll p _ => map (fun a => (a, TDir)) (chain p) ++ t
      | COpen p _ _ trunc m => opened t p trunc m
      | CChmod p m =>
          match pat t p with
          | Some (TFile _ d) => put t p (TFile (N.land m 511) d)
          | Some (TSpecial _) => put t p (TSpecial (N.land m 511))
          | _ => t
          end
      | CRename o n => if same o n then t else move t o n
      | CWrite _ _ | CLink _ _ => t
      end
  | _ => t
  end.

(* What a user does: a call, or opening a file for writing and giving it new content. *)
Inductive deed := DCall (c : ocall) | DSave (p : path) (creating excl trunc : bool) (m d : N).
Definition deed_answer (t : ptree) (a : deed) : panswer :=
  match a with DCall c => answer t c | DSave p creating excl _ _ _ => opens t p creating excl end.
Definition deed_effect (t : ptree) (a : deed) : ptree :=
  match a with
  | DCall c => effect t c
  | DSave p creating excl trunc m d =>
      match opens t p creating excl with
      | PDone => match pat (opened t p trunc m) p with Some (TFile m1 _) => put t p (TFile m1 d) | _ => t end
      | _ => t
      end
  end.
Definition act (be : backend) (a : deed) (s : stack) : stack * option oerr :=
  match a with
  | DCall c => (end_of (run_call be c s), err_opt (run_call be c s))
  | DSave p creating excl trunc m d =>
      let o := open_write be p creating excl trunc m s in
      match err_opt o with None => (end_of (write_file p d (end_of o)), err_opt (write_file p d (end_of o))) | e => (end_of o, e) end
  end.

(* The overlay's answer is the plain one; or it is one of the two a plain tree never gives, for
   a directory or a special file that a layer below the top holds. *)
Definition agrees (a : panswer) (e : option oerr) : Prop :=
  match a with
  | PDone => e = None
  | PErr x => e = Some x
  | PNoParent => e = Some ENotExist \/ e = Some ENotDir
  | PNothing => e = None \/ e = Some ENotExist \/ e = Some ENotDir
  end.
Definition lower_has (lows : list layer) (p : path) (is : node -> Prop) : Prop := exists l n, In l lows /\ node_at (l_tree l) p = Some n /\ is n.
Definition excused (lows : list layer) (t : ptree) (a : deed) (e : option oerr) : Prop :=
  match a, e with
  | DCall (CRename o _), Some EXDev => pat t o = Some TDir /\ lower_has lows o (fun _ => True)
  | DCall (CRename o _), Some EUnsupported | DCall (CChmod o _), Some EUnsupported =>
      exists m, pat t o = Some (TSpecial m) /\ lower_has lows o (fun n => exists m', n = OSpecial m')
  | _, _ => False
  end.
Definition plain_error (e : option oerr) : bool := match e with Some EXDev | Some EUnsupported => false | _ => true end.

(* The tree the overlay shows. *)
Definition shows (s : stack) (t : ptree) : Prop := forall p, option_map shape (visible s p) = pat t p.

(* The names a deed takes, as a resolver hands them on: no link on the way, in the tree or in
   a lower; what it opens or chmods is no link, what it opens no special file; the two names of
   a rename have directories above them. *)
Definition names (a : deed) : list path :=
  match a with
  | DCall (CRemove p) | DCall (CRemoveAll p) | DCall (CMkdir p _) | DCall (CMkdirAll p _) | DCall (COpen p _ _ _ _)
  | DCall (CWrite p _) | DCall (CSymlink _ p) | DCall (CChmod p _) | DSave p _ _ _ _ _ => [p]
  | DCall (CLink o n) | DCall (CRename o n) => [o; n]
  end.
Definition is_link (x : option thing) : bool := match x with Some (TLink _) => true | _ => false end.
Definition is_tspecial (x : option thing) : bool := match x with Some (TSpecial _) => true | _ => false end.
Definition way (t : ptree) (p : path) : Prop := forall b, strictly_under b p -> is_link (pat t b) = false.
Definition low_way (lows : list layer) (p : path) : Prop := forall b l g, strictly_under b p -> In l lows -> node_at (l_tree l) b <> Some (OLink g).
Definition fit (t : ptree) (a : deed) : Prop :=
  (forall p, In p (names a) -> way t p) /\
  match a with
  | DCall (CWrite _ _) | DCall (CLink _ _) => False
  | DCall (COpen p _ _ _ _) | DSave p _ _ _ _ _ => is_link (pat t p) = false /\ is_tspecial (pat t p) = false
  | DCall (CChmod p _) => is_link (pat t p) = false
  | DCall (CRename o n) => is_tdir (pat t (tl o)) = true /\ is_tdir (pat t (tl n)) = true
  | _ => True
  end.
Definition lows_clear (lows : list layer) (a : deed) : Prop := forall p, In p (names a) -> low_way lows p.
Definition steady (be : backend) : Prop := forall i p, broken be i p = false.

(* A history on the overlay, and the same history on the plain tree, which skips the deeds the
   overlay alone refuses. *)
Fixpoint run (h : list (backend * deed)) (s : stack) : stack * list (option oerr) :=
  match h with
  | [] => (s, [])
  | (be, a) :: r => let (s1, e) := act be a s in let (s2, es) := run r s1 in (s2, e :: es)
  end.
Definition next (t : ptree) (a : deed) (e : option oerr) : ptree := if plain_error e then deed_effect t a else t.
Fixpoint track (t : ptree) (h : list (backend * deed)) (es : list (option oerr)) : ptree :=
  match h, es with (_, a) :: r, e :: es' => track (next t a e) r es' | _, _ => t end.
Fixpoint right (lows : list layer) (t : ptree) (h : list (backend * deed)) (es : list (option oerr)) : Prop :=
  match h, es with
  | [], [] => True
  | (_, a) :: r, e :: es' => (agrees (deed_answer t a) e \/ excused lows t a e) /\ right lows (next t a e) r es'
  | _, _ => False
  end.
(* The same without excuses. *)
Fixpoint exactly (t : ptree) (h : list (backend * deed)) (es : list (option oerr)) : Prop :=
  match h, es with
  | [], [] => True
  | (_, a) :: r, e :: es' => agrees (deed_answer t a) e /\ exactly (deed_effect t a) r es'
  | _, _ => False
  end.
Fixpoint fits (t : ptree) (h : list (backend * deed)) (es : list (option oerr)) : Prop :=
  match h, es with (_, a) :: r, e :: es' => fit t a /\ fits (next t a e) r es' | _, _ => True end.

(* What the tree is on the way through a call that is cut short. *)
Definition between (t : ptree) (c : ocall) (t' : ptree) : Prop :=
  match c with
  | CRemoveAll p =>
      (forall q, inside p q = false -> pat t' q = pat t q) /\ (forall q, inside p q = true -> pat t' q = pat t q \/ pat t' q = None)
  | CMkdirAll p _ => (forall q, inside q p = false -> pat t' q = pat t q) /\ (forall q, inside q p = true -> pat t' q = pat t q \/ pat t q = None /\ pat t' q = Some TDir)
  | _ => (forall q, pat t' q = pat t q) \/ (forall q, pat t' q = pat (effect t c) q)
  end.
