(* What each call on an overlay answers, said of the merged tree ([view] of Overlay_Spec). *)
From Verif Require Import Common ContentRange_Model Overlay_Model Overlay_Spec.
Open Scope nat_scope.

Definition shown (s : stack) (p : path) : Prop := view s 0 p <> None.
Definition missing (s : stack) (p : path) : Prop := view s 0 p = None.
(* Shown, and no directory. *)
Definition other (s : stack) (p : path) : Prop := exists n, visible s p = Some n /\ forall m, n <> ODir m.
Definition full (s : stack) (p : path) : Prop := exists c, shown s (c :: p).
(* A special file the top does not hold. *)
Definition stuck (s : stack) (p : path) : Prop := exists i m, view s 0 p = Some (S i, OSpecial m).
Definition symbolic (s : stack) (p : path) : Prop := exists g, visible s p = Some (OLink g).
(* A layer below the top has something at o, and no layer above that one marks o or a
   directory above it. *)
Definition spans (s : stack) (o : path) : Prop :=
  exists i x, at_ s (S i) o = Some x /\ forall k a, k <= i -> under a o -> whi s k a = false /\ opi s k a = false.

(* No layer has a symlink where p needs a directory. *)
Definition straight (s : stack) (p : path) : Prop := forall i a g, strictly_under a p -> at_ s i a <> Some (OLink g).
(* A name as the resolver hands it on: the layers answer, and its parent is a directory. *)
Definition reached (be : backend) (s : stack) (p : path) : Prop :=
  answers be s p /\ straight s p /\ (p <> [] -> visible_dir s (tl p)).
Definition usable (be : backend) (s : stack) (c : ocall) : Prop :=
  match c with
  | CRemove p | CRemoveAll p | CMkdir p _ | CSymlink _ p => reached be s p
  | CMkdirAll p _ => answers be s p /\ straight s p
  | COpen p _ _ _ _ => reached be s p /\ ~ symbolic s p /\ (forall m, view s 0 p <> Some (0, OSpecial m))
  | CChmod p _ => reached be s p /\ ~ symbolic s p
  | CWrite _ _ => True
  | CLink o n => reached be s o /\ reached be s n /\ ~ visible_dir s o
  | CRename o n => reached be s o /\ reached be s n
  end.

(* The answer each call owes. *)
Definition moves (s : stack) (o n : path) : Prop := o <> [] /\ n <> [] /\ shown s o /\ ~ under o n.
Definition owes (s : stack) (c : ocall) (e : option oerr) : Prop :=
  match c with
  | CRemove p =>
      match e with
      | Some EInval => p = []
      | Some ENotExist => missing s p
      | Some ENotEmpty => p <> [] /\ full s p
      | None => p <> [] /\ shown s p /\ ~ full s p
      | _ => False
      end
  | CRemoveAll p => match e with Some EInval => p = [] | None => p <> [] | _ => False end
  | CMkdir p _ | CSymlink _ p => match e with Some EExist => shown s p | None => missing s p | _ => False end
  | CMkdirAll p _ =>
      match e with
      | Some ENotDir => exists a, under a p /\ other s a
      | None => forall a, under a p -> ~ other s a
      | _ => False
      end
  | COpen p creating excl _ _ =>
      match e with
      | Some EIsDir => visible_dir s p
      | Some EExist => other s p /\ creating = true /\ excl = true
      | Some EUnsupported => stuck s p /\ (creating = true -> excl = true -> False)
      | Some ENotExist => missing s p /\ creating = false
      | None => (missing s p /\ creating = true) \/ (other s p /\ ~ stuck s p /\ (creating = true -> excl = true -> False))
      | _ => False
      end
  | CWrite _ _ => e = None
  | CChmod p _ =>
      match e with
      | Some ENotExist => missing s p
      | Some EUnsupported => stuck s p
      | None => shown s p /\ ~ stuck s p
      | _ => False
      end
  | CLink o n =>
      match e with
      | Some ENotExist => missing s o
      | Some EExist => shown s o /\ shown s n
      | Some EUnsupported => stuck s o /\ missing s n
      | None => shown s o /\ ~ stuck s o /\ missing s n
      | _ => False
      end
  | CRename o n =>
      match e with
      | Some EInval => o = [] \/ n = [] \/ (shown s o /\ strictly_under o n)
      | Some ENotExist => o <> [] /\ n <> [] /\ missing s o
      | Some EXDev => moves s o n /\ visible_dir s o /\ spans s o
      | Some EIsDir => moves s o n /\ other s o /\ visible_dir s n
      | Some ENotDir => moves s o n /\ visible_dir s o /\ ~ spans s o /\ other s n
      | Some ENotEmpty => moves s o n /\ visible_dir s o /\ ~ spans s o /\ visible_dir s n /\ full s n
      | Some EUnsupported => moves s o n /\ stuck s o /\ ~ visible_dir s n
      | None => (o <> [] /\ n <> [] /\ o = n /\ shown s o) \/
          (moves s o n /\
           ((visible_dir s o /\ ~ spans s o /\ ~ other s n /\ ~ full s n) \/ (other s o /\ ~ stuck s o /\ ~ visible_dir s n)))
      | Some EExist | Some EOther => False
      end
  end.

(* A refused call does nothing at all. *)
Definition answered (s : stack) (a : eff) (e : option oerr) : Prop :=
  match e with None => err_opt a = None | Some x => a = ([], s, Some x) end.

(* The calls on one name. *)
Definition name_of (c : ocall) : option path :=
  match c with
  | CRemove p | CRemoveAll p | CMkdir p _ | CMkdirAll p _ | COpen p _ _ _ _ | CSymlink _ p | CChmod p _ => Some p
  | CWrite _ _ | CLink _ _ | CRename _ _ => None
  end.
(* Refused for want of the parent directory, with nothing done. *)
Definition refused (s : stack) (a : eff) : Prop := a = ([], s, Some ENotExist) \/ a = ([], s, Some ENotDir).
