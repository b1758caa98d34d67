(* Not disclosing, as non-interference: two URLs that agree on scheme, opaque part, host
   and path, or are both unparsable, produce the same text. *)
From Verif Require Import Common Redact_Model.

Definition same_public (a b : url) : Prop :=
  u_scheme a = u_scheme b /\ u_opaque a = u_opaque b /\ u_host a = u_host b /\
  u_path a = u_path b /\ u_rawpath a = u_rawpath b /\ u_omithost a = u_omithost b.

Definition indistinct (parse : str -> option url) (raw1 raw2 : str) : Prop :=
  match parse raw1, parse raw2 with
  | None, None => True
  | Some a, Some b => same_public a b
  | _, _ => False
  end.

(* What the outermost *url.Error in the tree wraps, if there is one. *)
Fixpoint under_url (e : gerr) : option gerr :=
  match e with GUrl _ _ inner => Some inner | GWrap _ inner => under_url inner | GLeaf _ => None end.

(* The same failure of a request to [raw1] or to [raw2]: a *url.Error about the URL, inside
   any number of messages that mention it or not, around a cause that does not. *)
Inductive same_failure (raw1 raw2 : str) : gerr -> gerr -> Prop :=
| sf_url op inner : same_failure raw1 raw2 (GUrl op raw1 inner) (GUrl op raw2 inner)
| sf_wrap m1 m2 e1 e2 : same_failure raw1 raw2 e1 e2 ->
    same_failure raw1 raw2 (GWrap m1 e1) (GWrap m2 e2)
| sf_same e : under_url e = None -> same_failure raw1 raw2 e e.

(* [c] is in the error's tree at or below the *url.Error, which is what errors.Is and
   errors.As look through. *)
Fixpoint inside (c e : gerr) : Prop :=
  c = e \/ match e with GUrl _ _ i => inside c i | GWrap _ i => inside c i | GLeaf _ => False end.
Definition cause_of (c e : gerr) : Prop :=
  match under_url e with Some inner => inside c inner | None => inside c e end.

(* Nothing but the public parts. *)
Definition bare (u : url) : Prop :=
  u_user u = None /\ u_forcequery u = false /\ u_rawquery u = [] /\ u_fragment u = [] /\ u_rawfragment u = [].
(* [c] inside messages only. *)
Inductive within_messages (c : gerr) : gerr -> Prop :=
| wm_here : within_messages c c
| wm_msg m e : within_messages c e -> within_messages c (GWrap m e).
