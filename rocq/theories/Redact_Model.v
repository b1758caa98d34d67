(* Model of URL redaction in error texts: stream/httprange/redact.go and the copy in
   stream/fileserver/client.go. Strings are byte lists. net/url is an oracle: [parse] is
   url.Parse (None on error), [render] is URL.String, [quote] is strconv.Quote. *)
From Verif Require Import Common.

Notation str := (list byte).

(* url.URL, all fields. *)
Record url := {
  u_scheme : str; u_opaque : str; u_user : option str; u_host : str; u_path : str;
  u_rawpath : str; u_omithost : bool; u_forcequery : bool; u_rawquery : str;
  u_fragment : str; u_rawfragment : str }.

(* Go errors as trees of single wrapping: a *url.Error, a message around an error, a leaf. *)
Inductive gerr :=
| GUrl (op raw : str) (inner : gerr)
| GWrap (msg : str) (inner : gerr)
| GLeaf (msg : str).

(* redactURL (redact.go:15-23). *)
Definition redact_url (render : url -> str) (u : url) : str :=
  render {| u_scheme := u_scheme u; u_opaque := u_opaque u; u_user := None; u_host := u_host u;
            u_path := u_path u; u_rawpath := u_rawpath u; u_omithost := u_omithost u;
            u_forcequery := false; u_rawquery := []; u_fragment := []; u_rawfragment := [] |}.

(* "[redacted url]" (redact.go:11). *)
Definition placeholder : str := [91;114;101;100;97;99;116;101;100;32;117;114;108;93]%N.

(* redactRawURL (redact.go:26-32). *)
Definition redact_raw (parse : str -> option url) (render : url -> str) (raw : str) : str :=
  match parse raw with None => placeholder | Some u => redact_url render u end.

(* errors.AsType[*url.Error]: the outermost one. *)
Fixpoint as_url_error (e : gerr) : option (str * str * gerr) :=
  match e with
  | GUrl op raw inner => Some (op, raw, inner)
  | GWrap _ inner => as_url_error inner
  | GLeaf _ => None
  end.

(* redactURLError (redact.go:41-51). *)
Definition redact_error parse render (e : gerr) : gerr :=
  match as_url_error e with
  | None => e
  | Some (op, raw, inner) => GUrl op (redact_raw parse render raw) inner
  end.

(* fileserver's redactURLError (stream/fileserver/client.go:124-141): no placeholder, and
   ForceQuery and RawFragment are left alone. *)
Definition fs_redact_raw (parse : str -> option url) (render : url -> str) (raw : str) : str :=
  match parse raw with
  | None => raw
  | Some u =>
      render {| u_scheme := u_scheme u; u_opaque := u_opaque u; u_user := None; u_host := u_host u;
                u_path := u_path u; u_rawpath := u_rawpath u; u_omithost := u_omithost u;
                u_forcequery := u_forcequery u; u_rawquery := []; u_fragment := [];
                u_rawfragment := u_rawfragment u |}
  end.
Definition fs_redact_error parse render (e : gerr) : gerr :=
  match as_url_error e with
  | None => e
  | Some (op, raw, inner) => GUrl op (fs_redact_raw parse render raw) inner
  end.

(* Error texts. url.Error prints Op, the quoted URL, a colon, Err (net/url). *)
Fixpoint text (quote : str -> str) (e : gerr) : str :=
  match e with
  | GUrl op raw inner => op ++ [32]%N ++ quote raw ++ [58; 32]%N ++ text quote inner
  | GWrap msg inner => msg ++ text quote inner
  | GLeaf msg => msg
  end.

(* The reader's own messages, "httprange: reading URL at offset N: cause"
   (reader_at.go:118-121 and the like). *)
Definition own_message parse render (pre post raw : str) (cause : gerr) : gerr :=
  GWrap (pre ++ redact_raw parse render raw ++ post) (redact_error parse render cause).
