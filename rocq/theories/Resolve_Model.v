(* Model of fsutil/resolve_symlink.go. The file system is a pair of functions on path texts:
   Lstat and ReadLink, standing still during the call. *)
From Verif Require Import Common ContentRange_Model PathLex_Model.
Open Scope nat_scope.

Inductive rerr := ErrEscapes | ErrLoop | ErrSys (code : nat).

Inductive lst := LErr (code : nat) | LLink | LOther.
Inductive rdl := RErr (code : nat) | RTarget (t : list byte).

Record linkfs := LinkFs { lstat : list byte -> lst; readlink : list byte -> rdl }.

Definition max_links : nat := 40.

(* ResolveSymlink's loop (:176-207): [n] rounds left, [i] made. Text "" stands for a target
   outside the root. *)
Fixpoint rs_loop (fs : linkfs) (n i : nat) (resolved : list byte) : list byte * nat * option rerr :=
  match n with
  | O => ([], i, Some ErrLoop)
  | S n =>
      match readlink fs resolved with
      | RErr c => ([], i, Some (ErrSys c))
      | RTarget t =>
          let t := clean t in
          if rooted t then ([], S i, None)
          else
            let r := join2 (dir resolved) t in
            if negb (is_local r) then ([], S i, None)
            else
              match lstat fs r with
              | LErr c => ([], i, Some (ErrSys c))
              | LOther => (r, S i, None)
              | LLink => rs_loop fs n (S i) r
              end
      end
  end.

(* ResolveSymlink (:166-208). *)
Definition resolve_symlink (fs : linkfs) (link_real_path : list byte) (maxn : nat) : list byte * nat * option rerr :=
  rs_loop fs maxn 0 (clean link_real_path).

Inductive rres := ROk (p : list byte) (links : nat) | RFail (p : list byte) (e : rerr) | RFuel.

(* The loop of ResolvePath (:75-141). [don] and [todo] are the elements of name before and
   from offStart; the buffer "resolved" is don joined. ROk also reports curLinkResolved. *)
Fixpoint rp_loop (fs : linkfs) (fuel cur : nat) : list (list byte) -> list (list byte) -> rres :=
  fix go (don todo : list (list byte)) : rres :=
    match todo with
    | [] => ROk (join_sep don) cur
    | c :: rest =>
        let resolved := join_sep (don ++ [c]) in
        match lstat fs resolved with
        | LErr e => RFail (join_sep (don ++ c :: rest)) (ErrSys e)
        | LOther => go (don ++ [c]) rest
        | LLink =>
            let '(q, num, e) := resolve_symlink fs resolved (max_links - cur) in
            match e with
            | Some e => RFail resolved e
            | None =>
                let cur := cur + num in
                let shown := match q with [] => resolved | _ => q end in
                if max_links <=? cur then RFail shown ErrLoop
                else if is_empty q || negb (is_local q) then RFail shown ErrEscapes
                else
                  match fuel with
                  | O => RFuel
                  | S fuel => rp_loop fs fuel cur [] (split_sep q ++ rest)
                  end
            end
        end
    end.

(* ResolvePath (:40-151). *)
Definition resolve_path (fs : linkfs) (name : list byte) (skip_last : bool) : rres :=
  let name := clean name in
  if bytes_eqb name [dot] then ROk [dot] 0
  else if negb (is_local name) then RFail [] ErrEscapes
  else
    let comps := split_sep name in
    if skip_last then
      match removelast comps with
      | [] => ROk name 0
      | d =>
          match rp_loop fs max_links 0 [] d with
          | ROk p n => ROk (p ++ sep :: last comps []) n
          | other => other
          end
      end
    else rp_loop fs max_links 0 [] comps.
