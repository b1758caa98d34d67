(* Why a call of aferofs/synth fails: what stands in the way, said with paths and entries. *)
From Verif Require Import Common PathLex_Model PathLex_Proofs Afero_Model Afero_Spec.
From Verif Require IoBridge_Spec.
Open Scope nat_scope.

(* A name is refused for what it is, whatever the tree. *)
Definition is_name (n : name) : Prop := IoBridge_Spec.valid_text n /\ exists p, ordinary p /\ n = spell p.
Definition bad_name (n : name) (e : aerr) : Prop :=
  ~ is_name n /\ e = EInval \/
  (exists p, ordinary p /\ n = spell p /\ IoBridge_Spec.valid_text n /\ 255 < length (last p [])) /\ e = ENameTooLong.

(* What cannot be passed through. *)
Definition obstacle (s : afs) (q : list name) (e : aerr) : Prop :=
  shows s q = None /\ e = ENoEnt \/
  (exists m v, shows s q = Some (FileEnt m v)) /\ e = ENotDir \/
  (exists m, shows s q = Some (DirEnt m) /\ ~ may_search m) /\ e = EAcces.
(* The first obstacle on the way to p. *)
Definition blocked (s : afs) (p : list name) (e : aerr) : Prop :=
  exists q c r, p = q ++ c :: r /\ way_open s q /\ obstacle s q e.
Definition absent (s : afs) (p : list name) (e : aerr) : Prop := way_open s p /\ shows s p = None /\ e = ENoEnt.

Definition mode_in (x : ent) : N := match x with FileEnt m _ => m | DirEnt m => m end.
(* The open asks for more than reading. *)
Definition alters (q : oreq) : Prop := o_acc q <> RdOnly \/ o_trunc q = true.
Definition asks_write (q : oreq) : Prop := alters q \/ o_append q = true \/ o_create q = true.
Definition read_only (s : afs) (v : nat) : Prop := exists w, nth_error (a_views s) v = Some w /\ v_ro w = true.

(* Mkdir of p/c. *)
Definition mkdir_fault (s : afs) (p : list name) (c : name) (e : aerr) : Prop :=
  blocked s p e \/ absent s p e \/
  way_open s p /\ (exists m v, shows s p = Some (FileEnt m v)) /\ e = ENotDir \/
  way_open s p /\ (exists m, shows s p = Some (DirEnt m) /\ ~ may_write m) /\ e = EAcces \/
  way_open s p /\ (exists m, shows s p = Some (DirEnt m) /\ may_write m) /\ shows s (p ++ [c]) <> None /\ e = EExist \/
  way_open s p /\ (exists m, shows s p = Some (DirEnt m) /\ may_write m /\ ~ may_search m) /\ shows s (p ++ [c]) = None /\ e = EAcces.

(* OpenFile of p/c, when the way is open. *)
Definition open_fault (s : afs) (p : list name) (c : name) (q : oreq) (e : aerr) : Prop :=
  (exists x, shows s (p ++ [c]) = Some x /\
     (o_excl q = true /\ e = EExist \/
      o_excl q = false /\ ~ may_use (o_acc q) (mode_in x) /\ e = EAcces \/
      o_excl q = false /\ may_use (o_acc q) (mode_in x) /\ (exists m, x = DirEnt m) /\ alters q /\ e = EIsDir \/
      o_excl q = false /\ may_use (o_acc q) (mode_in x) /\ (exists m v, x = FileEnt m v /\ read_only s v) /\ asks_write q /\ e = ERofs)) \/
  shows s (p ++ [c]) = None /\
    (o_create q = false /\ e = ENoEnt \/
     o_create q = true /\ ~ writable_parent s p /\ e = EAcces \/
     o_create q = true /\ writable_parent s p /\ a_alloc s = false /\ e = ERofs).

(* Remove of p/c, when the way is open. *)
Definition remove_fault (s : afs) (p : list name) (c : name) (e : aerr) : Prop :=
  ~ writable_parent s p /\ e = EAcces \/
  writable_parent s p /\ shows s (p ++ [c]) = None /\ e = ENoEnt \/
  writable_parent s p /\ shows s (p ++ [c]) <> None /\ ~ emptyish s (p ++ [c]) /\ e = ENotEmpty \/
  writable_parent s p /\ closes_badly s (p ++ [c]) /\ e = EClosedWith.

(* What is wrong with one of a rename's two names: the way, then the directory. *)
Definition end_fault (s : afs) (p : list name) (c : name) (e : aerr) : Prop :=
  blocked s (p ++ [c]) e \/ way_open s (p ++ [c]) /\ ~ writable_parent s p /\ e = EAcces.
Definition end_fine (s : afs) (p : list name) (c : name) : Prop := way_open s (p ++ [c]) /\ writable_parent s p.
(* Two different names, neither the root. *)
Definition rename_fault (s : afs) (o : list name) (oc : name) (n : list name) (nc : name) (e : aerr) : Prop :=
  below (o ++ [oc]) (n ++ [nc]) /\ e = EInval \/
  ~ below (o ++ [oc]) (n ++ [nc]) /\
   (end_fault s o oc e \/
    end_fine s o oc /\ shows s (o ++ [oc]) = None /\ e = ENoEnt \/
    end_fine s o oc /\ shows s (o ++ [oc]) <> None /\ end_fault s n nc e \/
    end_fine s o oc /\ end_fine s n nc /\
     ((exists m, shows s (o ++ [oc]) = Some (DirEnt m) /\ ~ may_write m) /\ e = EAcces \/
      (exists m v k, shows s (o ++ [oc]) = Some (FileEnt m v) /\ shows s (n ++ [nc]) = Some (DirEnt k)) /\ e = EIsDir \/
      (exists m k v, shows s (o ++ [oc]) = Some (DirEnt m) /\ may_write m /\ shows s (n ++ [nc]) = Some (FileEnt k v)) /\ e = ENotDir \/
      (exists m k, shows s (o ++ [oc]) = Some (DirEnt m) /\ may_write m /\ shows s (n ++ [nc]) = Some (DirEnt k)) /\ ~ emptyish s (n ++ [nc]) /\ e = ENotEmpty)).

(* MkdirAll of p: an obstacle at p or on the way that is there already; or one that it makes
   itself, the umask taking the search permission away. *)
Definition mkdir_all_fault (s : afs) (p : list name) (perm : N) (e : aerr) : Prop :=
  (exists q r, p = q ++ r /\ p <> [] /\ way_open s q /\ obstacle s q e /\ shows s q <> None) \/
  ((exists q r, p = q ++ r /\ way_open s q /\ shows s q = None) /\ (N.testbit perm 6 = false \/ N.testbit (a_umask s) 6 = true) /\ e = EAcces).

(* AddFile of p/c with a view. *)
Definition calls_itself_dir (v : view) : Prop := exists k, v_mode v = Some k /\ N.testbit k 31 = true.
Definition add_file_fault (s : afs) (p : list name) (v : view) (e : aerr) : Prop :=
  calls_itself_dir v /\ e = EIsDir \/
  ~ calls_itself_dir v /\
   (mkdir_all_fault s p 511 e \/
    (exists m, way_open s p /\ shows s p = Some (DirEnt m) /\ ~ (may_write m /\ may_search m)) /\ e = EAcces \/
    (exists q r, p = q ++ r /\ way_open s q /\ shows s q = None) /\ N.testbit (a_umask s) 7 = true /\ e = EAcces).

(* RemoveAll of p/c: nothing there is no fault, nor is a Close that fails; a directory that
   still has entries must allow changing them, wherever it is below p/c. *)
Definition remove_all_fault (s : afs) (p : list name) (c : name) (e : aerr) : Prop :=
  blocked s (p ++ [c]) e /\ e <> ENoEnt \/
  way_open s (p ++ [c]) /\ ~ writable_parent s p /\ e = EAcces \/
  way_open s (p ++ [c]) /\ writable_parent s p /\
    (exists q m, below (p ++ [c]) q /\ shows s q = Some (DirEnt m) /\ ~ emptyish s q /\ ~ (may_search m /\ may_write m)) /\ e = EAcces.
