(** Life of a service instance's shared memory and of its two marker files, across processes.
    Models, for one service instance,
    score/mw/com/impl/bindings/lola/skeleton.cpp (SK), proxy.cpp (PX), skeleton_memory_manager.cpp
    (SMM), score/memory/shared/lock_file.cpp (LF), flock/flock_mutex.cpp (FM) and
    shared_memory_factory_impl.cpp (SFI).

    Simplifications: the three shared memory objects of the instance (QM control, ASIL-B control,
    data) are created, opened and removed together and are one object here; every skeleton and every
    proxy lives in a process of its own; directories exist and the system calls succeed apart from
    lock conflicts, missing files and existing objects; gateway-forwarded skeletons, which never
    create or remove shared memory (SK 150-153, 180-183), are not modelled. Following POSIX, a path
    names an inode, an open file keeps its inode after the path was unlinked, and flock locks belong
    to the inode. *)
From Verif Require Import Base.

(** A skeleton (provider side). [e], [u]: the inodes of its open existence and usage marker files;
    [held]: the shared memory object its SkeletonMemoryManager keeps a reference to. *)
Inductive ppc :=
| PNone                                             (* no skeleton *)
| PCreating (e : nat)                               (* existence marker file open, not locked: SK 210-217 *)
| PIdle (e : nat) (held : option nat)               (* skeleton exists, not offered *)
| POpened (e u : nat) (held : option nat)           (* PrepareOffer, usage file open: SK 294-301 *)
| PRecreate (e u : nat) (held : option nat)         (* usage file locked exclusively: SK 331-337 *)
| PCleared (e u : nat)                              (* stale artefacts removed: SK 338 *)
| PReuse (e u : nat) (held : option nat)            (* usage file in use: SK 347-353 *)
| POffered (e u g : nat)                            (* offered with object g *)
| PStopX (e u g : nat)                              (* PrepareStopOffer, usage file locked: SK 500-503 *)
| PStopU (e u : nat)                                (* shared memory removed: SK 504-505 *)
| PStopC (e u : nat)                                (* unlocked, usage file not yet closed: SK 506 *)
| PDestroying (e : nat)                             (* ~Skeleton, existence lock released, file open *)
| PAborted.                                         (* terminated by an assertion *)

(** A proxy (consumer side). *)
Inductive cpc :=
| CNone
| COpened (u : nat)          (* usage marker file open, not locked: PX 365-370 *)
| CLocked (u : nat)          (* shared lock placed: PX 373-380 *)
| CUsing (u g : nat).        (* shared memory object g open: PX 384-427 *)

Record st := mkSt {
  epath : option nat;         (* inode at the path of the existence marker file *)
  upath : option nat;         (* inode at the path of the usage marker file *)
  spath : option nat;         (* object at the path of the shared memory *)
  fresh : nat;                (* next inode or object number *)
  prov : nat -> ppc;
  cons : nat -> cpc
}.

Definition init : st := mkSt None None None 0 (fun _ => PNone) (fun _ => CNone).

(** Exclusive lock a skeleton holds on an existence marker file. *)
Definition holds_existence (p : ppc) : option nat :=
  match p with
  | PIdle e _ | POpened e _ _ | PRecreate e _ _ | PCleared e _ | PReuse e _ _
  | POffered e _ _ | PStopX e _ _ | PStopU e _ | PStopC e _ => Some e
  | _ => None
  end.

(** Exclusive lock a skeleton holds on a usage marker file. *)
Definition holds_usage (p : ppc) : option nat :=
  match p with
  | PRecreate _ u _ | PCleared _ u | PStopX _ u _ | PStopU _ u => Some u
  | _ => None
  end.

(** Shared lock a proxy holds on a usage marker file. *)
Definition shares_usage (c : cpc) : option nat :=
  match c with CLocked u | CUsing u _ => Some u | _ => None end.

Definition set_p (s : st) (i : nat) (p : ppc) : st :=
  mkSt (epath s) (upath s) (spath s) (fresh s) (fupd (prov s) i p) (cons s).
Definition set_c (s : st) (i : nat) (c : cpc) : st :=
  mkSt (epath s) (upath s) (spath s) (fresh s) (prov s) (fupd (cons s) i c).

Inductive label :=
| PCreate (i : nat)                  (* Skeleton::Create begins *)
| POffer (i : nat)                   (* OfferService *)
| PStop (i : nat) (locked : bool)    (* StopOfferService, with the outcome of try_lock *)
| PDestroy (i : nat)                 (* the skeleton is destroyed *)
| PGo (i : nat) (ok : bool)          (* next step of the skeleton's call; outcome of try_lock resp. of
                                        the remaining steps of PrepareOffer *)
| PCrash (i : nat)                   (* the provider's process dies *)
| CCreate (i : nat)                  (* Proxy::Create begins *)
| CGo (i : nat) (ok : bool)          (* next step of Proxy::Create; outcome of the last try_lock *)
| CDestroy (i : nat)                 (* the proxy is destroyed *)
| CCrash (i : nat).                  (* the consumer's process dies *)

(** What the outcome of a try_lock may be: FM 42-55, flock(2). *)
Definition free_existence (s : st) (e : nat) : Prop := forall j, holds_existence (prov s j) <> Some e.
Definition free_usage_x (s : st) (u : nat) : Prop :=
  (forall j, holds_usage (prov s j) <> Some u) /\ (forall j, shares_usage (cons s j) <> Some u).
Definition free_usage_s (s : st) (u : nat) : Prop := forall j, holds_usage (prov s j) <> Some u.

(** ok is the outcome of a try_lock whose lock is free exactly if [free] *)
Definition outcome (ok : bool) (free : Prop) : Prop := if ok then free else ~ free.

Inductive step : st -> label -> st -> Prop :=
(* SK 210-217, LF 59-82: open or create the existence marker file *)
| s_create_open s i e :
    prov s i = PNone -> epath s = Some e ->
    step s (PCreate i) (set_p s i (PCreating e))
| s_create_new s i :
    prov s i = PNone -> epath s = None ->
    step s (PCreate i)
      (mkSt (Some (fresh s)) (upath s) (spath s) (S (fresh s)) (fupd (prov s) i (PCreating (fresh s))) (cons s))
(* SK 218-240: lock it; on failure the file is closed without unlinking it (LF 108-122) *)
| s_create_lock s i e ok :
    prov s i = PCreating e -> outcome ok (free_existence s e) ->
    step s (PGo i ok) (set_p s i (if ok then PIdle e None else PNone))
(* SK 294-301: open or create the usage marker file *)
| s_offer_open s i e h u :
    prov s i = PIdle e h -> upath s = Some u ->
    step s (POffer i) (set_p s i (POpened e u h))
| s_offer_new s i e h :
    prov s i = PIdle e h -> upath s = None ->
    step s (POffer i)
      (mkSt (epath s) (Some (fresh s)) (spath s) (S (fresh s))
            (fupd (prov s) i (POpened e (fresh s) h)) (cons s))
(* SK 303-307, 146-168 *)
| s_offer_lock s i e u h ok :
    prov s i = POpened e u h -> outcome ok (free_usage_x s u) ->
    step s (PGo i ok) (set_p s i (if ok then PRecreate e u h else PReuse e u h))
(* SK 338, SMM 360-371, SFI 364-390: unlinks the path; an assertion fails if the process still
   refers to an object of that name *)
| s_clear s i e u :
    prov s i = PRecreate e u None ->
    step s (PGo i true)
      (mkSt (epath s) (upath s) None (fresh s) (fupd (prov s) i (PCleared e u)) (cons s))
| s_clear_abort s i e u g :
    prov s i = PRecreate e u (Some g) ->
    step s (PGo i true) (set_p s i PAborted)
(* SK 339-345, 373-420: create the object (exclusively), set up the method handlers, release the
   usage lock. If the last part fails the object stays and is still referred to. *)
| s_recreate s i e u ok :
    prov s i = PCleared e u -> spath s = None ->
    step s (PGo i ok)
      (mkSt (epath s) (upath s) (Some (fresh s)) (S (fresh s))
            (fupd (prov s) i (if ok then POffered e u (fresh s) else PIdle e (Some (fresh s)))) (cons s))
| s_recreate_exists s i e u g :
    prov s i = PCleared e u -> spath s = Some g ->
    step s (PGo i false) (set_p s i (PIdle e None))
(* SK 354-363, SMM 193-211, SFI 154-167: open; an object the process refers to is used again *)
| s_reuse s i e u h g :
    prov s i = PReuse e u h -> match h with Some x => Some x | None => spath s end = Some g ->
    step s (PGo i true) (set_p s i (POffered e u g))
| s_reuse_fails s i e u :
    prov s i = PReuse e u None -> spath s = None ->
    step s (PGo i false) (set_p s i (PIdle e None))
(* SK 478-489, 170-187: proxies still use it: nothing is removed, the object stays referred to *)
| s_stop s i e u g ok :
    prov s i = POffered e u g -> outcome ok (free_usage_x s u) ->
    step s (PStop i ok) (set_p s i (if ok then PStopX e u g else PIdle e (Some g)))
(* SK 504, SMM 343-358, SFI 347-361: unlink the path *)
| s_stop_remove s i e u g :
    prov s i = PStopX e u g ->
    step s (PGo i true)
      (mkSt (epath s) (upath s) None (fresh s) (fupd (prov s) i (PStopU e u)) (cons s))
(* SK 505-506 *)
| s_stop_unlock s i e u :
    prov s i = PStopU e u -> step s (PGo i true) (set_p s i (PStopC e u))
(* SK 507, LF 108-122: close, then unlink the path *)
| s_stop_close s i e u :
    prov s i = PStopC e u ->
    step s (PGo i true)
      (mkSt (epath s) None (spath s) (fresh s) (fupd (prov s) i (PIdle e None)) (cons s))
(* skeleton.h 251-255: the lock is destroyed before the marker file *)
| s_destroy_unlock s i e h :
    prov s i = PIdle e h -> step s (PDestroy i) (set_p s i (PDestroying e))
(* LF 108-122: close, then unlink the path (the skeleton owns the file, SK 232) *)
| s_destroy_close s i e :
    prov s i = PDestroying e ->
    step s (PGo i true)
      (mkSt None (upath s) (spath s) (fresh s) (fupd (prov s) i PNone) (cons s))
(* the operating system closes the files of a dead process, which releases the locks *)
| s_pcrash s i :
    prov s i <> PNone -> step s (PCrash i) (set_p s i PNone)
(* PX 365-370, LF 84-101 *)
| s_attach_open s i u :
    cons s i = CNone -> upath s = Some u -> step s (CCreate i) (set_c s i (COpened u))
(* PX 373-380, 114-149: the outcome of the last of the three attempts *)
| s_attach_lock s i u ok :
    cons s i = COpened u -> outcome ok (free_usage_s s u) ->
    step s (CGo i ok) (set_c s i (if ok then CLocked u else CNone))
(* PX 384-390 *)
| s_attach_shm s i u g :
    cons s i = CLocked u -> spath s = Some g -> step s (CGo i true) (set_c s i (CUsing u g))
| s_attach_fail s i u :
    cons s i = CLocked u -> spath s = None -> step s (CGo i false) (set_c s i CNone)
| s_detach s i u g :
    cons s i = CUsing u g -> step s (CDestroy i) (set_c s i CNone)
| s_ccrash s i :
    cons s i <> CNone -> step s (CCrash i) (set_c s i CNone).
