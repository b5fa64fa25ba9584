(** C111: the shared-memory factory of one process and its registry of memory resources, used by
    many threads.

    Sources: score/memory/shared/shared_memory_factory_impl.cpp (FA below),
    score/memory/shared/shared_memory_resource.cpp (SR) and
    score/memory/shared/memory_resource_registry.cpp (RG).

    Simplifications.
    - Paths are numbers.  The identifier of a resource is [key path] (SR 480-483, hash_bytes).
    - The lock files of SR 508-517 and 622 are left to C71 and C72: creating and opening the object
      is one step whose outcome depends on the file system and on a choice of the environment.
    - Typed, inter-VM and anonymous shared memory are left out (no provider is set, FA 142, 191, 215).
    - The region map (C36, C37) is not repeated: mmap never returns overlapping areas, so
      UpdateKnownRegion (RG 81) succeeds for a new identifier.
    - The callback given to Create does not call the factory. *)
From Coq Require Import List Arith Bool.
Import ListNotations.

(** [key]: hash of the path, SR 480-483.  [me]: getuid(), FA 68. *)
Record cfg := mkCfg { key : nat -> nat; me : nat }.

(** An object of the file system: its identity and its owner (fstat, SR 535 and 633). *)
Record file := mkFile { ino : nat; fuid : nat }.

(** A SharedMemoryResource, SR 459-483 and 600-640: path, mapped object, owner, whether mapped for
    writing (map_mode_). *)
Record res := mkRes { rpath : nat; rino : nat; ruid : nat; rwr : bool }.

(** The calls, FA 137, 184, 276, 347 and 364.  [al] is allowedProviders. *)
Inductive op :=
| Open (p : nat) (rw : bool) (al : option (list nat))
| Create (p : nat)
| CreateOrOpen (p : nat) (al : option (list nat))
| Remove (p : nat)
| RemoveStale (p : nat).

Definition opath (o : op) : nat :=
  match o with Open p _ _ | Create p | CreateOrOpen p _ | Remove p | RemoveStale p => p end.

(** Where a thread is. *)
Inductive tst :=
| Idle
| TLock (o : op)              (* waits for mutex_, FA 154, 203, 295, 349, 367 *)
| TLook (o : op)              (* owns mutex_; GetResourceIfAlreadyOpened next, FA 155, 204, 296, 350, 369 *)
| TFs (o : op)                (* nothing found; shm_open next, FA 159, 227, 316 *)
| TMap (o : op) (r : nat)     (* object open; mmap and insert_resource next, SR 942-965 *)
| TIns (o : op) (r : nat)     (* registered; InsertResourceIntoMap next, FA 166, 234, 329 *)
| TCheck (o : op) (r : nat)   (* checkUidMatch next, FA 169-180, 332-343 *)
| TUnl (o : op) (r : nat)     (* erased from resources_; UnlinkFilesystemEntry next, FA 355 *)
| TDrop (o : op) (r : nat)    (* the local shared_ptr ends next; nothing is returned *)
| TDtorL (o : op) (r : nat)   (* it was the last one: ~SharedMemoryResource under mutex_, SR 301 next *)
| TUnmapL (o : op) (r : nat)  (* munmap next, SR 305 *)
| TTmp (o : op)               (* ~SharedMemoryResource of an object that could not be opened, SR 301 next *)
| TStale (o : op)             (* mutex_ given back; shm_unlink next, FA 388 *)
| TDtor (r : nat)             (* the application dropped the last handle: SR 301 next *)
| TUnmap (r : nat)            (* munmap next, SR 305 *)
| TDone (o : op) (a : option nat). (* returned *)

Record st := mkSt {
  files : nat -> option file;  (* linked objects by path *)
  nino : nat;                  (* next object *)
  info : nat -> res;           (* resources by number *)
  nxt : nat;                   (* next resource *)
  mapd : nat -> bool;          (* mapped into the process *)
  held : nat -> nat;           (* shared_ptrs the application owns *)
  fmap : nat -> option nat;    (* resources_: path to weak_ptr *)
  reg : nat -> option nat;     (* MemoryResourceRegistry: identifier to resource *)
  lockh : option nat;          (* owner of mutex_ *)
  th : nat -> tst;
  dead : bool                  (* std::terminate *)
}.

Definition upd {A} (f : nat -> A) (i : nat) (x : A) : nat -> A :=
  fun j => if Nat.eqb j i then x else f j.

Definition init : st :=
  mkSt (fun _ => None) 0 (fun _ => mkRes 0 0 0 false) 0 (fun _ => false) (fun _ => 0)
       (fun _ => None) (fun _ => None) None (fun _ => Idle) false.

Definition set_files s x := mkSt x (nino s) (info s) (nxt s) (mapd s) (held s) (fmap s) (reg s) (lockh s) (th s) (dead s).
Definition set_held s x := mkSt (files s) (nino s) (info s) (nxt s) (mapd s) x (fmap s) (reg s) (lockh s) (th s) (dead s).
Definition set_mapd s x := mkSt (files s) (nino s) (info s) (nxt s) x (held s) (fmap s) (reg s) (lockh s) (th s) (dead s).
Definition set_fmap s x := mkSt (files s) (nino s) (info s) (nxt s) (mapd s) (held s) x (reg s) (lockh s) (th s) (dead s).
Definition set_reg s x := mkSt (files s) (nino s) (info s) (nxt s) (mapd s) (held s) (fmap s) x (lockh s) (th s) (dead s).
Definition set_lock s x := mkSt (files s) (nino s) (info s) (nxt s) (mapd s) (held s) (fmap s) (reg s) x (th s) (dead s).
Definition set_th s t x := mkSt (files s) (nino s) (info s) (nxt s) (mapd s) (held s) (fmap s) (reg s) (lockh s) (upd (th s) t x) (dead s).
Definition set_dead s := mkSt (files s) (nino s) (info s) (nxt s) (mapd s) (held s) (fmap s) (reg s) (lockh s) (th s) true.

(** A new SharedMemoryResource whose object is open, SR 362, 408, 427. *)
Definition new_res (s : st) (x : res) : st :=
  mkSt (files s) (nino s) (upd (info s) (nxt s) x) (S (nxt s)) (mapd s) (held s) (fmap s) (reg s) (lockh s) (th s) (dead s).
(** shm_open with O_CREAT and O_EXCL made a new object, SR 505, 526. *)
Definition new_file (s : st) (p u : nat) : st :=
  mkSt (upd (files s) p (Some (mkFile (nino s) u))) (S (nino s)) (info s) (nxt s) (mapd s) (held s) (fmap s) (reg s) (lockh s) (th s) (dead s).

(** The resource a call keeps alive by its local shared_ptr ([resource], [result]), FA 155-181,
    227-235, 296-344, 350. *)
Definition temp (x : tst) : option nat :=
  match x with
  | TMap _ r | TIns _ r | TCheck _ r | TUnl _ r | TDrop _ r => Some r
  | _ => None
  end.
Definition lock_temp (s : st) : option nat :=
  match lockh s with Some t => temp (th s t) | None => None end.

Definition is_some (r : nat) (o : option nat) : bool :=
  match o with Some x => Nat.eqb x r | None => false end.

(** checkUidMatch, FA 66-80, called only if allowedProviders is given, FA 169-173. *)
Definition admitted (c : cfg) (u : nat) (al : option (list nat)) : bool :=
  match al with
  | None => true
  | Some l => Nat.eqb u (me c) || existsb (Nat.eqb u) l
  end.
Definition allowed (o : op) : option (list nat) :=
  match o with Open _ _ al => al | CreateOrOpen _ al => al | _ => None end.

(** The call returns [a]: mutex_ is given back. *)
Definition finish (s : st) (t : nat) (o : op) (a : option nat) : st :=
  set_th (set_lock s None) t (TDone o a).
(** The call returns a copy of its local shared_ptr, FA 181, 235, 344. *)
Definition give (s : st) (t : nat) (o : op) (r : nat) : st :=
  finish (set_held s (upd (held s) r (S (held s r)))) t o (Some r).

(** GetResourceIfAlreadyOpened, FA 95-111: lock() succeeds if a shared_ptr exists.  The caller owns
    mutex_, so no other call holds one and only the application's count. *)
Definition lookup (s : st) (p : nat) : option nat * st :=
  match fmap s p with
  | None => (None, s)
  | Some r => if Nat.ltb 0 (held s r) then (Some r, s) else (None, set_fmap s (upd (fmap s) p None))
  end.

(** After the lookup, FA 156, 204, 297, 351, 368. *)
Definition looked (s : st) (t : nat) (o : op) : st :=
  let (f, s1) := lookup s (opath o) in
  match f, o with
  | Some r, Open _ _ _ => set_th s1 t (TCheck o r)
  | Some r, CreateOrOpen _ _ => set_th s1 t (TCheck o r)
  | Some r, Create _ => set_th s1 t (TDrop o r)                                             (* FA 204-208 *)
  | Some r, Remove p => set_th (set_fmap s1 (upd (fmap s1) p None)) t (TUnl o r)            (* FA 353 *)
  | Some r, RemoveStale _ => set_dead s1                                                    (* FA 368 *)
  | None, Open _ _ _ => set_th s1 t (TFs o)
  | None, CreateOrOpen _ _ => set_th s1 t (TFs o)
  | None, Create _ => set_th s1 t (TFs o)
  | None, Remove _ => finish s1 t o None                                                    (* FA 359 *)
  | None, RemoveStale _ => set_th (set_lock s1 None) t (TStale o)                           (* FA 371 *)
  end.

(** The object is opened, SR 625-636. *)
Definition opened (s : st) (t : nat) (o : op) (f : file) (w : bool) : st :=
  set_th (new_res s (mkRes (opath o) (ino f) (fuid f) w)) t (TMap o (nxt s)).
(** The object is created, SR 505-536. *)
Definition created (c : cfg) (s : st) (t : nat) (o : op) : st :=
  opened (new_file s (opath o) (me c)) t o (mkFile (nino s) (me c)) true.

(** OpenImpl, CreateImpl and CreateOrOpenImpl up to mmap.  [ok] = false: the system refuses (no
    access, or the lock file is taken, SR 512-516, 597).  SR 553-600: CreateOrOpen terminates when
    opening an existing object is refused. *)
Definition fs_step (c : cfg) (s : st) (t : nat) (o : op) (ok : bool) : st :=
  match o, files s (opath o) with
  | Open _ rw _, Some f => if ok then opened s t o f rw else set_th s t (TTmp o)            (* SR 625-637 *)
  | Open _ _ _, None => set_th s t (TTmp o)                                                 (* SR 626-631 *)
  | Create _, None => if ok then created c s t o else set_th s t (TTmp o)                   (* SR 512-544 *)
  | Create _, Some _ => set_th s t (TTmp o)                                                 (* SR 527-530 *)
  | CreateOrOpen _ _, Some f => if ok then opened s t o f true else set_dead s              (* SR 562, 596 *)
  | CreateOrOpen _ _, None => if ok then created c s t o else set_th s t (TTmp o)           (* SR 571-589 *)
  | _, _ => s
  end.

(** insert_resource, RG 62-83, after mmap, SR 946-974: terminates if the identifier is taken. *)
Definition map_step (c : cfg) (s : st) (t : nat) (o : op) (r : nat) : st :=
  let k := key c (rpath (info s r)) in
  match reg s k with
  | None => set_th (set_reg (set_mapd s (upd (mapd s) r true)) (upd (reg s) k (Some r))) t (TIns o r)
  | Some _ => set_dead s
  end.

(** InsertResourceIntoMap, FA 82-93. *)
Definition ins_step (s : st) (t : nat) (o : op) (r : nat) : st :=
  match fmap s (opath o) with
  | Some _ => set_dead s
  | None =>
      let s1 := set_fmap s (upd (fmap s) (opath o) (Some r)) in
      match o with
      | Create _ => give s1 t o r
      | _ => set_th s1 t (TCheck o r)
      end
  end.

(** FA 169-181 and 332-344. *)
Definition check_step (c : cfg) (s : st) (t : nat) (o : op) (r : nat) : st :=
  if admitted c (ruid (info s r)) (allowed o) then give s t o r else set_th s t (TDrop o r).

(** remove_resource, RG 86-100. *)
Definition unregister (c : cfg) (s : st) (p : nat) : st :=
  set_reg s (upd (reg s) (key c p) None).

Definition thread_step (c : cfg) (s : st) (t : nat) (ok : bool) : option st :=
  match th s t with
  | Idle => None
  | TLock o => match lockh s with None => Some (set_th (set_lock s (Some t)) t (TLook o)) | Some _ => None end
  | TLook o => Some (looked s t o)
  | TFs o => Some (fs_step c s t o ok)
  | TMap o r => Some (map_step c s t o r)
  | TIns o r => Some (ins_step s t o r)
  | TCheck o r => Some (check_step c s t o r)
  | TUnl o r => Some (set_th (set_files s (upd (files s) (opath o) None)) t (TDrop o r))      (* SR 334 *)
  | TDrop o r => Some (if Nat.ltb 0 (held s r) then finish s t o None else set_th s t (TDtorL o r))
  | TDtorL o r => Some (set_th (unregister c s (rpath (info s r))) t (TUnmapL o r))           (* SR 301 *)
  | TUnmapL o r => Some (finish (set_mapd s (upd (mapd s) r false)) t o None)                 (* SR 305 *)
  | TTmp o => Some (finish (unregister c s (opath o)) t o None)                               (* SR 301 *)
  | TStale o => Some (set_th (set_files s (upd (files s) (opath o) None)) t (TDone o None))   (* FA 388 *)
  | TDtor r => Some (set_th (unregister c s (rpath (info s r))) t (TUnmap r))                 (* SR 301 *)
  | TUnmap r => Some (set_th (set_mapd s (upd (mapd s) r false)) t Idle)                      (* SR 305 *)
  | TDone _ _ => Some (set_th s t Idle)
  end.

Inductive label :=
| LCall (t : nat) (o : op)       (* thread [t] calls the factory *)
| LGo (t : nat) (ok : bool)      (* thread [t] goes on *)
| LCopy (r : nat)                (* the application copies a handle it owns *)
| LRelease (t r : nat)           (* thread [t] drops a handle to [r] *)
| LOther (p : nat) (f : option nat). (* another process creates ([Some uid]) or unlinks the object *)

(** ~shared_ptr: the destructor runs in the thread that drops the last one. *)
Definition release (s : st) (t r : nat) : st :=
  let s1 := set_held s (upd (held s) r (pred (held s r))) in
  if Nat.eqb (held s r) 1 && negb (is_some r (lock_temp s)) then set_th s1 t (TDtor r) else s1.

Definition apply (c : cfg) (s : st) (l : label) : option st :=
  if dead s then None else
  match l with
  | LCall t o => match th s t with Idle => Some (set_th s t (TLock o)) | _ => None end
  | LGo t ok => thread_step c s t ok
  | LCopy r => if Nat.ltb 0 (held s r) then Some (set_held s (upd (held s) r (S (held s r)))) else None
  | LRelease t r =>
      match th s t with
      | Idle => if Nat.ltb 0 (held s r) then Some (release s t r) else None
      | _ => None
      end
  | LOther p (Some u) => match files s p with None => Some (new_file s p u) | Some _ => None end
  | LOther p None => Some (set_files s (upd (files s) p None))
  end.

Fixpoint run (c : cfg) (s : st) (ls : list label) : option st :=
  match ls with
  | [] => Some s
  | l :: r => match apply c s l with Some s' => run c s' r | None => None end
  end.
