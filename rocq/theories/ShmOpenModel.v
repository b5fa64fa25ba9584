(** Creating and opening one named shared memory object under its lock file.
    Models score/memory/shared/shared_memory_resource.cpp (SMR), lock_file.cpp (LF) and
    shared_memory_factory_impl.cpp (SFI) for one path, across processes that may die at any step.
    Not modelled: anonymous objects, typed memory, objects already open in the same process
    (SFI 154-156), elapsed time: the wait of at most 500 ms for the lock file to disappear
    (SMR 156-179) may end in success or in giving up whenever the lock file is there. *)
From Verif Require Import Base.

(** A process. [t] identifies the lock file it created. *)
Inductive pc :=
| Idle
| CrLocked (t : nat)           (* CreateImpl: lock file created, SMR 512-516 *)
| CrObject (t g : nat)         (* object created, not yet initialised: SMR 526-530 *)
| CrDone (t g : nat)           (* initialised: SMR 546-548 *)
| OpLocked (t : nat)           (* acquireLockFile done: SMR 622 *)
| OpMapped (t g : nat)         (* object opened and mapped: SMR 625-637 *)
| Removing                     (* RemoveStaleArtefacts: lock file unlinked, SFI 373 *)
| Mapped (g : nat)             (* the call returned the object *)
| Terminated.                  (* SMR 1003-1006 *)

Record st := mkSt {
  lockf : option nat;          (* the lock file at its path *)
  obj : option nat;            (* the object at its path *)
  initialised : nat -> bool;   (* per object *)
  fresh : nat;
  pcs : nat -> pc
}.

Definition init : st := mkSt None None (fun _ => false) 0 (fun _ => Idle).

Definition set_pc (s : st) (i : nat) (p : pc) : st :=
  mkSt (lockf s) (obj s) (initialised s) (fresh s) (fupd (pcs s) i p).
Definition unlock (s : st) : st := mkSt None (obj s) (initialised s) (fresh s) (pcs s).
Definition lock (s : st) : st := mkSt (Some (fresh s)) (obj s) (initialised s) (S (fresh s)) (pcs s).

Inductive label :=
| Create (i : nat)     (* SharedMemoryFactory::Create *)
| Open (i : nat)       (* SharedMemoryFactory::Open: creating the lock file succeeds *)
| GiveUp (i : nat)     (* SharedMemoryFactory::Open: the lock file does not disappear in time *)
| Go (i : nat)         (* next step of the call *)
| Close (i : nat)      (* the resource is destroyed *)
| RemoveStale (i : nat)(* SharedMemoryFactory::RemoveStaleArtefacts *)
| Crash (i : nat).     (* the process dies *)

(** The next step of process i's call. LF 108-122: destroying the LockFile unlinks the path,
    whichever file is there. *)
Definition go (s : st) (i : nat) : option st :=
  match pcs s i with
  | CrLocked t =>
      match obj s with
      | Some _ => Some (set_pc (unlock s) i Idle)     (* O_EXCL fails: SMR 527-530 *)
      | None => Some (mkSt (lockf s) (Some (fresh s)) (initialised s) (S (fresh s))
                           (fupd (pcs s) i (CrObject t (fresh s))))
      end
  | CrObject t g =>
      Some (mkSt (lockf s) (obj s) (fupd (initialised s) g true) (fresh s) (fupd (pcs s) i (CrDone t g)))
  | CrDone t g => Some (set_pc (unlock s) i (Mapped g))
  | OpLocked t =>
      match obj s with
      | Some g => Some (set_pc s i (OpMapped t g))
      | None => Some (set_pc (unlock s) i Idle)       (* SMR 626-631 *)
      end
  | OpMapped t g => Some (set_pc (unlock s) i (Mapped g))
  | Removing =>                                       (* SFI 388 *)
      Some (mkSt (lockf s) None (initialised s) (fresh s) (fupd (pcs s) i Idle))
  | _ => None
  end.

Definition is_idle (p : pc) : bool := match p with Idle => true | _ => false end.

Definition apply (s : st) (l : label) : option st :=
  match l with
  | Create i =>
      if is_idle (pcs s i) then
        match lockf s with
        | Some _ => Some s                            (* EBUSY: SMR 1019-1028 *)
        | None => Some (set_pc (lock s) i (CrLocked (fresh s)))
        end
      else None
  | Open i =>
      if is_idle (pcs s i) then
        match lockf s with
        | Some _ => None                              (* waits: SMR 998-1009 *)
        | None => Some (set_pc (lock s) i (OpLocked (fresh s)))
        end
      else None
  | GiveUp i =>
      if is_idle (pcs s i) then
        match lockf s with Some _ => Some (set_pc s i Terminated) | None => None end
      else None
  | Go i => go s i
  | Close i => match pcs s i with Mapped _ => Some (set_pc s i Idle) | _ => None end
  | RemoveStale i =>                                  (* SFI 364-373 *)
      if is_idle (pcs s i) then Some (set_pc (unlock s) i Removing) else None
  | Crash i => Some (set_pc s i Idle)
  end.
