(** Allocation by containers that live in shared memory: the allocator of the container, the proxy in shared memory
    that names a memory resource, and the registry of the process that turns the name into a resource. Models
    score/memory/shared/polymorphic_offset_ptr_allocator.h (PA), memory_resource_proxy.cpp (MP),
    memory_resource_registry.cpp (MR), do_allocate of shared_memory_resource.cpp (through AllocModel.reserve) and
    new_delete_delegate_resource.cpp (ND).
    One process with any number of threads; other processes are seen as changes of the words in shared memory.
    Addresses and sizes are [Z] in [0, 2^64) as in AllocModel.v. The allocation counter of a region is read and
    advanced in one step: AllocModel.v has the concurrent version. *)
From Verif Require Export AllocModel.
Local Open Scope Z_scope.

Record obj := mkObj {
  oid : Z;      (* memory_identifier_ *)
  obase : Z;    (* getBaseAddress() *)
  osize : Z;    (* virtual_address_space_to_reserve_: getEndAddress() is base + size, shared_memory_resource.cpp:833-842 *)
  osim : bool   (* a NewDeleteDelegateMemoryResource, used to calculate sizes by simulation *)
}.
(** ND 66-95: the simulation resource claims nearly the whole address space. *)
Definition start_of (o : obj) : Z := if osim o then PAGE_SIZE else obase o.
Definition end_of (o : obj) : Z := if osim o then W64 - 1 else obase o + osize o.

(** What a thread is doing in MemoryResourceProxy::allocate; p: address of the proxy. *)
Inductive phase :=
| Idle
| PAt (p n sz a : Z)              (* MP 58: bounds checked, about to look up the resource *)
| PUse (p n sz a : Z) (r : nat).  (* MP 61: about to call the resource *)

(** A block handed out: through the proxy at e_proxy, for e_n elements of size e_sz and alignment e_al, by resource e_res. *)
Record event := mkEv { e_proxy : Z; e_n : Z; e_sz : Z; e_al : Z; e_res : nat; e_addr : Z }.

Record st := mkSt {
  nobj : nat;
  objs : nat -> obj;
  live : nat -> bool;          (* the resource object exists, its memory is mapped *)
  reg : list (Z * nat);        (* registry_ *)
  word : Z -> Z;               (* the words of shared memory, as far as they are read as memory_identifier_ of a proxy *)
  cntr : nat -> Z;             (* alreadyAllocatedBytes *)
  heap : list (nat * Z);       (* current_upstream_allocations_ of the simulation resources *)
  thr : nat -> phase;
  log : list event;            (* history: blocks handed out, newest first *)
  dead : bool;                 (* the process has terminated *)
  ub : bool                    (* undefined behaviour has happened *)
}.
Definition no_obj : obj := mkObj 0 0 0 false.
Definition init : st := mkSt 0 (fun _ => no_obj) (fun _ => false) [] (fun _ => 0) (fun _ => 0) [] (fun _ => Idle) [] false false.

Definition updn {A} (f : nat -> A) (k : nat) (v : A) : nat -> A := fun x => if Nat.eqb x k then v else f x.
Definition updz {A} (f : Z -> A) (k : Z) (v : A) : Z -> A := fun x => if Z.eqb x k then v else f x.

(** MR 37-47: find in the map. *)
Fixpoint find (id : Z) (l : list (Z * nat)) : option nat :=
  match l with
  | [] => None
  | (i, r) :: l => if i =? id then Some r else find id l
  end.

Definition kill (s : st) : st :=
  mkSt (nobj s) (objs s) (live s) (reg s) (word s) (cntr s) (heap s) (thr s) (log s) true (ub s).
Definition set_ub (s : st) : st :=
  mkSt (nobj s) (objs s) (live s) (reg s) (word s) (cntr s) (heap s) (thr s) (log s) (dead s) true.
Definition set_thr (s : st) (t : nat) (x : phase) : st :=
  mkSt (nobj s) (objs s) (live s) (reg s) (word s) (cntr s) (heap s) (updn (thr s) t x) (log s) (dead s) (ub s).

Inductive label :=
| LMap (id base size c : Z) (sim : bool)  (* a resource is created; c: what is already allocated in the memory *)
| LUnreg (r : nat)                        (* its destructor: remove_resource, MR 86-100 *)
| LUnmap (r : nat)                        (* and munmap *)
| LTamper (p v : Z)                       (* another process writes a word *)
| LCall (t : nat) (p n sz a : Z)          (* PolymorphicOffsetPtrAllocator::allocate(n) for a type of size sz, alignment a *)
| LGo (t : nat) (x : Z)                   (* the call goes on; x: the address the heap gives, if it is asked *)
| LFree (t : nat) (p q : Z).              (* deallocate, PA 113-134, MP 64-71 *)

Definition overlap (b1 e1 b2 e2 : Z) : bool := (b1 <? e2) && (b2 <? e1).
(** mmap gives a range of its own. *)
Definition range_free (s : st) (b e : Z) : bool :=
  forallb (fun r => negb (live s r) || osim (objs s r) || negb (overlap b e (start_of (objs s r)) (end_of (objs s r)))) (seq 0 (nobj s)).

(** The constructors: shared_memory_resource.cpp:945-974 and ND 41-54. A taken identifier terminates the process
    (MR 62-83). The control block, counted as allocated, holds the proxy behind the counter, shared_memory_resource.h:376-389. *)
Definition map_obj (s : st) (id base size c : Z) (sim : bool) : option st :=
  if (sim || ((0 <? base) && (size <? H63) && (base + size <? W64) && (16 <=? c) && (c <=? size) && range_free s base (base + size)))
  then
    match find id (reg s) with
    | Some _ => Some (kill s)
    | None =>
        Some (mkSt (S (nobj s)) (updn (objs s) (nobj s) (mkObj id base size sim)) (updn (live s) (nobj s) true)
                ((id, nobj s) :: reg s) (if sim then word s else updz (word s) (base + 8) id) (updn (cntr s) (nobj s) c) (heap s) (thr s)
                (log s) (dead s) (ub s))
    end
  else None.

(** PA 85 and MP 79-100: the size in bytes must not overflow, the identifier stored in the proxy must be known,
    and the proxy must lie within the bounds of that resource, end address included (MP 35). *)
Definition call (s : st) (t : nat) (p n sz a : Z) : st :=
  if W64 <=? n * sz then kill s
  else match find (word s p) (reg s) with
       | None => kill s
       | Some r => if (start_of (objs s r) <=? p) && (p <=? end_of (objs s r)) then set_thr s t (PAt p n sz a) else kill s
       end.

(** MP 58-60: the identifier is read from shared memory again. *)
Definition look_up (s : st) (t : nat) (p n sz a : Z) : st :=
  match find (word s p) (reg s) with
  | None => kill s
  | Some r => set_thr s t (PUse p n sz a r)
  end.

(** MP 61: the resource's do_allocate. *)
Definition use (s : st) (t : nat) (p n sz a : Z) (r : nat) (x : Z) : option st :=
  if negb (live s r) then Some (set_ub s)
  else if osim (objs s r) then
    if existsb (fun b => snd b =? x) (heap s) || negb (range_free s x (x + n * sz)) then None
    else Some (mkSt (nobj s) (objs s) (live s) (reg s) (word s) (cntr s) ((r, x) :: heap s) (updn (thr s) t Idle)
                 (mkEv p n sz a r x :: log s) (dead s) (ub s))
  else match reserve (obase (objs s r)) (osize (objs s r)) (cntr s r) (n * sz) a with
       | Ok (q, k) => Some (mkSt (nobj s) (objs s) (live s) (reg s) (word s) (updn (cntr s) r k) (heap s) (updn (thr s) t Idle)
                              (mkEv p n sz a r q :: log s) (dead s) (ub s))
       | Term => Some (kill s)
       | UB => Some (set_ub s)
       end.

(** MP 64-71: without bounds check. Shared memory is never given back; the simulation resource gives the block to the
    heap before it looks whether it knows it (ND 187-193), and giving the heap what it has not handed out is
    undefined. *)
Definition free (s : st) (p q : Z) : st :=
  match find (word s p) (reg s) with
  | None => s
  | Some r =>
      if negb (live s r) then set_ub s
      else if osim (objs s r) then
        if existsb (fun b => snd b =? q) (heap s)
        then mkSt (nobj s) (objs s) (live s) (reg s) (word s) (cntr s) (filter (fun b => negb (snd b =? q)) (heap s)) (thr s) (log s) (dead s) (ub s)
        else set_ub s
      else s
  end.

Definition step (s : st) (l : label) : option st :=
  if dead s || ub s then None
  else match l with
  | LMap id base size c sim => map_obj s id base size c sim
  | LUnreg r => if live s r && existsb (fun e => Nat.eqb (snd e) r) (reg s)
                then Some (mkSt (nobj s) (objs s) (live s) (filter (fun e => negb (Nat.eqb (snd e) r)) (reg s)) (word s) (cntr s) (heap s) (thr s)
                             (log s) (dead s) (ub s))
                else None
  | LUnmap r => if live s r && negb (existsb (fun e => Nat.eqb (snd e) r) (reg s))
                then Some (mkSt (nobj s) (objs s) (updn (live s) r false) (reg s) (word s) (cntr s) (heap s) (thr s) (log s) (dead s) (ub s))
                else None
  | LTamper p v => Some (mkSt (nobj s) (objs s) (live s) (reg s) (updz (word s) p v) (cntr s) (heap s) (thr s) (log s) (dead s) (ub s))
  | LCall t p n sz a => match thr s t with
                        | Idle => if (0 <=? n) && (0 <? sz) && (0 <? a) then Some (call s t p n sz a) else None
                        | _ => None
                        end
  | LGo t x => match thr s t with
               | Idle => None
               | PAt p n sz a => Some (look_up s t p n sz a)
               | PUse p n sz a r => use s t p n sz a r x
               end
  | LFree t p q => match thr s t with Idle => Some (free s p q) | _ => None end
  end.

Fixpoint run (s : st) (ls : list label) : option st :=
  match ls with
  | [] => Some s
  | l :: ls => match step s l with Some s' => run s' ls | None => None end
  end.

(** PA 85, 94-103: a container without proxy (default constructed allocator) asks malloc and hands on what it gives;
    m: what malloc answers, 0 for none. *)
Definition heap_allocate (n sz a m : Z) : res Z := if W64 <=? n * sz then Term else Ok m.
