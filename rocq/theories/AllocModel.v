(** Sizes and allocations of shared memory.  Paths are relative to /repo/score/memory/shared unless
    they start with lola/ (= /repo/score/mw/com/impl/bindings/lola/).

    std::size_t and std::uintptr_t are [Z] in [0, 2^64); products and sums of std::size_t that the
    code does not check wrap around. *)
From Verif Require Export OffsetPtrModel.
Local Open Scope Z_scope.

(** pointer_arithmetic_util.h:58-73 *)
Definition CalculateAlignedSize (size a : Z) : res Z :=
  if a =? 0 then Term
  else if size mod a =? 0 then Ok size
  else if a <? size then (if size <=? (W64 - 1) - a then Ok (size + a - size mod a) else Term)
  else Ok a.

(** memory::DataTypeSizeInfo *)
Record sinfo := mkSI { si_size : Z; si_align : Z }.

(** pointer_arithmetic_util.cpp:66-93, the loop with the current total *)
Fixpoint seq_loop (total : Z) (l : list sinfo) : res Z :=
  match l with
  | [] => Ok total
  | x :: l' =>
      if si_align x =? 0 then Term
      else if negb (total <=? (W64 - 1) - si_size x) then Term
      else
        let t := total + si_size x in
        match l' with
        | [] => Ok t
        | y :: _ => if si_align y =? 0 then Term else do t' <- CalculateAlignedSize t (si_align y); seq_loop t' l'
        end
  end.
Definition CalculateAlignedSizeOfSequence (l : list sinfo) : res Z := seq_loop 0 l.

(** std::align, by its specification: the smallest aligned address not below [ptr], if [bytes] bytes
    from there are within [space] bytes from [ptr].  (Wrap around at the end of the address space,
    where libstdc++ fails, is not reached: see the address range hypotheses.) *)
Definition align_up (x a : Z) : Z := (x + a - 1) / a * a.
Definition std_align (a bytes ptr space : Z) : option Z :=
  let q := align_up ptr a in
  if bytes + (q - ptr) <=? space then Some q else None.

(** shared_memory_resource.cpp:253-268; the signed difference is cast to std::size_t *)
Definition do_allocation_algorithm (start end_ bytes a : Z) : res (option Z) :=
  do d <- SubtractPointersBytes end_ start; Ok (std_align a bytes start (d mod W64)).

(** safe_math::Add(...).value() on std::size_t *)
Definition add_sz (a b : Z) : res Z := if a + b <? W64 then Ok (a + b) else Term.

(** shared_memory_resource.cpp:727-765: one iteration of the loop up to the compare-exchange, for the
    value [cur] read from alreadyAllocatedBytes: (address, new value).  [base] is where this process
    mapped the region, [V] = virtual_address_space_to_reserve_. *)
Definition reserve (base V cur bytes a : Z) : res (Z * Z) :=
  do e <- AddOffset base V;
  do s <- AddOffset base cur;
  do r <- do_allocation_algorithm s e bytes a;
  match r with
  | None => Term
  | Some q =>
      do pad <- SubtractPointersBytes q s;
      do t <- add_sz bytes pad;
      do n <- add_sz cur t;
      Ok (q, n)
  end.

(** A sequence of allocations by one process, nobody else allocating: (addresses, final value). *)
Fixpoint allocate_all (base V cur : Z) (l : list sinfo) : res (list Z * Z) :=
  match l with
  | [] => Ok ([], cur)
  | x :: l =>
      do r <- reserve base V cur (si_size x) (si_align x);
      do rs <- allocate_all base V (snd r) l;
      Ok (fst r :: fst rs, snd rs)
  end.

(** ** Concurrent allocation: shared_memory_resource.cpp:696-779.
    Processes map the region at their own address; a process may stop at any point (crash,
    std::terminate) without affecting the others. *)
Definition MAX_RETRIES : nat := 32.

Inductive apc :=
| AIdle
| ALoad (bytes a : Z)
| ACas (bytes a : Z) (rt : nat) (cur : Z)   (* about to compare-exchange with the value read *)
| ADead.

(** ghost: a block handed out, as an offset from the start of the region *)
Record block := mkB { b_off : Z; b_size : Z; b_align : Z; b_proc : nat }.

Record ast := mkA { cnt : Z; apcs : nat -> apc; blocks : list block }.

Section Machine.
Variable base : nat -> Z.   (* base_address_ in each process *)
Variable V M : Z.           (* size of the region; GetNeededManagementSpace() *)

(** shared_memory_resource.cpp:976-988 *)
Definition ainit : ast := mkA M (fun _ => AIdle) [].

Inductive alabel :=
| LAlloc (p : nat) (bytes a : Z)
| LAStep (p : nat) (spurious : bool)
| LCrash (p : nat).

Definition a_pc (s : ast) (p : nat) (x : apc) := mkA (cnt s) (fupd (apcs s) p x) (blocks s).

Definition astep (s : ast) (l : alabel) : ast :=
  match l with
  | LAlloc p bytes a => match apcs s p with AIdle => a_pc s p (ALoad bytes a) | _ => s end
  | LCrash p => a_pc s p ADead
  | LAStep p spurious =>
      match apcs s p with
      | AIdle | ADead => s
      | ALoad bytes a => a_pc s p (ACas bytes a 0 (cnt s))
      | ACas bytes a rt cur =>
          if (MAX_RETRIES <=? rt)%nat then a_pc s p ADead
          else match reserve (base p) V cur bytes a with
          | Ok (q, n) =>
              if (cnt s =? cur) && negb spurious
              then mkA n (fupd (apcs s) p AIdle) (mkB (q - base p) bytes a p :: blocks s)
              else a_pc s p (ACas bytes a (S rt) (cnt s))
          | _ => a_pc s p ADead
          end
      end
  end.

Fixpoint arun (s : ast) (ls : list alabel) : ast :=
  match ls with [] => s | l :: ls => arun (astep s l) ls end.
End Machine.

(** ** The dry run of the simulation mode: new_delete_delegate_resource.cpp:119-185; base address 84 *)
Definition PAGE_SIZE : Z := 4096.
Definition dry_allocate (sum bytes a : Z) : res Z :=
  do s <- AddOffset PAGE_SIZE sum;
  do b <- add_sz bytes a;
  do e <- AddOffset s (b - 1);
  do r <- do_allocation_algorithm s e bytes a;
  match r with
  | None => Term
  | Some q => do pad <- SubtractPointersBytes q s; do t <- add_sz bytes pad; add_sz sum t
  end.
Fixpoint dry_run (sum : Z) (l : list sinfo) : res Z :=
  match l with [] => Ok sum | x :: l => do s <- dry_allocate sum (si_size x) (si_align x); dry_run s l end.

(** ** The allocations of a service instance *)

(** compile time constants: sizeof/alignof of the structures in shared memory *)
Record consts := mkC {
  k_storage : sinfo;      (* ServiceDataStorage *)
  k_emap : sinfo;         (* EventDataStorageMap::value_type *)
  k_mmap : sinfo;         (* EventMetaInfoMap::value_type *)
  k_dynarr : sinfo }.     (* EventDataStorage<T> *)

Definition MAX_ALIGN : Z := 16.   (* sizeof and alignof(std::max_align_t) *)

(** an event or field: sample type, slots of the configuration (samples + tracing), additional slots
    of a field with getter and setter *)
Record elem := mkElem { e_generic : bool; e_size : Z; e_align : Z; e_slots : Z; e_extra : Z }.

Definition wrap (x : Z) : Z := x mod W64.

(** lola/skeleton_memory_manager.cpp:230-271 and lola/skeleton_memory_manager.h:331-347 with
    lola/skeleton_event_properties.h:42-47: the slot array that is really allocated *)
Definition real_array (e : elem) : res sinfo :=
  let slots := e_slots e + e_extra e in
  if e_generic e then
    if MAX_ALIGN <? e_align e then Term else
    do s <- CalculateAlignedSize (e_size e) (e_align e);
    Ok (mkSI (wrap (wrap (wrap (s * slots) + MAX_ALIGN - 1) / MAX_ALIGN * MAX_ALIGN)) MAX_ALIGN)
  else Ok (mkSI (wrap (slots * e_size e)) (e_align e)).

(** lola/skeleton_memory_manager.cpp:578-608: the slot array the estimation assumes *)
Definition estimated_array (e : elem) : sinfo :=
  if e_generic e then
    mkSI (wrap (wrap (wrap (e_slots e * e_size e) + MAX_ALIGN - 1) / MAX_ALIGN * MAX_ALIGN)) MAX_ALIGN
  else mkSI (wrap (e_slots e * e_size e)) (e_align e).

(** lola/service_data_storage.cpp:26-69 *)
Definition data_sequence (k : consts) (n : Z) (arrays : list sinfo) : list sinfo :=
  k_storage k
  :: mkSI (wrap (n * si_size (k_emap k))) (si_align (k_emap k))
  :: mkSI (wrap (n * si_size (k_mmap k))) (si_align (k_mmap k))
  :: flat_map (fun a => [k_dynarr k; a]) arrays.

Fixpoint mapr {A B} (f : A -> res B) (l : list A) : res (list B) :=
  match l with [] => Ok [] | x :: l => do y <- f x; do ys <- mapr f l; Ok (y :: ys) end.

Definition real_sequence (k : consts) (es : list elem) : res (list sinfo) :=
  do arrays <- mapr real_array es; Ok (data_sequence k (Z.of_nat (length es)) arrays).
Definition estimated_sequence (k : consts) (es : list elem) : list sinfo :=
  data_sequence k (Z.of_nat (length es)) (map estimated_array es).

(** lola/skeleton_memory_manager.cpp:562-614 *)
Definition CalculateDataShmResourceStorageSize (k : consts) (es : list elem) : res Z :=
  CalculateAlignedSizeOfSequence (estimated_sequence k es).
(** lola/skeleton_memory_manager.cpp:505-560 (data part) *)
Definition SimulatedDataSize (k : consts) (es : list elem) : res Z :=
  do l <- real_sequence k es; dry_run 0 l.

(** shared_memory_resource.cpp:499-551: a region of [size] usable bytes is created and the service
    constructs its data in it *)
Definition construct_service (base M : Z) (k : consts) (es : list elem) (size : Z) : res (list Z * Z) :=
  do V <- add_sz size M;
  do l <- real_sequence k es;
  allocate_all base V M l.
