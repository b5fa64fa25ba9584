(** The shared memory for the control data of a service and for the methods of a proxy: the size that
    is calculated and the allocations that are made.
    lola/ = /repo/score/mw/com/impl/bindings/lola/.  The containers (DynamicArray, NonRelocatableVector)
    are not part of /repo: they are taken to allocate their elements as one array when they are
    constructed, as the comments in lola/service_data_control.cpp:36-103 and lola/proxy.cpp:825-826 say;
    [z] tells whether they ask for memory if they have no elements. *)
From Verif Require Export AllocModel.
Local Open Scope Z_scope.

(** an array of [n] elements; the product is not checked *)
Definition arr (n : Z) (x : sinfo) : sinfo := mkSI (wrap (n * si_size x)) (si_align x).
Definition arr_alloc (z : bool) (n : Z) (x : sinfo) : list sinfo :=
  if (n =? 0) && negb z then [] else [arr n x].

(** ** Control data *)

(** compile time constants: sizeof/alignof *)
Record cconsts := mkCC {
  kc_control : sinfo;     (* ServiceDataControl *)
  kc_entry : sinfo;       (* value_type of event_controls_ *)
  kc_app : sinfo;         (* ApplicationIdPidMappingEntry *)
  kc_slot : sinfo;        (* ControlSlotType *)
  kc_logslot : sinfo;     (* TransactionLogSlot *)
  kc_node : sinfo }.      (* TransactionLogNode *)

(** lola/service_data_control.h:35 *)
Definition MAX_APPS : Z := 50.

(** an event or field: slots of the configuration (samples and tracing), additional slots of a field
    with getter or setter, maximal number of subscribers *)
Record celem := mkCE { ce_slots : Z; ce_extra : Z; ce_subs : Z }.

(** lola/control_slot_types.h:25: std::uint16_t; lola/event_subscription_control.h:59: std::uint8_t *)
Definition slot_index (n : Z) : Z := n mod 65536.
Definition sub_count (n : Z) : Z := n mod 256.
(** lola/transaction_log_set.h:173 *)
Definition SENTINEL : Z := 255.

(** lola/service_data_control.cpp:64-104 *)
Definition est_event (k : cconsts) (e : celem) : list sinfo :=
  arr (ce_slots e) (kc_slot k)
  :: arr (ce_slots e) (kc_logslot k)
  :: arr (ce_subs e) (kc_node k)
  :: repeat (arr (ce_slots e) (kc_logslot k)) (Z.to_nat (ce_subs e))
  ++ [arr (ce_slots e) (kc_logslot k)].

(** lola/service_data_control.cpp:29-107, with lola/skeleton_memory_manager.cpp:616-640 *)
Definition est_control (k : cconsts) (es : list celem) : list sinfo :=
  kc_control k
  :: arr (Z.of_nat (length es)) (kc_entry k)
  :: arr MAX_APPS (kc_app k)
  :: flat_map (est_event k) es.
Definition CalculateControlShmResourceStorageSize (k : cconsts) (es : list celem) : res Z :=
  CalculateAlignedSizeOfSequence (est_control k es).

(** lola/skeleton_memory_manager.cpp:904-926 (arguments, converted to the parameter types),
    lola/event_control.cpp:18-26, lola/event_data_control.h:44-47, lola/transaction_log_set.cpp:53-62,
    lola/transaction_log_set.h:81-86, lola/transaction_log.cpp:18-21.  The node used as prototype is
    copied [max_subscribers] times, each copy allocates; memory is never given back *)
Definition real_event (z : bool) (k : cconsts) (e : celem) : list sinfo :=
  let slots := slot_index (ce_slots e + ce_extra e) in
  let subs := sub_count (ce_subs e) in
  arr_alloc z slots (kc_slot k)
  ++ arr_alloc z slots (kc_logslot k)
  ++ arr_alloc z subs (kc_node k)
  ++ concat (repeat (arr_alloc z slots (kc_logslot k)) (Z.to_nat subs))
  ++ arr_alloc z slots (kc_logslot k).

(** lola/skeleton_memory_manager.cpp:891-902, lola/service_data_control.h:45-50, then the events *)
Definition real_control (z : bool) (k : cconsts) (es : list celem) : list sinfo :=
  kc_control k
  :: arr_alloc z (Z.of_nat (length es)) (kc_entry k)
  ++ arr_alloc z MAX_APPS (kc_app k)
  ++ flat_map (real_event z k) es.

(** lola/transaction_log_set.cpp:59-61: the process ends if the number of logs is the reserved value *)
Definition logs_allowed (es : list celem) : bool :=
  forallb (fun e => negb (sub_count (ce_subs e) =? SENTINEL)) es.

(** lola/skeleton_memory_manager.cpp:505-560 (control part) *)
Definition SimulatedControlSize (z : bool) (k : cconsts) (es : list celem) : res Z :=
  if logs_allowed es then dry_run 0 (real_control z k es) else Term.

(** shared_memory_resource.cpp:499-551: a region of [size] usable bytes is created, and the control
    data of the service is constructed in it (addresses, bytes in use) *)
Definition construct_control (base M : Z) (z : bool) (k : cconsts) (es : list celem) (size : Z)
  : res (list Z * Z) :=
  do V <- add_sz size M;
  if logs_allowed es then allocate_all base V M (real_control z k es) else Term.

(** ** Methods *)

Record mconsts := mkMC {
  km_data : sinfo;        (* MethodData *)
  km_elem : sinfo }.      (* element of method_call_queues_ *)

(** TypeErasedCallQueue::TypeErasedElementInfo *)
Record minfo := mkMI { mi_in : option sinfo; mi_ret : option sinfo; mi_queue : Z }.

(** lola/methods/type_erased_call_queue.cpp:128-156, and lola/proxy.cpp:835-852 likewise *)
Definition queues (m : minfo) : list sinfo :=
  match mi_in m with Some x => [mkSI (wrap (si_size x * mi_queue m)) (si_align x)] | None => [] end ++
  match mi_ret m with Some x => [mkSI (wrap (si_size x * mi_queue m)) (si_align x)] | None => [] end.

(** lola/proxy.cpp:816-855 *)
Definition CalculateRequiredShmSize (k : mconsts) (ms : list minfo) : res Z :=
  CalculateAlignedSizeOfSequence (km_data k :: map (fun _ => km_elem k) ms ++ flat_map queues ms).

(** lola/proxy.cpp:857-881, lola/methods/method_data.h:33-37 *)
Definition method_allocations (k : mconsts) (ms : list minfo) : list sinfo :=
  km_data k :: arr (Z.of_nat (length ms)) (km_elem k) :: flat_map queues ms.

(** lola/proxy.cpp:710-721, for at least one method (675-680); [extra] = additional_shm_size_bytes *)
Definition setup_methods (base M : Z) (k : mconsts) (ms : list minfo) (extra : Z) : res (list Z * Z) :=
  do t <- CalculateRequiredShmSize k ms;
  do V <- add_sz (wrap (t + extra)) M;
  allocate_all base V M (method_allocations k ms).
