(** Where the samples of an event lie in shared memory, as provider and consumer compute it.  Paths
    are relative to /repo/score/mw/com/impl (lola/ = bindings/lola/). *)
From Verif Require Export AllocModel SizeModel.
Local Open Scope Z_scope.

(** data_type_meta_info.cpp:20-38 MakeDataTypeSizeInfo, called by GenericSkeleton::Create
    (generic_skeleton.cpp:109-115): [None] = the error kInvalidConfiguration *)
Definition MakeDataTypeSizeInfo (size a : Z) : option sinfo :=
  if negb (a =? 0) && (Z.land a (a - 1) =? 0) then
    if size mod a =? 0 then Some (mkSI size a) else None
  else None.

(** an event of a provider: SkeletonEvent of a type with this sizeof and alignof, or
    GenericSkeletonEvent with this size information; SkeletonEventProperties::GetTotalNumberOfSlots()
    (lola/skeleton_event_properties.h:42-47) *)
Record provider := mkProv { p_generic : bool; p_info : sinfo; p_slots : Z }.

(** what is in shared memory for the event: offset (from the start of the data section) and size of
    the slot array, element count of the DynamicArray in front of it, the EventMetaInfo
    (lola/event_meta_info.h:26-42; [ev_moff] = offset of the OffsetPtr in it) and the number of slots
    of the control data (a std::uint16_t, lola/event_data_control.h) *)
Record evmem := mkEV { ev_off : Z; ev_bytes : Z; ev_count : Z; ev_moff : Z; ev_info : sinfo; ev_ctl : Z }.

(** lola/skeleton_memory_manager.h:271-290, 330-345 (typed), lola/skeleton_memory_manager.cpp:229-273
    (generic) and :900-925 (control data).  [off], [moff]: where the memory resource placed the slot
    array and the map put the EventMetaInfo.  The element count of the generic array is the number
    of std::max_align_t. *)
Definition create (p : provider) (off moff : Z) : res evmem :=
  let t := p_info p in
  if p_generic p then
    if MAX_ALIGN <? si_align t then Term else
    do s <- CalculateAlignedSize (si_size t) (si_align t);
    let n := wrap (wrap (s * p_slots p) + MAX_ALIGN - 1) / MAX_ALIGN in
    Ok (mkEV off (wrap (n * MAX_ALIGN)) n moff t (slot_index (p_slots p)))
  else Ok (mkEV off (wrap (p_slots p * si_size t)) (p_slots p) moff t (slot_index (p_slots p))).

(** safe_math::Multiply on std::size_t; every caller terminates when the product does not fit *)
Definition mul_sz (a b : Z) : res Z := if a * b <? W64 then Ok (a * b) else Term.

Section Process.
Variable regs : regions.   (* the shared memory regions this process has mapped *)
Variable base : Z.         (* where it mapped the data section *)

(** EventMetaInfo::event_slots_raw_array_.get(total), the OffsetPtr being read in place *)
Definition raw_array (m : evmem) (total : Z) : res Z :=
  get true regs (base + ev_moff m) (mkOptr (ev_off m - ev_moff m) 0 0) total.

(** The address a provider writes slot [i] at; [arr] = event_data_storage_.  Typed:
    lola/skeleton_event.h:173-194 with DynamicArray::at (terminates beyond the element count stored
    in shared memory); generic: lola/generic_skeleton_event.cpp:57-83. *)
Definition provider_slot (p : provider) (m : evmem) (arr i : Z) : res Z :=
  let t := p_info p in
  if p_generic p then
    do s <- CalculateAlignedSize (si_size t) (si_align t);
    AddOffset arr (wrap (i * s))
  else if i <? ev_count m then Ok (arr + i * si_size t) else Term.

(** The slot array of a provider that opens the memory of its crashed predecessor: typed
    lola/skeleton_memory_manager.h:292-328 (the DynamicArray is used as it is, its pointer is not
    checked), generic lola/skeleton_memory_manager.cpp:275-296 *)
Definition reopen (p : provider) (m : evmem) : res Z :=
  if p_generic p then
    do s <- CalculateAlignedSize (si_size (ev_info m)) (si_align (ev_info m));
    do total <- mul_sz s (p_slots p);
    do q <- raw_array m total;
    if q =? 0 then Term else Ok q
  else Ok (base + ev_off m).

(** The address a consumer reads slot [i] at.  [None]: GenericProxyEvent,
    lola/generic_proxy_event.cpp:130-185; [Some t]: ProxyEvent of a type with sizeof and alignof [t],
    lola/proxy_event.h:69-77, 148-165, 214-240. *)
Definition consumer_slot (c : option sinfo) (m : evmem) (i : Z) : res Z :=
  let t := match c with None => ev_info m | Some t => t end in
  do s <- CalculateAlignedSize (si_size t) (si_align t);
  do total <- mul_sz s (ev_ctl m);
  do q <- raw_array m total;
  if q =? 0 then Term else
  match c with
  | None => Ok (q + wrap (s * i))
  | Some t =>
      if negb (si_size (ev_info m) =? si_size t) then Term
      else if negb (si_align (ev_info m) =? si_align t) then Term
      else Ok (q + wrap (s * i))
  end.
End Process.
