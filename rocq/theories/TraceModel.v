(** * Tracing of sent samples

    Models the provider's side of IPC tracing in one process: the trace points
    of events and fields, the slots in which samples are held until the tracer
    (the GenericTraceAPI, outside this repository) reports that it is done
    with them, the registration of a service's shared memory with the tracer,
    the data-loss flag and the conditions under which tracing is switched off.

    Files (under /repo/score/mw/com/impl):
      TR  = tracing/tracing_runtime.cpp
      LT  = bindings/lola/tracing/tracing_runtime.cpp
      ST  = tracing/skeleton_event_tracing.{h,cpp}
      SK  = tracing/skeleton_tracing.cpp
      SC  = bindings/lola/skeleton_event_common.h
      SB  = skeleton_base.cpp
      MM  = bindings/lola/skeleton_memory_manager.cpp

    Simplifications:
    - An element's Send is executed by one thread at a time, and not while its
      service is being offered or stopped; different elements are independent
      threads, and so are the tracer's callbacks and the traces of local data.
    - Constructing a skeleton, OfferService and StopOfferService are single
      steps with respect to tracing.  They change the maps of the runtime
      (plain unordered_maps, LT 193-249) without a lock.
    - Values and the shared memory's slots are left out (SlotModel,
      EventModel); a held sample is an occupied tracing slot.
    - The traced sample's fields other than the trace id, the memory it lies in
      and the data-loss bit are left out, and so is the logging. *)

From Coq Require Import List Arith Bool Lia NArith.
From Verif Require Import Base.
Import ListNotations.

(** A service element: its skeleton object and its position in it. *)
Definition el := (nat * nat)%type.

Definition el_eqb (a b : el) : bool := (fst a =? fst b) && (snd a =? snd b).

(** The calls in progress are named by the element or the thread. *)
Definition act_eqb (a b : el + nat) : bool :=
  match a, b with
  | inl x, inl y => el_eqb x y
  | inr x, inr y => x =? y
  | _, _ => false
  end.

Definition eupd {A} (f : el -> A) (e : el) (v : A) : el -> A := fun x => if el_eqb x e then v else f x.

Record cfg := mkCfg {
  has_rt : bool;             (* tracing is configured for this process (runtime.cpp 228-245) *)
  total : nat;               (* number of tracing slots of the process (LT 64-76) *)
  nel : nat -> nat;          (* number of events and fields of a skeleton object *)
  inst : nat -> nat;         (* its service instance *)
  fs : el -> bool;           (* the trace filter enables Send / Update (ST 170, 221) *)
  fa : el -> bool;           (* ... the variant with Allocate (ST 172, 223) *)
  slots : el -> nat;         (* configured number of tracing slots (ST 64-133) *)
  getter : el -> bool;       (* the element is a field with a getter *)
  dummy : el -> bool         (* an event named DUMMY_ELEMENT_NAME (lola/tracing/tracing_runtime.h 43-48) *)
}.

Definition members (c : cfg) (o : nat) : list el := map (fun i => (o, i)) (seq 0 (nel c o)).

(** Answers of the tracer's RegisterShmObject; [NotTyped]: the memory is not
    typed memory and is not registered (MM 723, 820). *)
Inductive rres := ROk | RRecoverable | RFinal | RTerminal | NotTyped.

(** Answers of the tracer's Trace: accepted, or kTerminalFatal, or an error
    that IsErrorRecoverable calls non-recoverable or recoverable (TR 34-50). *)
Inductive tres := TOk | TRecoverable | TFinal | TTerminal.

(** Where a traced Send is (TR 510-603): [f] the data-loss bit read for its
    meta data, [n] the offer whose memory it names, [a] the Allocate variant,
    [id] the tracing slot, [k] the number of the trace. *)
Inductive pcs :=
| Idle
| Meta (f : bool) (n : nat) (a : bool)
| Placed (f : bool) (n : nat) (a : bool) (id k : nat)
| Fin (a : bool) (t : tres).

(** A trace of local data (TR 605-627). *)
Inductive lpcs := LIdle | LMeta (f : bool) | LFin (t : tres).

Inductive fault := Terminated | Undefined.

Inductive event :=
| ERec (b : bool)                    (* the tracer accepted a record with this data-loss bit *)
| ETraced (k : nat) (e : el) (id n : nat) (* ... of sample k of e, under this id, in the memory of offer n *)
| ELost                              (* a record was not delivered *)
| EDone (k : nat)                    (* the tracer reported trace k as done *)
| EOffer (o n : nat)                 (* OfferService number n succeeded *)
| EStop (o : nat)                    (* StopOfferService, or a failed OfferService, ended *)
| EReg (n : nat)                     (* the tracer was asked to register the memory of offer n *)
| ERetry (n : nat)                   (* ... again, by a Send *)
| EUnreg (n : nat)                   (* ... to unregister it *)
| EOff.                              (* tracing was switched off *)

Record st := mkSt {
  enabled : bool;                       (* TracingRuntimeAtomicState::is_tracing_enabled *)
  loss : bool;                          (* lola::TracingRuntime::data_loss_flag_ *)
  fails : N;                            (* consecutive_failure_counter *)
  nxt : nat;                            (* next_available_position_for_new_service_element_range_start_ *)
  slot : nat -> option (nat * el);      (* type_erased_sample_ptrs_: the trace whose sample is held, and its element *)
  hmap : nat -> option nat;             (* shm_object_handle_map_, per service instance: the offer whose memory was registered *)
  cmap : nat -> option nat;             (* failed_shm_object_registration_cache_, per service instance, at the dummy name *)
  rng : el -> nat * nat;                (* service_element_tracing_data: first slot and number of slots *)
  ps : el -> bool;                      (* impl::SkeletonEvent::tracing_data_.enable_send *)
  pa : el -> bool;                      (* impl::SkeletonEvent::tracing_data_.enable_send_with_allocate *)
  bp : el -> bool;                      (* lola::SkeletonEventCommon::tracing_data_: one of the two points is enabled *)
  tlog : el -> bool;                    (* transaction_log_registration_guard_qm_ has a value *)
  guard : el -> bool;                   (* type_erased_sample_ptrs_guard_ has a value *)
  pc : el -> pcs;                       (* the Send in progress on the element *)
  created : nat -> bool;                (* the skeleton object exists *)
  offered : nat -> bool;                (* it is offered *)
  cur : nat -> nat;                     (* the number of its latest offer *)
  lpc : nat -> lpcs;                    (* the traces of local data in progress *)
  busy : list (el + nat);               (* ghost: the trace calls in progress *)
  noffers : nat;                        (* ghost: number of offers so far *)
  ntraces : nat;                        (* ghost: number of samples handed to the tracer's slots so far *)
  out : list (nat * nat * el);          (* the tracer: traces it has accepted and not reported as done, with the id it was given *)
  log : list event;                     (* newest first *)
  down : option fault                  (* the process has ended *)
}.

(** Updates of single components. *)
Definition set_enabled (b : bool) (s : st) : st :=
  mkSt (b) (loss s) (fails s) (nxt s) (slot s) (hmap s) (cmap s) (rng s) (ps s) (pa s) (bp s) (tlog s) (guard s) (pc s) (created s) (offered s) (cur s) (lpc s) (busy s) (noffers s) (ntraces s) (out s) (log s) (down s).
Definition set_loss (b : bool) (s : st) : st :=
  mkSt (enabled s) (b) (fails s) (nxt s) (slot s) (hmap s) (cmap s) (rng s) (ps s) (pa s) (bp s) (tlog s) (guard s) (pc s) (created s) (offered s) (cur s) (lpc s) (busy s) (noffers s) (ntraces s) (out s) (log s) (down s).
Definition set_fails (n : N) (s : st) : st :=
  mkSt (enabled s) (loss s) (n) (nxt s) (slot s) (hmap s) (cmap s) (rng s) (ps s) (pa s) (bp s) (tlog s) (guard s) (pc s) (created s) (offered s) (cur s) (lpc s) (busy s) (noffers s) (ntraces s) (out s) (log s) (down s).
Definition set_slot (i : nat) (v : option (nat * el)) (s : st) : st :=
  mkSt (enabled s) (loss s) (fails s) (nxt s) (fupd (slot s) i v) (hmap s) (cmap s) (rng s) (ps s) (pa s) (bp s) (tlog s) (guard s) (pc s) (created s) (offered s) (cur s) (lpc s) (busy s) (noffers s) (ntraces s) (out s) (log s) (down s).
Definition set_slots (f : nat -> option (nat * el)) (s : st) : st :=
  mkSt (enabled s) (loss s) (fails s) (nxt s) (f) (hmap s) (cmap s) (rng s) (ps s) (pa s) (bp s) (tlog s) (guard s) (pc s) (created s) (offered s) (cur s) (lpc s) (busy s) (noffers s) (ntraces s) (out s) (log s) (down s).
Definition set_hmap (i : nat) (v : option nat) (s : st) : st :=
  mkSt (enabled s) (loss s) (fails s) (nxt s) (slot s) (fupd (hmap s) i v) (cmap s) (rng s) (ps s) (pa s) (bp s) (tlog s) (guard s) (pc s) (created s) (offered s) (cur s) (lpc s) (busy s) (noffers s) (ntraces s) (out s) (log s) (down s).
Definition set_cmap (i : nat) (v : option nat) (s : st) : st :=
  mkSt (enabled s) (loss s) (fails s) (nxt s) (slot s) (hmap s) (fupd (cmap s) i v) (rng s) (ps s) (pa s) (bp s) (tlog s) (guard s) (pc s) (created s) (offered s) (cur s) (lpc s) (busy s) (noffers s) (ntraces s) (out s) (log s) (down s).
Definition set_points (e : el) (a b : bool) (s : st) : st :=
  mkSt (enabled s) (loss s) (fails s) (nxt s) (slot s) (hmap s) (cmap s) (rng s) (eupd (ps s) e a) (eupd (pa s) e b) (bp s) (tlog s) (guard s) (pc s) (created s) (offered s) (cur s) (lpc s) (busy s) (noffers s) (ntraces s) (out s) (log s) (down s).
Definition set_bp (e : el) (b : bool) (s : st) : st :=
  mkSt (enabled s) (loss s) (fails s) (nxt s) (slot s) (hmap s) (cmap s) (rng s) (ps s) (pa s) (eupd (bp s) e b) (tlog s) (guard s) (pc s) (created s) (offered s) (cur s) (lpc s) (busy s) (noffers s) (ntraces s) (out s) (log s) (down s).
Definition set_range (e : el) (a n : nat) (s : st) : st :=
  mkSt (enabled s) (loss s) (fails s) (a + n) (slot s) (hmap s) (cmap s) (eupd (rng s) e (a, n)) (ps s) (pa s) (bp s) (tlog s) (guard s) (pc s) (created s) (offered s) (cur s) (lpc s) (busy s) (noffers s) (ntraces s) (out s) (log s) (down s).
Definition set_prep (e : el) (l g : bool) (s : st) : st :=
  mkSt (enabled s) (loss s) (fails s) (nxt s) (slot s) (hmap s) (cmap s) (rng s) (ps s) (pa s) (bp s) (eupd (tlog s) e l) (eupd (guard s) e g) (pc s) (created s) (offered s) (cur s) (lpc s) (busy s) (noffers s) (ntraces s) (out s) (log s) (down s).
Definition go (e : el) (p : pcs) (s : st) : st :=
  mkSt (enabled s) (loss s) (fails s) (nxt s) (slot s) (hmap s) (cmap s) (rng s) (ps s) (pa s) (bp s) (tlog s) (guard s) (eupd (pc s) e p) (created s) (offered s) (cur s) (lpc s) (busy s) (noffers s) (ntraces s) (out s) (log s) (down s).
Definition set_created (o : nat) (s : st) : st :=
  mkSt (enabled s) (loss s) (fails s) (nxt s) (slot s) (hmap s) (cmap s) (rng s) (ps s) (pa s) (bp s) (tlog s) (guard s) (pc s) (fupd (created s) o true) (offered s) (cur s) (lpc s) (busy s) (noffers s) (ntraces s) (out s) (log s) (down s).
Definition set_offered (o : nat) (b : bool) (s : st) : st :=
  mkSt (enabled s) (loss s) (fails s) (nxt s) (slot s) (hmap s) (cmap s) (rng s) (ps s) (pa s) (bp s) (tlog s) (guard s) (pc s) (created s) (fupd (offered s) o b) (cur s) (lpc s) (busy s) (noffers s) (ntraces s) (out s) (log s) (down s).
Definition next_offer (o : nat) (s : st) : st :=
  mkSt (enabled s) (loss s) (fails s) (nxt s) (slot s) (hmap s) (cmap s) (rng s) (ps s) (pa s) (bp s) (tlog s) (guard s) (pc s) (created s) (offered s) (fupd (cur s) o (noffers s)) (lpc s) (busy s) (S (noffers s)) (ntraces s) (out s) (log s) (down s).
Definition lgo (t : nat) (p : lpcs) (s : st) : st :=
  mkSt (enabled s) (loss s) (fails s) (nxt s) (slot s) (hmap s) (cmap s) (rng s) (ps s) (pa s) (bp s) (tlog s) (guard s) (pc s) (created s) (offered s) (cur s) (fupd (lpc s) t p) (busy s) (noffers s) (ntraces s) (out s) (log s) (down s).
Definition begin (x : el + nat) (s : st) : st :=
  mkSt (enabled s) (loss s) (fails s) (nxt s) (slot s) (hmap s) (cmap s) (rng s) (ps s) (pa s) (bp s) (tlog s) (guard s) (pc s) (created s) (offered s) (cur s) (lpc s) (x :: busy s) (noffers s) (ntraces s) (out s) (log s) (down s).
Definition end_ (x : el + nat) (s : st) : st :=
  mkSt (enabled s) (loss s) (fails s) (nxt s) (slot s) (hmap s) (cmap s) (rng s) (ps s) (pa s) (bp s) (tlog s) (guard s) (pc s) (created s) (offered s) (cur s) (lpc s) (filter (fun y => negb (act_eqb y x)) (busy s)) (noffers s) (ntraces s) (out s) (log s) (down s).
Definition next_trace  (s : st) : st :=
  mkSt (enabled s) (loss s) (fails s) (nxt s) (slot s) (hmap s) (cmap s) (rng s) (ps s) (pa s) (bp s) (tlog s) (guard s) (pc s) (created s) (offered s) (cur s) (lpc s) (busy s) (noffers s) (S (ntraces s)) (out s) (log s) (down s).
Definition set_out (l : list (nat * nat * el)) (s : st) : st :=
  mkSt (enabled s) (loss s) (fails s) (nxt s) (slot s) (hmap s) (cmap s) (rng s) (ps s) (pa s) (bp s) (tlog s) (guard s) (pc s) (created s) (offered s) (cur s) (lpc s) (busy s) (noffers s) (ntraces s) (l) (log s) (down s).
Definition note (x : event) (s : st) : st :=
  mkSt (enabled s) (loss s) (fails s) (nxt s) (slot s) (hmap s) (cmap s) (rng s) (ps s) (pa s) (bp s) (tlog s) (guard s) (pc s) (created s) (offered s) (cur s) (lpc s) (busy s) (noffers s) (ntraces s) (out s) (x :: log s) (down s).
Definition die (f : fault) (s : st) : st :=
  mkSt (enabled s) (loss s) (fails s) (nxt s) (slot s) (hmap s) (cmap s) (rng s) (ps s) (pa s) (bp s) (tlog s) (guard s) (pc s) (created s) (offered s) (cur s) (lpc s) (busy s) (noffers s) (ntraces s) (out s) (log s) (Some f).

Definition init : st :=
  mkSt true false 0%N 0 (fun _ => None) (fun _ => None) (fun _ => None) (fun _ => (0, 0)) (fun _ => false) (fun _ => false)
       (fun _ => false) (fun _ => false) (fun _ => false) (fun _ => Idle) (fun _ => false) (fun _ => false) (fun _ => 0)
       (fun _ => LIdle) [] 0 0 [] [] None.

(** Switching tracing off: is_tracing_enabled = false (TR 239-243, 273, 282,
    367, 429, 483). *)
Definition off (s : st) : st := if enabled s then note EOff (set_enabled false s) else s.

(** Apply [f] to each of a list, stopping when the process has ended. *)
Fixpoint each {A} (f : A -> st -> st) (l : list A) (s : st) : st :=
  match l with
  | [] => s
  | x :: r => let s1 := f x s in match down s1 with Some _ => s1 | None => each f r s1 end
  end.

(** ** Constructing a skeleton *)

(** GenerateSkeletonTracingStructFromEventConfig (ST 141-188, 194-239) and
    RegisterServiceElement (LT 141-177).  The assertion of LT 167 cannot fail
    because the number of slots is a uint16. *)
Definition new_element (c : cfg) (e : el) (s : st) : st :=
  if has_rt c && enabled s then
    if fs c e || fa c e then
      if slots c e =? 0 then die Terminated s
      else if total c <=? nxt s + slots c e - 1 then die Terminated s
      else set_bp e true (set_points e (fs c e) (fa c e) (set_range e (nxt s) (slots c e) s))
    else s
  else s.

(** ** Registering the shared memory *)

(** IsTracingEnabledForInstance (SK 32-92). *)
Definition any_point (c : cfg) (o : nat) (s : st) : bool :=
  has_rt c && existsb (fun e => ps s e || pa s e) (members c o).

(** impl::TracingRuntime::RegisterShmObject (TR 340-391) with
    lola::TracingRuntime::RegisterShmObject (LT 179-201) and
    CacheFileDescriptorForReregisteringShmObject (LT 213-227), for the offer
    number [n] of the service instance [i]. *)
Definition register (i n : nat) (r : rres) (s : st) : st :=
  if enabled s then
    match r with
    | NotTyped => s
    | ROk => let s := note (EReg n) s in
             match hmap s i with None => set_hmap i (Some n) s | Some _ => die Terminated s end
    | RRecoverable => let s := note (EReg n) s in
                      match cmap s i with None => set_cmap i (Some n) s | Some _ => die Terminated s end
    | RFinal => note (EReg n) s
    | RTerminal => off (note (EReg n) s)
    end
  else s.

(** impl::TracingRuntime::UnregisterShmObject (TR 400-448) with LT 203-211,
    241-251; [t]: the tracer answers kTerminalFatal. *)
Definition unregister (i : nat) (t : bool) (s : st) : st :=
  if enabled s then
    match hmap s i with
    | None => set_cmap i None s
    | Some n => let s := note (EUnreg n) (set_hmap i None s) in if t then off s else s
    end
  else s.

(** ** Offering and stopping *)

(** SkeletonEvent::PrepareOffer: Register rolls back the transactions of a
    crashed predecessor and, if [bad], calls DisableTracing on the tracing
    runtime, which is a null pointer if tracing is not configured (MM 327-341,
    skeleton.cpp 584-598); then PrepareOfferCommon (SC 229-281) switches the
    binding's copy of the trace points off if tracing is off, and registers
    the transaction log and the guard of the tracing slots. *)
Definition prepare (c : cfg) (bad : el -> bool) (e : el) (s : st) : st :=
  if bad e && negb (has_rt c) then die Undefined s
  else
    let s := if bad e then off s else s in
    let s := if has_rt c && enabled s then s else set_bp e false s in
    set_prep e (bp s e || getter c e) (bp s e) s.

(** ClearTypeErasedSamplePtrs (LT 436-445). *)
Definition clear (a n : nat) (f : nat -> option (nat * el)) : nat -> option (nat * el) :=
  fun i => if (a <=? i) && (i <? a + n) then None else f i.

(** PrepareStopOfferCommon, ResetGuards (SC 318-344, 459-468) and
    ~TypeErasedSamplePtrsGuard (type_erased_sample_ptrs_guard.cpp 28-36). *)
Definition unprepare (e : el) (s : st) : st :=
  let s := if guard s e then set_slots (clear (fst (rng s e)) (snd (rng s e)) (slot s)) s else s in
  set_prep e false false s.

(** SkeletonBase::OfferService (SB 151-221) as far as tracing is concerned.
    [r]: the tracer's answer; [bad]: elements whose rollback fails; [ok]:
    whether the rest of OfferService succeeds.  If it does not, the binding's
    PrepareStopOffer is called without a callback (SB 171-173), so that the
    memory is not unregistered. *)
Definition offer (c : cfg) (o : nat) (r : rres) (bad : el -> bool) (ok : bool) (s : st) : st :=
  let n := noffers s in
  let reg := any_point c o s in
  let s := next_offer o s in
  let s := if reg then register (inst c o) n r s else s in
  match down s with
  | Some _ => s
  | None =>
      let s := each (prepare c bad) (members c o) s in
      match down s with
      | Some _ => s
      | None =>
          if ok then note (EOffer o n) (set_offered o true s)
          else note (EStop o) (each unprepare (members c o) s)
      end
  end.

(** SkeletonBase::StopOfferService (SB 223-248), lola::Skeleton::PrepareStopOffer
    (skeleton.cpp 428-447). *)
Definition stop (c : cfg) (o : nat) (t : bool) (s : st) : st :=
  let s := each unprepare (members c o) s in
  let s := if any_point c o s then unregister (inst c o) t s else s in
  note (EStop o) (set_offered o false s).

(** ** Sending *)

(** UpdateTracingDataFromTraceResult (ST 38-58). *)
Definition point_off (e : el) (a : bool) (s : st) : st :=
  if a then set_points e (ps s e) false s else set_points e false (pa s e) s.
Definition points_off (e : el) (s : st) : st := set_points e false false s.

(** CreateTracingSend(WithAllocate)Callback and TraceSend(WithAllocate) (ST.h
    150-271): the sample's slot is referenced through the transaction log,
    whose optional is dereferenced without a check (ReferenceSpecificEvent,
    consumer_event_data_control_local_view.cpp 154-190); then Trace (TR 519-543)
    up to the meta data, with GetRegisteredShmObject (TR 452-502).  The handle
    is looked up under the dummy name, the cached file descriptor under the
    element's own name (LT 229-239, 328-340); registering again asserts that
    the name is the dummy one (LT 184-191). *)
Definition send (c : cfg) (e : el) (a : bool) (r : rres) (s : st) : st :=
  let i := inst c (fst e) in
  if (if a then pa s e else ps s e) then
    if tlog s e then
      if enabled s then
        match hmap s i with
        | Some n => begin (inl e) (go e (Meta (loss s) n a) s)
        | None =>
            match (if dummy c e then cmap s i else None) with
            | None => point_off e a s
            | Some n =>
                let s := note (ERetry n) s in
                match r with
                | ROk => begin (inl e) (go e (Meta (loss s) n a) (set_hmap i (Some n) s))
                | RTerminal => points_off e (off s)
                | _ => point_off e a (set_cmap i None s)
                end
            end
        end
      else points_off e s
    else die Undefined s
  else s.

(** GetTraceContextId (LT 383-398): the first unused slot of the range. *)
Fixpoint first_free (f : nat -> option (nat * el)) (a n : nat) : option nat :=
  match n with
  | O => None
  | S m => match f a with None => Some a | Some _ => first_free f (S a) m end
  end.

(** EmplaceTypeErasedSamplePtr (LT 405-427) and TR 551-593.  Between the check
    and the store of LT 417-425 only the callbacks, which empty slots, and
    other elements, which use other slots, can run. *)
Definition emplace (c : cfg) (e : el) (s : st) : option st :=
  match pc s e with
  | Meta f n a =>
      if nxt s <=? fst (rng s e) then Some (die Terminated s)
      else match first_free (slot s) (fst (rng s e)) (snd (rng s e)) with
           | None => Some (note ELost (set_loss true (end_ (inl e) (go e Idle s))))
           | Some id => Some (next_trace (set_slot id (Some (ntraces s, e)) (go e (Placed f n a id (ntraces s)) s)))
           end
  | _ => None
  end.

(** GenericTraceAPI::Trace, and ClearTypeErasedSamplePtr if it failed (TR
    595-601). *)
Definition call (e : el) (t : tres) (s : st) : option st :=
  match pc s e with
  | Placed f n a id k =>
      let s := go e (Fin a t) s in
      match t with
      | TOk => Some (note (ERec f) (note (ETraced k e id n) (set_out ((k, id, e) :: out s) s)))
      | TTerminal => Some (set_slot id None s)
      | _ => Some (note ELost (set_slot id None s))
      end
  | _ => None
  end.

(** ProcessTraceCallResult (TR 257-294); [all]: every trace point of the caller
    is to be disabled, [one]: the trace point. *)
Inductive verdict := Keep | One | All.

Definition max_failures : N := 4294967295%N.  (* tracing_runtime.h 80 *)

Definition process (t : tres) (s : st) : st * verdict :=
  match t with
  | TOk => (set_fails 0%N (set_loss false s), Keep)
  | TTerminal => (off s, All)
  | _ =>
      let s := set_loss true (set_fails (fails s + 1)%N s) in
      if (max_failures <=? fails s)%N then (off s, All)
      else match t with TFinal => (s, One) | _ => (s, Keep) end
  end.

Definition finish (e : el) (s : st) : option st :=
  match pc s e with
  | Fin a t =>
      let (s, v) := process t (end_ (inl e) (go e Idle s)) in
      Some match v with Keep => s | One => point_off e a s | All => points_off e s end
  | _ => None
  end.

(** Tracing local data (TR 605-627): the calls of proxies.  Their own trace
    points are not modelled: any number of calls is possible. *)
Definition lsend (t : nat) (s : st) : option st :=
  match lpc s t with
  | LIdle => Some (if enabled s then begin (inr t) (lgo t (LMeta (loss s)) s) else s)
  | _ => None
  end.

Definition lcall (t : nat) (r : tres) (s : st) : option st :=
  match lpc s t with
  | LMeta f =>
      let s := lgo t (LFin r) s in
      Some match r with TOk => note (ERec f) s | TTerminal => s | _ => note ELost s end
  | _ => None
  end.

Definition lfinish (t : nat) (s : st) : option st :=
  match lpc s t with
  | LFin r => Some (fst (process r (end_ (inr t) (lgo t LIdle s))))
  | _ => None
  end.

(** The trace-done callback (LT 104-114): the check for an unused slot only
    affects the logging. *)
Fixpoint find_trace (k : nat) (l : list (nat * nat * el)) : option nat :=
  match l with
  | [] => None
  | (j, id, _) :: r => if j =? k then Some id else find_trace k r
  end.

Definition done (k : nat) (s : st) : option st :=
  match find_trace k (out s) with
  | Some id => Some (note (EDone k) (set_slot id None (set_out (filter (fun x => negb (fst (fst x) =? k)) (out s)) s)))
  | None => None
  end.

(** ** Steps *)

Inductive label :=
| Create (o : nat)                              (* a skeleton is constructed *)
| Offer (o : nat) (r : rres) (bad : el -> bool) (ok : bool) (* OfferService is called while not offered *)
| Stop (o : nat) (t : bool)                     (* StopOfferService is called while offered *)
| Send (e : el) (a : bool) (r : rres)           (* Send or Update of an offered element, with Allocate if a *)
| Emplace (e : el) | Call (e : el) (t : tres) | Finish (e : el) (* its next step *)
| LSend (t : nat) | LCall (t : nat) (r : tres) | LFinish (t : nat) (* a trace of local data *)
| Done (k : nat)                                (* the tracer's callback for a trace it accepted *)
| Disable.                                      (* DisableTracing *)

Definition idle (s : st) (e : el) : bool := match pc s e with Idle => true | _ => false end.

Definition step (c : cfg) (s : st) (l : label) : option st :=
  match down s with
  | Some _ => None
  | None =>
      match l with
      | Create o => if created s o then None else Some (set_created o (each (new_element c) (members c o) s))
      | Offer o r bad ok => if created s o && negb (offered s o) then Some (offer c o r bad ok s) else None
      | Stop o t => if offered s o && forallb (idle s) (members c o) then Some (stop c o t s) else None
      | Send e a r =>
          if offered s (fst e) && (snd e <? nel c (fst e)) && idle s e then Some (send c e a r s) else None
      | Emplace e => emplace c e s
      | Call e t => call e t s
      | Finish e => finish e s
      | LSend t => if has_rt c then lsend t s else None
      | LCall t r => lcall t r s
      | LFinish t => lfinish t s
      | Done k => done k s
      | Disable => if has_rt c then Some (off s) else None
      end
  end.

(** Reachable states, with the labels so far and a condition on each step. *)
Inductive reach (c : cfg) (ok : st -> label -> Prop) : list label -> st -> Prop :=
| reach_init : reach c ok [] init
| reach_step ls s l s' : reach c ok ls s -> ok s l -> step c s l = Some s' -> reach c ok (ls ++ [l]) s'.
