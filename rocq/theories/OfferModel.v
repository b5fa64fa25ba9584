(** * A provider offers, stops offering and offers again a service with
    events and fields

    Models the provider's API above the transport: [SkeletonBase::OfferService]
    and [StopOfferService] (score/mw/com/impl/skeleton_base.cpp, "SB"), the
    preparation of every event (skeleton_event_base.h, "SE") and field
    (skeleton_field_base.h, "SFB"; skeleton_field.h, "SF"), and the part of
    the binding they drive (bindings/lola/skeleton.cpp, "LS").  The provider's
    thread proceeds in small steps; between any two of them a consumer's call
    of a field's getter or setter may run on the messaging thread.

    Simplifications: service elements are numbered, events first and then
    fields, in the order of the containers [events_] and [fields_]; a field's
    value is a number; an element's memory holds only the latest sample;
    the user calls the skeleton from one thread; mock objects, tracing, and
    gateway-forwarded services are left out.  An element prepared a second
    time without having been stopped in between replaces its guard of the
    transaction log (skeleton_event_common.h 257-263; the destructor of the
    old guard writes to the old memory, transaction_log_registration_guard.cpp):
    undefined behaviour if that memory was removed, and no further effect
    in the model otherwise. *)

From Coq Require Import List Arith Bool Lia.
From Verif Require Import Base.
Import ListNotations.

(** The service: [n] elements, the first [ne] of them events; which fields
    have a getter and a setter (SF 40-140: the tags WithGetter, WithSetter). *)
Record cfg := mkCfg { n : nat; ne : nat; getter : nat -> bool; setter : nat -> bool }.

(** SB 103-149: events are in [events_], fields in [fields_]. *)
Definition is_field (c : cfg) (k : nat) : bool := ne c <=? k.

(** The error codes of com_error.h that OfferService returns (SB 116, 140,
    142, 169, 194, 204). *)
Inductive err := BindingFailure | FieldValueIsNotValid.

(** Position of the provider's thread.  SB 151-221 for offering, SB 223-248
    for stopping. *)
Inductive pc :=
| Idle
| Preparing                       (* SB 164: about to call binding_->PrepareOffer *)
| Elem (k : nat)                  (* SB 106-121, 128-147: about to prepare element k *)
| Deferred (k : nat)              (* SFB 88: field k prepared, its initial value not sent yet *)
| Verify                          (* SB 190 *)
| Announce                        (* SB 197 *)
| Undo (l : list nat) (e : err)   (* the guards of the elements l, then that of the binding *)
| Withdraw                        (* SB 232 *)
| StopElem (k : nat)              (* SB 234-241 *)
| StopBind                        (* SB 244 *)
| Terminated                      (* an assertion failed *)
| Undefined.                      (* undefined behaviour *)

Inductive event :=
| Started                          (* the provider's process starts and creates the skeleton *)
| Updated (f v : nat)              (* Update(f, v) returned success *)
| UpdateFailed (f v : nat)         (* Update(f, v) returned an error *)
| Registered (f : nat)             (* RegisterSetHandler(f) returned success *)
| SetDone (f w : nat)              (* a consumer's Set was answered with the accepted value w *)
| SetFailed (f w : nat)            (* a consumer's Set was answered with an error *)
| Got (f : nat) (r : option nat)   (* a consumer's Get was answered; None: with an error *)
| Offered                          (* OfferService returned success *)
| OfferFailed (e : err)            (* OfferService returned an error *)
| Stopped.                         (* StopOfferService returned *)

Record st := mkSt {
  at_ : pc;
  flag : bool;                    (* SkeletonBase::service_offered_flag_ *)
  eflag : nat -> bool;            (* SkeletonEventBase::service_offered_flag_ *)
  eprep : nat -> bool;            (* the binding's event refers to its shared memory *)
  called : nat -> bool;           (* SkeletonFieldBase::was_prepare_offer_called_ *)
  initv : nat -> option nat;      (* SkeletonField::initial_field_value_ *)
  seth : nat -> bool;             (* a set handler is registered *)
  geth : nat -> bool;             (* the get handler is registered *)
  gone : nat -> bool;             (* the event still refers to memory that was removed *)
  mem : option (nat -> option nat); (* the service's shared memory: each field's latest value *)
  held : bool;                    (* the provider's process refers to that memory *)
  marker : bool;                  (* service_instance_usage_marker_file_ has a value *)
  meth : bool;                    (* the binding accepts method calls *)
  disc : bool;                    (* service discovery announces the service *)
  users : bool;                   (* some consumer holds the usage marker file *)
  log : list event                (* newest first *)
}.

Definition init : st :=
  mkSt Idle false (fun _ => false) (fun _ => false) (fun _ => false) (fun _ => None) (fun _ => false) (fun _ => false) (fun _ => false)
       None false false false false false [Started].

(** Updates of single components. *)
Definition go (p : pc) (s : st) : st :=
  mkSt p (flag s) (eflag s) (eprep s) (called s) (initv s) (seth s) (geth s) (gone s) (mem s) (held s) (marker s) (meth s) (disc s) (users s) (log s).
Definition note (e : event) (s : st) : st :=
  mkSt (at_ s) (flag s) (eflag s) (eprep s) (called s) (initv s) (seth s) (geth s) (gone s) (mem s) (held s) (marker s) (meth s) (disc s) (users s) (e :: log s).
Definition set_flag (b : bool) (s : st) : st :=
  mkSt (at_ s) b (eflag s) (eprep s) (called s) (initv s) (seth s) (geth s) (gone s) (mem s) (held s) (marker s) (meth s) (disc s) (users s) (log s).
Definition set_elem (k : nat) (b : bool) (s : st) : st :=
  mkSt (at_ s) (flag s) (fupd (eflag s) k b) (fupd (eprep s) k b) (called s) (initv s) (seth s) (geth s) (gone s) (mem s) (held s) (marker s) (meth s) (disc s) (users s) (log s).
Definition set_called (k : nat) (s : st) : st :=
  mkSt (at_ s) (flag s) (eflag s) (eprep s) (fupd (called s) k true) (fupd (initv s) k None) (seth s) (geth s) (gone s) (mem s) (held s) (marker s) (meth s) (disc s) (users s) (log s).
Definition set_init (k v : nat) (s : st) : st :=
  mkSt (at_ s) (flag s) (eflag s) (eprep s) (called s) (fupd (initv s) k (Some v)) (seth s) (geth s) (gone s) (mem s) (held s) (marker s) (meth s) (disc s) (users s) (log s).
Definition set_seth (k : nat) (s : st) : st :=
  mkSt (at_ s) (flag s) (eflag s) (eprep s) (called s) (initv s) (fupd (seth s) k true) (geth s) (gone s) (mem s) (held s) (marker s) (meth s) (disc s) (users s) (log s).
Definition set_geth (k : nat) (s : st) : st :=
  mkSt (at_ s) (flag s) (eflag s) (eprep s) (called s) (initv s) (seth s) (fupd (geth s) k true) (gone s) (mem s) (held s) (marker s) (meth s) (disc s) (users s) (log s).
Definition set_shm (g : nat -> bool) (m : option (nat -> option nat)) (h mk : bool) (s : st) : st :=
  mkSt (at_ s) (flag s) (eflag s) (eprep s) (called s) (initv s) (seth s) (geth s) g m h mk (meth s) (disc s) (users s) (log s).
Definition set_meth (b : bool) (s : st) : st :=
  mkSt (at_ s) (flag s) (eflag s) (eprep s) (called s) (initv s) (seth s) (geth s) (gone s) (mem s) (held s) (marker s) b (disc s) (users s) (log s).
Definition set_disc (b : bool) (s : st) : st :=
  mkSt (at_ s) (flag s) (eflag s) (eprep s) (called s) (initv s) (seth s) (geth s) (gone s) (mem s) (held s) (marker s) (meth s) b (users s) (log s).
Definition set_users (b : bool) (s : st) : st :=
  mkSt (at_ s) (flag s) (eflag s) (eprep s) (called s) (initv s) (seth s) (geth s) (gone s) (mem s) (held s) (marker s) (meth s) (disc s) b (log s).

(** The guards that run when OfferService returns after having prepared the
    elements below [k]: those of the fields are destroyed before those of the
    events (SB 125-149, 175-185, 210-219; ScopeExit in a vector). *)
Definition guards (c : cfg) (k : nat) : list nat :=
  filter (is_field c) (seq 0 k) ++ filter (fun i => negb (is_field c i)) (seq 0 k).

Definition fail (c : cfg) (k : nat) (e : err) (s : st) : st := go (Undo (guards c k) e) s.

(** SkeletonEventBase::PrepareStopOffer (SE 67-74). *)
Definition stop_elem (k : nat) (s : st) : st := if eflag s k then set_elem k false s else s.

(** lola::Skeleton::PrepareStopOffer (LS 428-520): method calls are refused
    from now on (455-471); the marker file is used without a check (478); with
    a consumer attached nothing is removed (485-489), otherwise the memory and
    the marker file are (500-508, 519).  [None]: undefined behaviour. *)
Definition bind_stop (s : st) : option st :=
  if marker s then
    if users s then Some (set_meth false s) else Some (set_shm (eprep s) None false false (set_meth false s))
  else None.

(** lola::Skeleton::PrepareOffer (LS 286-420).  [ok]: creating or opening the
    files and the memory succeeds.  Without a consumer the old memory is
    removed first, which asserts that the process does not refer to it
    (RemoveStaleSharedMemoryArtefacts, LS 331-345; shared_memory_factory_impl.cpp
    RemoveStaleArtefacts); with a consumer it is used again (347-363). *)
Definition bind_prepare (c : cfg) (ok : bool) (s : st) : st :=
  if users s then
    if ok then go (Elem 0) (set_meth true (set_shm (gone s) (mem s) true true s))
    else note (OfferFailed BindingFailure) (go Idle (set_shm (gone s) (mem s) (held s) true s))
  else if held s then go Terminated s
  else if ok then go (Elem 0) (set_meth true (set_shm (gone s) (Some (fun _ => None)) true true s))
  else note (OfferFailed BindingFailure) (go Idle (set_shm (gone s) None false true s)).

(** SkeletonEvent::Send (skeleton_event.h 184-236) of the element [k] with
    value [v]: an error if the element is not offered, or if no slot is free
    ([ok] = false).  An offered element whose memory is gone would be written
    to nevertheless: undefined behaviour. *)
Inductive outcome := Sent (s : st) | Error | Ub.

Definition send (ok : bool) (k v : nat) (s : st) : outcome :=
  if eflag s k then
    match mem s with
    | Some m => if ok then Sent (set_shm (gone s) (Some (fupd m k (Some v))) (held s) (marker s) s) else Error
    | None => Ub
    end
  else Error.

Inductive label :=
| Start                            (* the provider's process ends at any point and starts again *)
| Offer | Stop                     (* the provider calls OfferService, StopOfferService *)
| Go (ok : bool)                   (* its next step; ok: the operating system's part succeeds *)
| Update (f v : nat) (ok : bool)   (* the provider calls Update *)
| RegisterSet (f : nat)            (* the provider registers a set handler *)
| Get (f : nat)                    (* a consumer's Get is executed *)
| Set_ (f w : nat) (ok : bool)     (* a consumer's Set is executed, its handler accepts w *)
| Attach | Detach.                 (* the first consumer attaches, the last one detaches *)

(** One step of the provider's thread. *)
Definition step_go (c : cfg) (ok : bool) (s : st) : option st :=
  match at_ s with
  | Preparing => Some (bind_prepare c ok s)
  | Elem k =>
      if k <? n c then
        if is_field c k then
          if called s k then
            if getter c k && gone s k then Some (go Undefined s)
            else Some (go (Elem (S k)) (set_elem k true s))                                (* SFB 98 *)
          else if setter c k && negb (seth s k) then Some (fail c k BindingFailure s)      (* SFB 63-68, SB 142 *)
          else match initv s k with
               | None => Some (fail c k FieldValueIsNotValid s)                            (* SFB 70-74, SB 140 *)
               | Some _ =>
                   if getter c k && gone s k then Some (go Undefined s)
                   else Some (go (Deferred k) (set_elem k true
                                (if getter c k then set_geth k s else s)))                 (* SFB 76-86 *)
               end
        else Some (go (Elem (S k)) (set_elem k true s))                                    (* SB 106-121 *)
      else Some (go Verify s)
  | Deferred k =>                                                                          (* SFB 88-96, SF 425-439 *)
      match initv s k with
      | None => Some (go Terminated s)
      | Some v =>
          match send ok k v s with
          | Sent s1 => Some (go (Elem (S k)) (set_called k s1))
          | Error => Some (fail c k BindingFailure s)
          | Ub => Some (go Undefined s)
          end
      end
  | Verify => if ok then Some (go Announce s) else Some (fail c (n c) BindingFailure s)    (* SB 190-195 *)
  | Announce =>                                                                            (* SB 197-220 *)
      if disc s then Some (fail c (n c) BindingFailure s)       (* service_discovery_client.cpp 147-: already offered *)
      else if ok then Some (note Offered (go Idle (set_flag true (set_disc true s))))
      else Some (fail c (n c) BindingFailure s)
  | Undo (k :: l) e => Some (go (Undo l e) (stop_elem k s))
  | Undo [] e =>                                                                           (* SB 171-173 *)
      match bind_stop s with
      | Some s1 => Some (note (OfferFailed e) (go Idle s1))
      | None => Some (go Undefined s)
      end
  | Withdraw => Some (go (StopElem 0) (set_disc false s))                                  (* SB 232 *)
  | StopElem k =>
      if k <? n c then Some (go (StopElem (S k)) (stop_elem k s)) else Some (go StopBind s)
  | StopBind =>                                                                            (* SB 244-245 *)
      match bind_stop s with
      | Some s1 => Some (note Stopped (go Idle (set_flag false s1)))
      | None => Some (go Undefined s)
      end
  | Idle | Terminated | Undefined => None
  end.

(** Whether the provider's process runs. *)
Definition running (s : st) : bool := match at_ s with Terminated | Undefined => false | _ => true end.

Definition idle (s : st) : bool := match at_ s with Idle => true | _ => false end.

Definition step (c : cfg) (s : st) (l : label) : option st :=
  match l with
  | Start =>
      Some (mkSt Idle false (fun _ => false) (fun _ => false) (fun _ => false) (fun _ => None) (fun _ => false) (fun _ => false) (fun _ => false)
                 (mem s) false false false false (users s) (Started :: log s))
  | Offer => if idle s then Some (go Preparing s) else None                                (* SB 151: no check of the flag *)
  | Stop => if idle s then
              if flag s then Some (go Withdraw s) else Some (note Stopped s)               (* SB 230 *)
            else None
  | Go ok => step_go c ok s
  | Update f v ok =>                                                                       (* SF 368-381 *)
      if idle s && is_field c f && (f <? n c) then
        if called s f then
          match send ok f v s with
          | Sent s1 => Some (note (Updated f v) s1)
          | Error => Some (note (UpdateFailed f v) s)
          | Ub => Some (go Undefined s)
          end
        else Some (note (Updated f v) (set_init f v s))
      else None
  | RegisterSet f => if idle s && is_field c f && (f <? n c) then Some (note (Registered f) (set_seth f s)) else None   (* SF 151-206 *)
  | Get f =>                                                                               (* SF 470-484 *)
      if running s && meth s && is_field c f && (f <? n c) && getter c f && geth s f then
        if eprep s f then                     (* skeleton_event_common.h 125-135: asserts that the event is prepared *)
          match mem s with
          | Some m => Some (note (Got f (m f)) s)
          | None => Some (go Undefined s)
          end
        else Some (go Terminated s)
      else None
  | Set_ f w ok =>                                                                         (* SF 176-201 *)
      if running s && meth s && is_field c f && (f <? n c) && setter c f && seth s f then
        match send ok f w s with
        | Sent s1 => Some (note (SetDone f w) s1)
        | Error => Some (note (SetFailed f w) s)
        | Ub => Some (go Undefined s)
        end
      else None
  | Attach => match mem s with Some _ => Some (set_users true s) | None => None end
  | Detach => Some (set_users false s)
  end.

(** Executions from the start whose steps all satisfy [ok]. *)
Inductive reach (c : cfg) (ok : st -> label -> Prop) : list label -> st -> Prop :=
| reach_init : reach c ok [] init
| reach_step : forall ls s l s', reach c ok ls s -> ok s l -> step c s l = Some s' -> reach c ok (ls ++ [l]) s'.
