(** Receive-handler notification inside a provider process: the tables of local handlers and of
    interested remote processes, the provider's "handlers exist" flag, and the notification itself.
    Models score/mw/com/impl/bindings/lola/messaging/message_passing_service_instance.cpp (MPSI),
    messaging/node_identifier_copier.h and skeleton_event_common.h (SEC) for one event and one
    quality level; different events and levels have separate entries in every table. *)
From Verif Require Import Base.

(** * The tables and the flag, as a concurrent machine *)

(** Where a thread is inside a call. *)
Inductive pc :=
| Idle
| PCb (v : bool)              (* about to invoke the status callback with v: MPSI 512-520, 567-575, 1091-1099, 1215-1223 *)
| PRReg (p : nat) (local : bool)   (* HandleRegisterNotificationMsg after reading the handlers, MPSI 481 *)
| PRUnreg (p : nat) (local : bool) (* HandleUnregisterNotificationMsg after reading the handlers, MPSI 541 *)
| POffer1                     (* RegisterEventNotificationExistenceChangedCallback, callback stored: MPSI 1473 *)
| POffer2 (local : bool)      (* handlers read: MPSI 1480 *)
| POffer3 (any : bool)        (* nodes read: MPSI 1488 *)
| PStop.                      (* PrepareStopOfferCommon, callback erased, flag not yet reset: SEC 331 *)

Record st := mkSt {
  hs : list nat;        (* event_update_handlers_[event]: registration numbers, ascending *)
  ns : list nat;        (* event_update_interested_nodes_[event]: process ids *)
  cb : bool;            (* the provider's callback is in handler_status_change_callbacks_ *)
  flag : bool;          (* *_event_update_notifications_registered_ of the provider's event *)
  nextno : nat;         (* cur_registration_no_ *)
  pcs : nat -> pc       (* threads *)
}.

Definition init : st := mkSt [] [] false false 0 (fun _ => Idle).

Definition set_pc (s : st) (t : nat) (p : pc) : st :=
  mkSt (hs s) (ns s) (cb s) (flag s) (nextno s) (fupd (pcs s) t p).

Definition nonempty (l : list nat) : bool := match l with [] => false | _ => true end.
Definition member (p : nat) (l : list nat) : bool := existsb (Nat.eqb p) l.
Definition without (p : nat) (l : list nat) : list nat := filter (fun q => negb (Nat.eqb p q)) l.

Inductive op :=
| LocalRegister                 (* RegisterEventNotification *)
| LocalUnregister (no : nat)    (* UnregisterEventNotification *)
| RemoteRegister (p : nat)      (* HandleRegisterNotificationMsg *)
| RemoteUnregister (p : nat)    (* HandleUnregisterNotificationMsg *)
| Outdated (p : nat)            (* HandleOutdatedNodeIdMsg *)
| Offer                         (* PrepareOfferCommon *)
| StopOffer.                    (* PrepareStopOfferCommon *)

(** First step of a call, up to and including its first critical section.
    - LocalRegister: MPSI 1046-1082, the handlers' write lock is held over the read of the nodes,
      so the critical section takes effect at that read.
    - LocalUnregister: MPSI 1164-1196, likewise. The handlers are sorted by number, so
      std::lower_bound finds the entry with the number if there is one.
    - RemoteRegister, RemoteUnregister: MPSI 477-481, 537-541.
    - Outdated: MPSI 589-594 (the removal of the client from the cache is not modelled).
    - Offer: MPSI 1471-1473.  StopOffer: MPSI 1511-1513. *)
Definition start (s : st) (t : nat) (o : op) : st :=
  match o with
  | LocalRegister =>
      let was_empty := negb (nonempty (hs s)) in
      let notify := was_empty && negb (nonempty (ns s)) in
      set_pc (mkSt (hs s ++ [nextno s]) (ns s) (cb s) (flag s) (S (nextno s)) (pcs s))
             t (if notify then PCb true else Idle)
  | LocalUnregister no =>
      if member no (hs s)
      then let h := without no (hs s) in
           let notify := negb (nonempty h) && negb (nonempty (ns s)) in
           set_pc (mkSt h (ns s) (cb s) (flag s) (nextno s) (pcs s))
                  t (if notify then PCb false else Idle)
      else s
  | RemoteRegister p => set_pc s t (PRReg p (nonempty (hs s)))
  | RemoteUnregister p => set_pc s t (PRUnreg p (nonempty (hs s)))
  | Outdated p => mkSt (hs s) (without p (ns s)) (cb s) (flag s) (nextno s) (pcs s)
  | Offer => set_pc (mkSt (hs s) (ns s) true (flag s) (nextno s) (pcs s)) t POffer1
  | StopOffer => set_pc (mkSt (hs s) (ns s) false (flag s) (nextno s) (pcs s)) t PStop
  end.

(** The following step of a call.
    - PCb: the callback, if registered, stores the flag (SEC 293-300, 447-457).
    - PRReg: MPSI 484-501.  PRUnreg: MPSI 543-556.
    - POffer1..3: MPSI 1476-1505.  PStop: SEC 334-335. *)
Definition step (s : st) (t : nat) : st :=
  match pcs s t with
  | Idle => s
  | PCb v =>
      set_pc (mkSt (hs s) (ns s) (cb s) (if cb s then v else flag s) (nextno s) (pcs s)) t Idle
  | PRReg p local =>
      let first := negb (nonempty (ns s)) in
      let n := if member p (ns s) then ns s else ns s ++ [p] in
      set_pc (mkSt (hs s) n (cb s) (flag s) (nextno s) (pcs s))
             t (if first && negb local then PCb true else Idle)
  | PRUnreg p local =>
      let found := member p (ns s) in
      let n := without p (ns s) in
      set_pc (mkSt (hs s) n (cb s) (flag s) (nextno s) (pcs s))
             t (if found && negb (nonempty n) && negb local then PCb false else Idle)
  | POffer1 => set_pc s t (POffer2 (nonempty (hs s)))
  | POffer2 local => set_pc s t (POffer3 (local || nonempty (ns s)))
  | POffer3 any =>
      set_pc (mkSt (hs s) (ns s) (cb s) (if any && cb s then true else flag s) (nextno s) (pcs s)) t Idle
  | PStop => set_pc (mkSt (hs s) (ns s) (cb s) false (nextno s) (pcs s)) t Idle
  end.

(** Labels: thread t begins a call, or takes its next step. *)
Inductive label := Begin (t : nat) (o : op) | Go (t : nat).

(** A thread begins a call only when it is idle. *)
Definition apply (s : st) (l : label) : option st :=
  match l with
  | Begin t o => match pcs s t with Idle => Some (start s t o) | _ => None end
  | Go t => match pcs s t with Idle => None | _ => Some (step s t) end
  end.

(** SEC 411-431 NotifyConsumersIfHandlersRegistered, called by Send after the sample is published:
    the notification happens exactly if the flag is set (QM additionally needs a QM side that has
    not been disconnected). *)
Definition send_notifies (s : st) : bool := flag s.

(** * The notification itself *)

(** kMaxReceiveHandlersPerEvent and the capacity of NodeIdTmpBufferType
    (message_passing_service_instance.h, node_identifier_copier.h:29) *)
Definition max_handlers : nat := 5.
Definition buffer_size : nat := 20.

(** MPSI 950-1008 NotifyEventLocally: the handlers called, in order. The handlers are given with
    whether their owner still exists (weak_ptr::lock succeeds). *)
Definition notify_locally (handlers : list (nat * bool)) : list nat :=
  map fst (filter snd (firstn max_handlers handlers)).

(** node_identifier_copier.h:50-91 CopyNodeIdentifiers on one event's set (ascending): the copied
    ids from [start] on, and whether further ones are available *)
Definition copy_ids (set : list Z) (start : Z) : list Z * bool :=
  let from := filter (fun p => Z.leb start p) set in
  (firstn buffer_size from, Nat.ltb buffer_size (length from)).

Definition pid_max : Z := 2147483647.

(** MPSI 874-948 NotifyEventRemote: the processes messaged, in order. [sets k] is the content of
    the set at the k-th copy (it may change between copies); [rounds] is the number of copies left
    (255 at the beginning). The second component tells whether the round limit cut the loop. *)
Fixpoint notify_remote (rounds : nat) (sets : nat -> list Z) (k : nat) (start : Z) : list Z * bool :=
  match rounds with
  | O => ([], true)
  | S r =>
      let '(ids, further) := copy_ids (sets k) start in
      if further
      then let last_id := List.last ids 0%Z in
           if Z.ltb last_id pid_max
           then let '(rest, cut) := notify_remote r sets (S k) (last_id + 1) in (ids ++ rest, cut)
           else (ids, false)
      else (ids, false)
  end.

Definition notify_event_remote (sets : nat -> list Z) : list Z * bool :=
  notify_remote 255 sets 0 0%Z.
