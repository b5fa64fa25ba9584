(** Receive handlers of one consumer process for one event whose provider lives in another process:
    the registrations of the proxies, the per-process count of them, the register / unregister
    messages sent to the provider's process, and what the provider's process knows.
    Paths relative to /repo/score/mw/com/impl (L/ = bindings/lola, MPSI =
    L/messaging/message_passing_service_instance.cpp).

    Simplifications:
    - one event of one service instance; the messaging of one quality level;
    - the provider's process is never the consumer's own (target_node_id != self_pid_);
    - a call's bookkeeping is one step, at the end of which the messages it has to send are queued;
      the messages of one call are sent in order, those of different calls in any order.  A call
      that both removes and adds a registration therefore does both before its first message;
    - the shared memory part of Subscribe is an outcome ([ok]); that part is the subject of
      SubModel.v.  Scopes, tracing and logging are left out (ProxyModel.v has the scopes);
    - registration numbers are reduced to "has one": every proxy keeps its own number
      (L/subscription_helpers.h:64), and the table of handlers finds it (MPSI:1164-1195). *)
From Verif Require Export Base.

(** L/subscription_state_machine_states.h *)
Inductive sub := NotSub | Pend | Subd.

(** One ProxyEvent. *)
Record px := mkX {
  x_live : bool;       (* the proxy exists *)
  x_st : sub;          (* current_state_idx_ *)
  x_avail : bool;      (* provider_service_instance_is_available_ *)
  x_pid : N;           (* event_receive_handler_manager_.event_source_pid_ *)
  x_stored : bool;     (* event_receiver_handler_ has a value *)
  x_reg : bool;        (* event_receive_handler_manager_.registration_number_ has a value *)
  x_set : bool         (* ProxyEventBase::receive_handler_ptr_ is not null *)
}.

Definition xs_st x v := mkX (x_live x) v (x_avail x) (x_pid x) (x_stored x) (x_reg x) (x_set x).
Definition xs_avail x v := mkX (x_live x) (x_st x) v (x_pid x) (x_stored x) (x_reg x) (x_set x).
Definition xs_pid x v := mkX (x_live x) (x_st x) (x_avail x) v (x_stored x) (x_reg x) (x_set x).
Definition xs_stored x v := mkX (x_live x) (x_st x) (x_avail x) (x_pid x) v (x_reg x) (x_set x).
Definition xs_reg x v := mkX (x_live x) (x_st x) (x_avail x) (x_pid x) (x_stored x) v (x_set x).
Definition xs_set x v := mkX (x_live x) (x_st x) (x_avail x) (x_pid x) (x_stored x) (x_reg x) v.
Definition xs_gone x := mkX false (x_st x) (x_avail x) (x_pid x) (x_stored x) (x_reg x) (x_set x).

(** kRegisterEventNotifier / kUnregisterEventNotifier with the process it is addressed to *)
Inductive msg := MReg (pid : N) | MUnreg (pid : N).

(** event_update_remote_registrations_ at this event: NodeCounter {node_id, counter} *)
Definition entry := option (N * N).

(** The process-wide bookkeeping and the messages of the running call;
    the third component: the assertion of MPSI:1386 failed. *)
Definition breg : Type := entry * list msg * bool.

(** MPSI:1330-1366 RegisterEventNotificationRemote; counter is a std::uint16_t *)
Definition register_remote (b : breg) (t : N) : breg :=
  let '(e, ms, ab) := b in
  let '(node, c) := match e with
                    | None => (t, 1%N)
                    | Some (node, c) => if (node =? t)%N then (node, (c + 1) mod two16)%N else (t, 1%N)
                    end in
  (Some (node, c), if (c =? 1)%N then ms ++ [MReg t] else ms, ab).

(** MPSI:1368-1447 UnregisterEventNotificationRemote *)
Definition unregister_remote (b : breg) (t : N) : breg :=
  let '(e, ms, ab) := b in
  match e with
  | None => b
  | Some (node, c) =>
      if (c =? 0)%N then (e, ms, true)
      else if negb (node =? t)%N then b
      else if (c - 1 =? 0)%N then (None, ms ++ [MUnreg t], ab)
      else (Some (node, c - 1)%N, ms, ab)
  end.

(** MPSI:1104-1154 ReregisterEventNotification *)
Definition reregister_remote (b : breg) (t : N) : breg :=
  let '(e, ms, ab) := b in
  match e with
  | None => b
  | Some (node, c) =>
      if (node =? t)%N then (Some (node, (c + 1) mod two16)%N, ms, ab)
      else (Some (t, 1%N), ms ++ [MReg t], ab)
  end.

(** L/subscription_helpers.cpp:50-59 *)
Definition mgr_unregister (x : px) (b : breg) : px * breg :=
  if x_reg x then (xs_reg x false, unregister_remote b (x_pid x)) else (x, b).
(** L/subscription_helpers.cpp:28-34 with MPSI:1040-1102 *)
Definition mgr_register (x : px) (b : breg) : px * breg :=
  let '(x, b) := mgr_unregister x b in
  (xs_reg x true, register_remote b (x_pid x)).
(** L/subscription_helpers.cpp:36-48 *)
Definition mgr_reregister (x : px) (b : breg) : px * breg :=
  if x_stored x then mgr_register x b
  else if x_reg x then (x, reregister_remote b (x_pid x)) else (x, b).

(** proxy_event_base.cpp:76-113, L/subscription_not_subscribed_states.cpp:88-110 after the shared
    memory part succeeded; a further Subscribe changes nothing (…subscribed_states.cpp:29-53) *)
Definition x_subscribe (x : px) (b : breg) : px * breg :=
  match x_st x with
  | NotSub =>
      if x_avail x then
        let '(x, b) := if x_stored x
                       then (let '(x, b) := mgr_register x b in (xs_stored x false, b))
                       else (x, b) in
        (xs_st x Subd, b)
      else (xs_st x Pend, b)
  | _ => (x, b)
  end.

(** proxy_event_base.cpp:115-152, L/subscription_subscribed_states.cpp:55-61,
    L/subscription_subscription_pending_states.cpp:57-63, L/subscription_not_subscribed_states.cpp:157-170;
    is_subscribed_flag_ is set exactly while the state is not NotSub *)
Definition x_unsubscribe (x : px) (b : breg) : px * breg :=
  match x_st x with
  | NotSub => (x, b)
  | _ => mgr_unregister (xs_st x NotSub) b
  end.

(** proxy_event_base.cpp:206-237, L/subscription_{not_subscribed,subscription_pending,subscribed}_states.cpp
    :126-129, :83-86, :76-79 *)
Definition x_sethandler (x : px) (b : breg) : px * breg :=
  let x := xs_set x true in
  match x_st x with
  | Subd => mgr_register x b
  | _ => (xs_stored x true, b)
  end.

(** proxy_event_base.cpp:239-263, … :131-134, :88-91, :81-84 *)
Definition x_unsethandler (x : px) (b : breg) : px * breg :=
  if x_set x then
    let x := xs_set x false in
    match x_st x with
    | Subd => mgr_unregister x b
    | _ => (xs_stored x false, b)
    end
  else (x, b).

(** L/proxy_event_common.cpp:116-127 with … :115-124, :65-81, :63-74; the abort of a second stop
    notification is std::terminate in L/subscription_subscription_pending_states.cpp:65-72 *)
Definition x_notify (x : px) (b : breg) (available : bool) (pid : N) : px * breg :=
  if available then
    match x_st x with
    | NotSub => (xs_avail (xs_pid x pid) true, b)
    | Pend =>
        let x := xs_pid (xs_avail x true) pid in
        let '(x, b) := mgr_reregister x b in
        (xs_st (xs_stored x false) Subd, b)
    | Subd => (x, b)
    end
  else
    match x_st x with
    | NotSub => (xs_avail x false, b)
    | Pend => (x, (fst b, true))
    | Subd => (xs_st (xs_avail x false) Pend, b)
    end.

(** The consumer process, the provider and what the processes of providers know. *)
Record st := mkS {
  prov : N;                  (* process of the current (or last) provider: skeleton_pid_ in shared memory *)
  off : bool;                (* the service instance is offered *)
  knows : N -> bool;         (* event_update_interested_nodes_ of that process contains this process *)
  ent : entry;               (* event_update_remote_registrations_ *)
  np : nat;                  (* number of proxies created so far *)
  xs : nat -> px;            (* the proxies *)
  out : list (list msg);     (* messages still to be sent, per call *)
  dead : bool                (* the consumer process has been terminated *)
}.

Inductive op :=
| Create
| Subscribe (p : nat) (ok : bool)
| Unsubscribe (p : nat)
| SetHandler (p : nat)
| UnsetHandler (p : nat)
| Destroy (p : nat)
| Notify (p : nat) (available : bool)   (* service discovery tells proxy p *)
| Deliver (i : nat) (arrives : bool)    (* the next message of unfinished call i is sent *)
| ProviderStop                          (* StopOfferService or end of the provider's process *)
| ProviderStart (pid : N) (fresh : bool). (* OfferService by process pid; fresh: a new process *)

(** L/proxy.cpp:924-932 and L/subscription_state_machine.cpp:26-50 *)
Definition new_px (s : st) : px := mkX true NotSub (off s) (prov s) false false false.

(** The outcome of a call of proxy p. *)
Definition put (s : st) (p : nat) (r : px * breg) : st :=
  let '(x, (e, ms, ab)) := r in
  mkS (prov s) (off s) (knows s) e (np s) (fupd (xs s) p x)
      (match ms with [] => out s | _ => out s ++ [ms] end) ab.

Definition call (s : st) (p : nat) (f : px -> breg -> px * breg) : option st :=
  if (p <? np s) && x_live (xs s p) then Some (put s p (f (xs s p) (ent s, [], false))) else None.

(** MPSI:463-575: the provider's process enters or removes the sender *)
Definition receive (k : N -> bool) (m : msg) : N -> bool :=
  match m with
  | MReg pid => fun q => if (q =? pid)%N then true else k q
  | MUnreg pid => fun q => if (q =? pid)%N then false else k q
  end.

(** MPSI:1415-1446 and 1449-1465: a message that cannot be sent is dropped *)
Definition deliver (s : st) (i : nat) (arrives : bool) : option st :=
  match nth_error (out s) i with
  | Some (m :: ms) =>
      Some (mkS (prov s) (off s) (if arrives then receive (knows s) m else knows s) (ent s) (np s) (xs s)
                (firstn i (out s) ++ match ms with [] => [] | _ => [ms] end ++ skipn (S i) (out s)) (dead s))
  | _ => None
  end.

Definition step (s : st) (o : op) : option st :=
  if dead s then None else
  match o with
  | Create => Some (mkS (prov s) (off s) (knows s) (ent s) (S (np s)) (fupd (xs s) (np s) (new_px s)) (out s) false)
  | Subscribe p ok => call s p (fun x b => if ok then x_subscribe x b else (x, b))
  | Unsubscribe p => call s p x_unsubscribe
  | SetHandler p => call s p x_sethandler
  | UnsetHandler p => call s p x_unsethandler
  (* traits.h:350-356, proxy_base.cpp:190-208 *)
  | Destroy p => call s p (fun x b => let '(x, b) := x_unsubscribe x b in (xs_gone x, b))
  (* L/proxy.cpp:978-987: with the process found in shared memory at that time *)
  | Notify p a => call s p (fun x b => x_notify x b a (prov s))
  | Deliver i a => deliver s i a
  | ProviderStop =>
      if off s then Some (mkS (prov s) false (knows s) (ent s) (np s) (xs s) (out s) false) else None
  (* a new process has an empty table *)
  | ProviderStart pid fresh =>
      if off s then None
      else Some (mkS pid true (if fresh then fun q => if (q =? pid)%N then false else knows s q else knows s)
                     (ent s) (np s) (xs s) (out s) false)
  end.

Definition dummy : px := mkX false NotSub false 0 false false false.
(** The consumer process has just started; process [pid] offers the service instance. *)
Definition init (pid : N) : st := mkS pid true (fun _ => false) None 0 (fun _ => dummy) [] false.
