(** Message passing client connection: the send queue, the pending reply and the shutdown.

    Models /repo/score/message_passing/client_connection.cpp (TryQueueMessage 93-105, Send 107-146,
    SendWaitReply 148-230, SendWithCallback 232-272, Stop 292-312, Restart/DoRestart 314-346, the success path of
    TryConnect 411-449, the REPLY case of ProcessInputEvent 452-507, ArmSendQueueUnderLock 509-524,
    ProcessSendQueueUnderLock 526-573, SwitchToStopState 575-612) and the ready/wait protocol of
    /repo/score/message_passing/non_allocating_future/non_allocating_future.h 39-72.

    The machine: any number of user threads call Send / SendWaitReply / SendWithCallback; one engine thread runs
    commands, input events and the shutdown.  A section that holds send_mutex_ throughout is one step; every place
    where the code releases the mutex (transmitting from SendWaitReply, transmitting from the queue, calling a
    callback) is a boundary between steps at which all other threads may run.

    Simplifications.
    - A message is represented by the call that sends it (an [entry]): its bytes do not influence the control flow,
      except for the size check, which fails before anything is touched (109, 156, 236).
    - Calls that fail their state check (state_ != kReady) change nothing; only calls that pass it appear.
    - Calls made from inside callbacks (allowed for Send and SendWithCallback; SendWaitReply refuses with EAGAIN,
      152) run while the mutex is released, so they are covered by the user threads.  Stop() from inside a reply
      callback is not among the uses the interface allows and is not modelled.
    - A transmission either fails and puts nothing on the wire, or succeeds; it fails if the connection is closed.
    - A reply is delivered to the input event in one step; it carries the number of the request it answers.
    - Connecting, the retry timer, NOTIFY messages and the state callback are not part of this machine. *)

From Coq Require Import List Bool Arith Lia.
Import ListNotations.

(** The three send calls: Send, SendWithCallback, SendWaitReply. *)
Inductive kind := KSend | KCb | KWait.

(** One call; [e_id] numbers the calls.  In the queue: a SendCommand (client_connection.h 113-124), whose callback
    is empty exactly for [KSend]. *)
Record entry := mkE { e_id : nat; e_kind : kind }.

(** Content of the optional waiting_for_reply_ (client_connection.h 129): the empty placeholder ReplyCallback{}
    (client_connection.cpp 515, 563) or the callback of a call. *)
Inductive slot := Placeholder | Held (e : entry).

(** Observable events.
    [EvAcc e]    the call took its place in the order of messages: it was queued, transmitted at once, or (for
                 SendWaitReply) reserved the connection;
    [EvWire e]   the message was handed to the transport;
    [EvLost e]   its transmission failed;      [EvDrop e]   it was discarded from the queue by the shutdown;
    [EvCall e r] the callback of the call was invoked: [Some k] with the server's reply to call number [k],
                 [None] with an error;
    [EvRefuse e] the call returned an error without leaving its message or callback behind;
    [EvDone e]   the call returned after acceptance (SendWaitReply: after its callback had run). *)
Inductive ev :=
| EvAcc (e : entry) | EvWire (e : entry) | EvLost (e : entry) | EvDrop (e : entry)
| EvCall (e : entry) (r : option nat) | EvRefuse (e : entry) | EvDone (e : entry).

(** Where a user thread is. [Checked]: past the state check (115, 162, 240), before the mutex;
    [Transmit]: SendWaitReply with the mutex released before SendProtocolMessage (205-207);
    [Relock ok]: after it, before lock.lock() (208); [WaitFor]: in future.Wait() (228). *)
Inductive upc :=
| Idle | Checked (e : entry) | Transmit (e : entry) | Relock (e : entry) (ok : bool) | WaitFor (e : entry).

(** What the engine thread does after ProcessSendQueueUnderLock: nothing (command, 516-523) or call the callback
    taken by the REPLY case with reply [r] (474-478). *)
Definition cont := option (slot * nat).

(** Where the engine thread is.
    [ESending]: in ProcessSendQueueUnderLock with the mutex released, before transmitting (540-542, 564-567);
    [ESent]: after it, before lock.lock() (543, 568); [ECallErr]: about to call the callback with the error (553);
    [ERelock]: after that call, before lock.lock() (554); [ECall]: about to call the callback with the reply (478);
    [EStopTake]: SwitchToStopState after closing (587); [EStopCall]: about to call the pending callback with EPIPE
    (594); [EStopLoop]: before an iteration over the queue (598); [EStopCallQ]: about to call the callback of a
    discarded entry (605). *)
Inductive epc :=
| EIdle
| ESending (e : entry) (k : cont) | ESent (e : entry) (ok : bool) (k : cont)
| ECallErr (sl : slot) (k : cont) | ERelock (k : cont)
| ECall (sl : slot) (r : nat)
| EStopTake | EStopCall (sl : slot) | EStopLoop | EStopCallQ (e : entry).

(** i_client_connection.h 101-107 *)
Inductive life_t := Starting | Ready | Stopping | Stopped.

(** ClientConfig (i_client_factory.h 41-56): [c_cap] is max_queued_sends + max_async_replies, the size of
    send_storage_ (client_connection.cpp 56-58).  [c_dbg]: the build checks SCORE_LANGUAGE_FUTURECPP_ASSERT_DBG. *)
Record cfg := mkCfg { c_cap : nat; c_fully_ordered : bool; c_truly_async : bool; c_dbg : bool }.

(** [pool]: number of commands in send_pool_; [cmds]: how many times async_send_command_ is in the engine's command
    queue; [opened]: client_fd_ != -1; [stopreq]: the shutdown is due on the engine thread (disconnection_command_
    enqueued, or the endpoint is being unregistered after an input error); [owed]: numbers of the requests of this
    connection which the server has not answered yet; [next]: next call number; [bad]: the program was aborted by
    an assertion or ran into undefined behaviour. *)
Record state := mkS {
  pool : nat;
  queue : list entry;
  waiting : option slot;
  opened : bool;
  life : life_t;
  stopreq : bool;
  cmds : nat;
  owed : list nat;
  thr : nat -> upc;
  eng : epc;
  log : list ev;
  next : nat;
  bad : bool
}.

Definition set_pool v s := mkS v (queue s) (waiting s) (opened s) (life s) (stopreq s) (cmds s) (owed s) (thr s) (eng s) (log s) (next s) (bad s).
Definition set_queue v s := mkS (pool s) v (waiting s) (opened s) (life s) (stopreq s) (cmds s) (owed s) (thr s) (eng s) (log s) (next s) (bad s).
Definition set_waiting v s := mkS (pool s) (queue s) v (opened s) (life s) (stopreq s) (cmds s) (owed s) (thr s) (eng s) (log s) (next s) (bad s).
Definition set_opened v s := mkS (pool s) (queue s) (waiting s) v (life s) (stopreq s) (cmds s) (owed s) (thr s) (eng s) (log s) (next s) (bad s).
Definition set_life v s := mkS (pool s) (queue s) (waiting s) (opened s) v (stopreq s) (cmds s) (owed s) (thr s) (eng s) (log s) (next s) (bad s).
Definition set_stopreq v s := mkS (pool s) (queue s) (waiting s) (opened s) (life s) v (cmds s) (owed s) (thr s) (eng s) (log s) (next s) (bad s).
Definition set_cmds v s := mkS (pool s) (queue s) (waiting s) (opened s) (life s) (stopreq s) v (owed s) (thr s) (eng s) (log s) (next s) (bad s).
Definition set_owed v s := mkS (pool s) (queue s) (waiting s) (opened s) (life s) (stopreq s) (cmds s) v (thr s) (eng s) (log s) (next s) (bad s).
Definition set_eng v s := mkS (pool s) (queue s) (waiting s) (opened s) (life s) (stopreq s) (cmds s) (owed s) (thr s) v (log s) (next s) (bad s).
Definition set_next v s := mkS (pool s) (queue s) (waiting s) (opened s) (life s) (stopreq s) (cmds s) (owed s) (thr s) (eng s) (log s) v (bad s).
Definition set_bad s := mkS (pool s) (queue s) (waiting s) (opened s) (life s) (stopreq s) (cmds s) (owed s) (thr s) (eng s) (log s) (next s) true.
Definition say v s := mkS (pool s) (queue s) (waiting s) (opened s) (life s) (stopreq s) (cmds s) (owed s) (thr s) (eng s) (v :: log s) (next s) (bad s).
Definition set_thr t v s := mkS (pool s) (queue s) (waiting s) (opened s) (life s) (stopreq s) (cmds s) (owed s)
  (fun u => if Nat.eqb u t then v else thr s u) (eng s) (log s) (next s) (bad s).

Definition is_send (e : entry) : bool := match e_kind e with KSend => true | _ => false end.

(** What the call leaves in waiting_for_reply_: client_connection.cpp 535, 563. *)
Definition slot_of (e : entry) : slot := if is_send e then Placeholder else Held e.

(** engine_->SendProtocolMessage(client_fd_, SEND or REQUEST, message); [ok] is the transport's decision, a closed
    connection always fails. *)
Definition transmit (e : entry) (ok : bool) (s : state) : state * bool :=
  if ok && opened s
  then (say (EvWire e) (if is_send e then s else set_owed (owed s ++ [e_id e]) s), true)
  else (say (EvLost e) s, false).

(** ArmSendQueueUnderLock 509-524.  EnqueueCommand inserts the one member async_send_command_ into the intrusive
    list of timed_command_queue.cpp 36-41; inserting an element that is already linked breaks the list. *)
Definition arm (c : cfg) (s : state) : state :=
  let s := match waiting s with Some _ => if c_dbg c then set_bad s else s | None => s end in
  let s := if Nat.ltb 0 (cmds s) then set_bad s else s in
  set_cmds (S (cmds s)) (set_waiting (Some Placeholder) s).

(** TryQueueMessage 93-105 *)
Definition try_queue (e : entry) (s : state) : option state :=
  match pool s with
  | 0 => None
  | S p => Some (set_pool p (set_queue (queue s ++ [e]) s))
  end.

(** The call returned an error / returned after acceptance. *)
Definition refuse (t : nat) (e : entry) (s : state) : state := set_thr t Idle (say (EvRefuse e) s).
Definition accept_done (t : nat) (e : entry) (s : state) : state := set_thr t Idle (say (EvDone e) s).

(** Queue the message; SendWaitReply goes on to wait (200, 228), the others return (144, 249, 271). *)
Definition enqueue (c : cfg) (t : nat) (e : entry) (do_arm : bool) (s : state) : state :=
  match try_queue e s with
  | None => refuse t e s
  | Some s1 =>
      let s2 := say (EvAcc e) (if do_arm then arm c s1 else s1) in
      match e_kind e with
      | KWait => set_thr t (WaitFor e) s2
      | _ => accept_done t e s2
      end
  end.

(** The part of Send (119-145), SendWithCallback (244-271) and SendWaitReply (190-206) from the mutex on. *)
Definition enter (c : cfg) (t : nat) (e : entry) (ok : bool) (s : state) : state :=
  let direct :=
    let (s1, sent) := transmit e ok (say (EvAcc e) s) in
    if sent
    then accept_done t e (if is_send e then s1 else set_waiting (Some (Held e)) s1)
    else refuse t e s
  in
  match e_kind e with
  | KSend =>
      if negb (c_fully_ordered c) && negb (c_truly_async c) then direct   (* 119-122, without the mutex *)
      else match waiting s with
           | None => if c_truly_async c then enqueue c t e true s else direct
           | Some _ => enqueue c t e false s
           end
  | KCb =>
      match waiting s with
      | Some _ => enqueue c t e false s
      | None => if c_truly_async c then enqueue c t e true s else direct
      end
  | KWait =>
      match waiting s with
      | Some _ => enqueue c t e false s
      | None => set_thr t (Transmit e) (say (EvAcc e) (set_waiting (Some (Held e)) s))
      end
  end.

(** SendWaitReply 208-227 *)
Definition relock (c : cfg) (t : nat) (e : entry) (ok : bool) (s : state) : state :=
  if ok then set_thr t (WaitFor e) s
  else refuse t e (match queue s with [] => set_waiting None s | _ => arm c s end).

(** Calling a callback; an empty one must not be called. *)
Definition call (sl : slot) (r : option nat) (s : state) : state :=
  match sl with
  | Placeholder => set_bad s
  | Held e => say (EvCall e r) s
  end.

(** Leaving ProcessSendQueueUnderLock *)
Definition finish (k : cont) (s : state) : state :=
  match k with None => set_eng EIdle s | Some (sl, r) => set_eng (ECall sl r) s end.

(** The head of the loop of ProcessSendQueueUnderLock 528-536, 563 *)
Definition loop_head (k : cont) (s : state) : state :=
  match queue s with
  | [] => finish k s
  | e :: q => set_eng (ESending e k) (set_waiting (Some (slot_of e)) (set_queue q s))
  end.

(** One step of the engine thread inside ProcessSendQueueUnderLock, the REPLY case or SwitchToStopState. *)
Definition eng_step (ok : bool) (s : state) : option state :=
  match eng s with
  | EIdle => None
  | ESending e k => let (s1, sent) := transmit e ok s in Some (set_eng (ESent e sent k) s1)
  | ESent e sent k =>
      let s1 := set_pool (S (pool s)) s in                       (* 544, 569 *)
      if is_send e then Some (loop_head k (set_waiting None s1))  (* 570 *)
      else if sent then Some (finish k s1)                        (* 545-548 *)
      else match waiting s1 with                                  (* 549 *)
           | None => Some (set_eng EIdle (set_bad s1))             (* undefined behaviour *)
           | Some sl => Some (set_eng (ECallErr sl k) (set_waiting (Some Placeholder) s1))
           end
  | ECallErr sl k => Some (set_eng (ERelock k) (call sl None s))  (* 554 *)
  | ERelock k => Some (loop_head k (set_waiting None s))          (* 555-556 *)
  | ECall sl r => Some (set_eng EIdle (call sl (Some r) s))       (* 478 *)
  | EStopTake =>                                                  (* 587-591 *)
      match waiting s with
      | None => Some (set_eng EStopLoop s)
      | Some sl => Some (set_eng (EStopCall sl) (set_waiting None s))
      end
  | EStopCall sl =>                                               (* 592-597 *)
      Some (set_eng EStopLoop (match sl with Placeholder => s | Held e => say (EvCall e None) s end))
  | EStopLoop =>                                                  (* 598-611: the entry is not returned to the pool *)
      match queue s with
      | [] => Some (set_eng EIdle (set_life Stopped s))
      | e :: q =>
          let s1 := say (EvDrop e) (set_queue q s) in
          Some (set_eng (if is_send e then EStopLoop else EStopCallQ e) s1)
      end
  | EStopCallQ e => Some (set_eng EStopLoop (say (EvCall e None) s)) (* 605 *)
  end.

(** Stop() 292-296 or an input error 421-424: TrySetStopReason succeeds once per life of the connection. *)
Definition stop_request (s : state) : state :=
  match life s with
  | Starting | Ready => set_stopreq true (set_life Stopping s)
  | _ => s
  end.

(** What can happen next.
    [LBegin t k] a thread starts a call and passes the state check; [LEnter], [LSend], [LRelock], [LDone] it goes on;
    [LReply r] the engine thread receives the server's reply to call [r]; [LCmd] it runs async_send_command_;
    [LEng ok] it goes on; [LStopReq] somebody stops the connection; [LStop] the engine thread begins
    SwitchToStopState; [LRestart], [LConnect]. *)
Inductive label :=
| LBegin (t : nat) (k : kind) | LEnter (t : nat) (ok : bool) | LSend (t : nat) (ok : bool) | LRelock (t : nat)
| LDone (t : nat)
| LReply (r : nat) | LCmd | LEng (ok : bool)
| LStopReq | LStop | LRestart | LConnect.

Definition is_call (e : entry) (v : ev) : bool :=
  match v with
  | EvCall f _ => Nat.eqb (e_id f) (e_id e)
  | _ => false
  end.

Definition step (c : cfg) (l : label) (s : state) : option state :=
  match l with
  | LBegin t k =>
      match thr s t, life s with
      | Idle, Ready => Some (set_thr t (Checked (mkE (next s) k)) (set_next (S (next s)) s))
      | _, _ => None
      end
  | LEnter t ok =>
      match thr s t with Checked e => Some (enter c t e ok s) | _ => None end
  | LSend t ok =>
      match thr s t with
      | Transmit e => let (s1, sent) := transmit e ok s in Some (set_thr t (Relock e sent) s1)
      | _ => None
      end
  | LRelock t =>
      match thr s t with Relock e ok => Some (relock c t e ok s) | _ => None end
  | LDone t =>                                        (* future.Wait() returns once the callback has run *)
      match thr s t with
      | WaitFor e => if existsb (is_call e) (log s) then Some (set_thr t Idle (say (EvDone e) s)) else None
      | _ => None
      end
  | LReply r =>                                       (* ProcessInputEvent 470-485 *)
      match eng s, opened s with
      | EIdle, true =>
          let s := set_owed (remove Nat.eq_dec r (owed s)) s in
          match waiting s with
          | Some sl => Some (loop_head (Some (sl, r)) (set_waiting None s))
          | None => Some (stop_request s)
          end
      | _, _ => None
      end
  | LCmd =>
      match eng s, cmds s with
      | EIdle, S n => Some (loop_head None (set_cmds n s))
      | _, _ => None
      end
  | LEng ok => eng_step ok s
  | LStopReq => Some (stop_request s)
  | LStop =>                                          (* SwitchToStopState 580-586 *)
      match eng s, stopreq s with
      | EIdle, true =>
          Some (set_eng EStopTake (set_owed [] (set_opened false (set_cmds 0 (set_stopreq false s)))))
      | _, _ => None
      end
  | LRestart => match life s with Stopped => Some (set_life Starting s) | _ => None end
  | LConnect =>
      match eng s, life s with
      | EIdle, Starting => Some (set_life Ready (set_opened true s))
      | _, _ => None
      end
  end.

(** A connection right after Start(): client_connection.cpp 33-72, 284-290. *)
Definition init (c : cfg) : state :=
  mkS (c_cap c) [] None false Starting false 0 [] (fun _ => Idle) EIdle [] 0 false.
