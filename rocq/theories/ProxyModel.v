(** One event of a proxy as the user sees it: ProxyEventBase on top of the
    subscription state machine of the lola binding.  Paths relative to
    /repo/score/mw/com/impl (L/ = bindings/lola).

    Simplifications:
    - every operation is atomic: the state machine holds state_mutex_ during each call
      (L/subscription_state_machine.cpp:77-111), and calls on one ProxyEvent must not be made
      concurrently (proxy_event_base.h:147-150);
    - whether the shared memory part of Subscribe succeeds is an input ([subext]); that part is
      the subject of SubModel.v;
    - the messaging layer is reduced to "the handler currently registered and the provider
      process it is registered with"; tracing, logging and the state change handler are left out;
    - a receive handler is identified by the number of the SetReceiveHandler call. *)
From Verif Require Export Base.

Inductive sstate := SNot | SPend | SSub.
(** outcome of RegisterProxyElement / EventSubscriptionControl::Subscribe *)
Inductive subext := EOk | ENoLog | ENoSlots.
(** calling thread: no receive handler, the handler of this event, the handler of another event *)
Inductive ctx := Outside | InOwn | InOther.

Inductive perr := EBindingFailure | EMaxSampleCountNotRealizable | EMaxSamplesReached | ENotSubscribed.
Inductive pres :=
| ROk
| RErr (e : perr)
| RSamples (k : N)             (* number of samples passed to the user *)
| RCalled (h : option nat)     (* handler started by a notification *)
| RBlocked                     (* the call cannot return yet / is not possible here *)
| RTerm.                       (* the process is terminated *)

Inductive pop :=
| OSubscribe (n : N) (e : subext)
| OUnsubscribe (c : ctx)
| OSet
| OUnset (c : ctx)
| OStop
| OReoffer (pid : N)
| OGet (n k : N)       (* GetNewSamples(.., n) while k new samples are there *)
| ORelease             (* a SamplePtr is destroyed *)
| ONotify (pid : N)    (* provider process pid notifies its registered consumers *)
| OFinish.             (* a running receive handler returns *)

Record pst := mkP {
  pstate : sstate;               (* current_state_idx_ *)
  pmax : N;                      (* subscription_data_.max_sample_count_ *)
  avail : bool;                  (* provider_service_instance_is_available_ *)
  spid : N;                      (* event_receive_handler_manager_.event_source_pid_ *)
  pend : option nat;             (* event_receiver_handler_ *)
  reg : option (nat * N);        (* registration with the messaging: handler, provider *)
  cur : option nat;              (* receive_handler_ptr_ *)
  scope : option nat;            (* handler whose scope is not expired *)
  nh : nat;                      (* number of SetReceiveHandler calls so far *)
  flag : bool;                   (* is_subscribed_flag_ *)
  tmax : N; tused : N;           (* tracker_: maximum, samples in use *)
  running : nat;                 (* running invocations of the receive handler *)
  dead : bool
}.

Definition p_state s x := mkP x (pmax s) (avail s) (spid s) (pend s) (reg s) (cur s) (scope s) (nh s) (flag s) (tmax s) (tused s) (running s) (dead s).
Definition p_max s x := mkP (pstate s) x (avail s) (spid s) (pend s) (reg s) (cur s) (scope s) (nh s) (flag s) (tmax s) (tused s) (running s) (dead s).
Definition p_avail s x := mkP (pstate s) (pmax s) x (spid s) (pend s) (reg s) (cur s) (scope s) (nh s) (flag s) (tmax s) (tused s) (running s) (dead s).
Definition p_spid s x := mkP (pstate s) (pmax s) (avail s) x (pend s) (reg s) (cur s) (scope s) (nh s) (flag s) (tmax s) (tused s) (running s) (dead s).
Definition p_pend s x := mkP (pstate s) (pmax s) (avail s) (spid s) x (reg s) (cur s) (scope s) (nh s) (flag s) (tmax s) (tused s) (running s) (dead s).
Definition p_reg s x := mkP (pstate s) (pmax s) (avail s) (spid s) (pend s) x (cur s) (scope s) (nh s) (flag s) (tmax s) (tused s) (running s) (dead s).
Definition p_cur s x := mkP (pstate s) (pmax s) (avail s) (spid s) (pend s) (reg s) x (scope s) (nh s) (flag s) (tmax s) (tused s) (running s) (dead s).
Definition p_scope s x := mkP (pstate s) (pmax s) (avail s) (spid s) (pend s) (reg s) (cur s) x (nh s) (flag s) (tmax s) (tused s) (running s) (dead s).
Definition p_nh s x := mkP (pstate s) (pmax s) (avail s) (spid s) (pend s) (reg s) (cur s) (scope s) x (flag s) (tmax s) (tused s) (running s) (dead s).
Definition p_flag s x := mkP (pstate s) (pmax s) (avail s) (spid s) (pend s) (reg s) (cur s) (scope s) (nh s) x (tmax s) (tused s) (running s) (dead s).
Definition p_track s m u := mkP (pstate s) (pmax s) (avail s) (spid s) (pend s) (reg s) (cur s) (scope s) (nh s) (flag s) m u (running s) (dead s).
Definition p_running s x := mkP (pstate s) (pmax s) (avail s) (spid s) (pend s) (reg s) (cur s) (scope s) (nh s) (flag s) (tmax s) (tused s) x (dead s).
Definition p_dead s := mkP (pstate s) (pmax s) (avail s) (spid s) (pend s) (reg s) (cur s) (scope s) (nh s) (flag s) (tmax s) (tused s) (running s) true.

(** L/subscription_helpers.cpp:28-34, 50-59 *)
Definition mgr_register (s : pst) (h : nat) : pst := p_reg s (Some (h, spid s)).
Definition mgr_unregister (s : pst) : pst := p_reg s None.
(** L/subscription_helpers.cpp:36-48 *)
Definition mgr_reregister (s : pst) (o : option nat) : pst :=
  match o with
  | Some h => mgr_register s h
  | None => match reg s with Some (h, _) => p_reg s (Some (h, spid s)) | None => s end
  end.

(** L/subscription_not_subscribed_states.cpp:88-110 after the shared memory part succeeded *)
Definition sm_subscribed (s : pst) (n : N) : pst :=
  let s1 := match pend s with
            | Some h => if avail s then p_pend (mgr_register s h) None else s
            | None => s
            end in
  let s2 := p_max s1 n in
  if avail s then p_state s2 SSub else p_state s2 SPend.

(** L/subscription_not_subscribed_states.cpp:157-170 (OnEntry), reached from
    L/subscription_subscribed_states.cpp:55-61, L/subscription_subscription_pending_states.cpp:57-63 *)
Definition sm_unsubscribe (s : pst) : pst :=
  match pstate s with
  | SNot => s
  | _ => p_max (mgr_unregister (p_state s SNot)) 0
  end.

(** L/subscription_{not_subscribed,subscription_pending,subscribed}_states.cpp:126-129, 83-86, 76-79 *)
Definition sm_set (s : pst) (h : nat) : pst :=
  match pstate s with SSub => mgr_register s h | _ => p_pend s (Some h) end.
(** … 131-134, 88-91, 81-84 *)
Definition sm_unset (s : pst) : pst :=
  match pstate s with SSub => mgr_unregister s | _ => p_pend s None end.
(** … 115-118, 65-72, 63-67; None = std::terminate *)
Definition sm_stop (s : pst) : option pst :=
  match pstate s with
  | SNot => Some (p_avail s false)
  | SPend => None
  | SSub => Some (p_state (p_avail s false) SPend)
  end.
(** … 120-124, 74-81, 69-74 *)
Definition sm_reoffer (s : pst) (pid : N) : pst :=
  match pstate s with
  | SNot => p_avail (p_spid s pid) true
  | SPend =>
      let s1 := p_spid (p_avail s true) pid in
      p_state (p_pend (mgr_reregister s1 (pend s1)) None) SSub
  | SSub => s
  end.

(** proxy_event_base.cpp:265-271: expiring a scope waits for the running handler
    (None: it still runs); is_in_receive_handler_context is per thread, not per event (line 35) *)
Definition expire (s : pst) (c : ctx) : option pst :=
  match c with
  | Outside => match running s with O => Some (p_scope s None) | _ => None end
  | InOwn | InOther => Some s
  end.
(** a call from within the handler of this event is possible only while it runs *)
Definition possible (s : pst) (c : ctx) : bool :=
  match c with InOwn => negb (running s =? 0) | _ => true end.

Definition pstep (s : pst) (o : pop) : pst * pres :=
  if dead s then (s, RTerm) else
  match o with
  (* proxy_event_base.cpp:76-113, L/proxy_event_common.cpp:45-52, L/slot_collector.cpp:22-27,
     L/subscription_not_subscribed_states.cpp:38-111 *)
  | OSubscribe n e =>
      match pstate s with
      | SNot =>
          let s := p_track s n 0 in
          if (255 <? n)%N then (p_dead s, RTerm)
          else match e with
               | ENoLog | ENoSlots => (s, RErr EBindingFailure)
               | EOk => if (n =? 0)%N then (p_dead s, RTerm)
                        else (p_flag (sm_subscribed s n) true, ROk)
               end
      | _ => if (n =? pmax s)%N then (p_flag s true, ROk)
             else (s, RErr EMaxSampleCountNotRealizable)
      end
  (* proxy_event_base.cpp:115-152 *)
  | OUnsubscribe c =>
      if negb (possible s c) then (s, RBlocked) else
      if negb (flag s) then (s, ROk) else
      match pstate s with
      | SNot => (p_flag s false, ROk)
      | _ => match expire s c with
             | None => (s, RBlocked)
             | Some s1 =>
                 let s2 := p_flag (sm_unsubscribe s1) false in
                 if (0 <? tused s)%N then (p_dead s2, RTerm) else (s2, ROk)
             end
      end
  (* proxy_event_base.cpp:206-237; replacing the scope waits like expire *)
  | OSet =>
      match running s with
      | O => let h := nh s in
             (sm_set (p_cur (p_scope (p_nh s (S h)) (Some h)) (Some h)) h, ROk)
      | _ => (s, RBlocked)
      end
  (* proxy_event_base.cpp:239-263 *)
  | OUnset c =>
      if negb (possible s c) then (s, RBlocked) else
      match cur s with
      | None => (s, ROk)
      | Some _ =>
          match expire s c with
          | None => (s, RBlocked)
          | Some s1 => (sm_unset (p_cur s1 None), ROk)
          end
      end
  (* L/proxy_event_common.cpp:116-127, L/proxy.cpp:978-995 *)
  | OStop => match sm_stop s with Some s' => (s', ROk) | None => (p_dead s, RTerm) end
  | OReoffer pid => (sm_reoffer s pid, ROk)
  (* proxy_event.h:191-230, sample_reference_tracker.cpp:137-172, L/proxy_event.h:189-262 *)
  | OGet n k =>
      let g := N.min n (tmax s - tused s) in
      if (g =? 0)%N then (s, RErr EMaxSamplesReached)
      else match pstate s with
           | SNot => (s, RErr ENotSubscribed)
           | _ => let d := N.min k g in (p_track s (tmax s) (tused s + d), RSamples d)
           end
  | ORelease => (p_track s (tmax s) (tused s - 1), ROk)
  (* the messaging calls the registered handler if the weak pointer is alive; the
     scoped function does nothing once its scope has expired *)
  | ONotify pid =>
      match reg s, cur s, scope s with
      | Some (h, q), Some h', Some h'' =>
          if (q =? pid)%N && (h =? h') && (h =? h'') then (p_running s (S (running s)), RCalled (Some h))
          else (s, RCalled None)
      | _, _, _ => (s, RCalled None)
      end
  | OFinish => (p_running s (running s - 1), ROk)
  end.

Fixpoint prun (s : pst) (os : list pop) : pst * list (pop * pres) :=
  match os with
  | [] => (s, [])
  | o :: r => let (s1, x) := pstep s o in let (s2, h) := prun s1 r in (s2, (o, x) :: h)
  end.

(** L/subscription_state_machine.cpp:33-49, proxy_event_base.cpp:37-54; the provider runs as process pid0 *)
Definition pinit (pid0 : N) : pst :=
  mkP SNot 0 true pid0 None None None None 0 false 0 0 0 false.
