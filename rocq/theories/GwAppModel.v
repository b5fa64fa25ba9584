(** The gateway application: its tables of proxies, skeletons and active event subscriptions
    (score/mw/com/gateway/gateway_application/gateway_application.cpp), one callback at a time.

    Instance specifiers and event names are numbers.  Specifiers are valid: those of forwarded services are checked in
    StartServiceDiscovery (95-100), those from the transport in its handlers (sample_hypervisor_transport.cpp:140 etc.),
    so the branches for invalid specifiers are left out.  Outcomes of the transport, of creating and offering proxies
    and skeletons, of Subscribe, SetReceiveHandler and Notify are parameters of the callbacks. *)
From Verif Require Import Base.
Local Open Scope N_scope.

(** service_element_type.h: INVALID = 0, EVENT = 1, FIELD, METHOD; the byte comes from the other gateway. *)
Definition kEvent : N := 1.

Record st := mkSt {
  proxies : N -> option (list N);        (* proxies_: specifier -> names of the events of the proxy *)
  skeletons : N -> option (list N);      (* skeletons_: specifier -> names of the events of the skeleton *)
  subs : N -> list N;                    (* active_event_subscriptions_ *)
  asked : N -> N -> bool;                (* ghost: the last RegisterUpdateNotification/Unregister... for (specifier,
                                            event) that the other gateway acknowledged was a registration *)
  dead : bool }.                         (* terminated by an assertion *)
Definition init : st := mkSt (fun _ => None) (fun _ => None) (fun _ => []) (fun _ _ => false) false.

Definition upd {A} (f : N -> A) (k : N) (v : A) : N -> A := fun x => if x =? k then v else f x.
Definition mem (x : N) (l : list N) : bool := existsb (N.eqb x) l.
Definition del (x : N) (l : list N) : list N := filter (fun y => negb (y =? x)) l.

Definition set_proxies s f := mkSt f (skeletons s) (subs s) (asked s) (dead s).
Definition set_skeletons s f := mkSt (proxies s) f (subs s) (asked s) (dead s).
Definition set_subs s f := mkSt (proxies s) (skeletons s) f (asked s) (dead s).
Definition set_asked s f := mkSt (proxies s) (skeletons s) (subs s) f (dead s).
Definition die s := mkSt (proxies s) (skeletons s) (subs s) (asked s) true.

Inductive op :=
| Appeared (i : N) (create : option (list N)) (provide : bool)  (* discovery reports handles; the proxy created (its
                                                                   events) or not; outcome of ProvideService *)
| Disappeared (i : N) (stop : bool)                             (* discovery reports no handles *)
| SubscribersChanged (i e : N) (has : bool) (sent : bool)       (* callback of a skeleton's event *)
| RProvide (i : N) (accepted : bool) (events : list N) (create offer : bool) (sent : N -> bool)  (* from the transport *)
| RStopOffer (i : N)
| ROffer (i : N) (offer : bool)
| RRegister (i ty e : N) (subscribe handler : bool)
| RUnregister (i ty e : N)
| RUpdate (i ty e : N) (notify : bool).

(** 188-223 PropagateService *)
Definition propagate (s : st) (i : N) (provide : bool) : st :=
  match proxies s i with
  | None => die s                                                        (* 192 *)
  | Some _ => if provide then s else set_proxies s (upd (proxies s) i None)   (* 212-220 *)
  end.

(** transport_layer_->(Un)RegisterUpdateNotification *)
Definition ask (s : st) (i e : N) (reg sent : bool) : st :=
  if sent then set_asked s (upd (asked s) i (upd (asked s i) e reg)) else s.

(** 312-341 ReRegisterActiveEventSubscriptions *)
Definition re_register (s : st) (i : N) (sent : N -> bool) : st :=
  fold_left (fun s e => ask s i e true (sent e)) (subs s i) s.

Definition exec (s : st) (o : op) : st :=
  if dead s then s else
  match o with
  | Appeared i create provide => (* 130-161 OnServiceAvailabilityChanged *)
      match proxies s i with
      | Some _ => propagate s i provide
      | None => match create with
                | None => s
                | Some events => propagate (set_proxies s (upd (proxies s) i (Some events))) i provide
                end
      end
  | Disappeared i stop => (* 134-139, 163-186 OnServiceUnavailable *)
      match proxies s i with
      | None => die s                                                    (* 168 *)
      | Some _ => s
      end
  | SubscribersChanged i e has sent => (* 255-310 OnSubscriptionStateChanged *)
      if has then
        if mem e (subs s i) then s
        else ask (set_subs s (upd (subs s) i (e :: subs s i))) i e true sent
      else
        if mem e (subs s i) then ask (set_subs s (upd (subs s) i (del e (subs s i)))) i e false sent
        else s
  | RProvide i accepted events create offer sent => (* 343-411 ProvideService *)
      if accepted then
        match skeletons s i with
        | Some _ => re_register s i sent                                 (* 358-376 *)
        | None => if create then
                    if offer then set_skeletons s (upd (skeletons s) i (Some events))
                    else s                                               (* 401-406: erased again *)
                  else s
        end
      else s
  | RStopOffer i => s                                                    (* 413-430 *)
  | ROffer i offer => s                                                  (* 432-453 *)
  | RRegister i ty e subscribe handler => s                              (* 455-514: no assertion *)
  | RUnregister i ty e => (* 516-548 *)
      match proxies s i with
      | None => s
      | Some _ => if ty =? kEvent then s else die s                      (* 532 *)
      end
  | RUpdate i ty e notify => (* 550-582 *)
      match skeletons s i with
      | None => s
      | Some _ => if ty =? kEvent then s else die s                      (* 563 *)
      end
  end.

Definition runs (l : list op) : st := fold_left exec l init.

(** * Accesses to the tables *)
Inductive table := TProxies | TSkeletons | TSubs.
Record access := mkA { tab : table; write : bool; locked : bool }.   (* locked: mutex_ is held *)
Inductive thread := Discovery | Dispatch | Binding.                  (* service discovery, the transport's dispatch thread
                                                                        (bidirectional_transport.cpp:349-371), binding callbacks *)
Definition runs_on (o : op) : thread :=
  match o with
  | Appeared _ _ _ | Disappeared _ _ => Discovery
  | SubscribersChanged _ _ _ _ => Binding
  | _ => Dispatch
  end.
Definition accesses (o : op) : list access :=
  match o with
  | Appeared _ create provide => [mkA TProxies false true] ++ (match create with Some _ => [mkA TProxies true true] | None => [] end)
                                   ++ (if provide then [] else [mkA TProxies true true])       (* 133, 141, 159, 190, 218 *)
  | Disappeared _ _ => [mkA TProxies false true]                                               (* 165-166 *)
  | SubscribersChanged _ _ _ _ => [mkA TSubs true true]                                        (* 259, 268-294 *)
  | RProvide _ accepted _ create offer _ => if accepted then [mkA TSkeletons false false; mkA TSubs false false]
                                   ++ (if create then [mkA TSkeletons true false] else []) else []   (* 357, 314, 388, 404; no lock *)
  | RStopOffer _ | ROffer _ _ | RUpdate _ _ _ _ => [mkA TSkeletons false false]               (* 418, 437, 556; no lock *)
  | RRegister _ _ _ _ _ | RUnregister _ _ _ => [mkA TProxies false false]                     (* 464, 526; no lock *)
  end.
