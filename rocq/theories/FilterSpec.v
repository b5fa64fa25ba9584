(** What a trace filter file asks for, and what a configuration has, in their own words *)
From Coq Require Import String Permutation.
From Verif Require Import Base NamesModel DeplModel ConfModel FilterModel.
Open Scope N_scope.

(** * What the file asks for *)

(** The property of the filter file that stands for a trace point; for fields it is in an object of
    its own *)
Definition setting (p : point) : option (option name * name) :=
  match p with
  | SkEvent SeSend => Some (None, str "trace_send")
  | SkEvent SeSendAlloc => Some (None, str "trace_send_allocate")
  | SkField SfUpdate | SkField SfUpdateAlloc => Some (Some (str "notifier"), str "trace_update")
  | SkField SfGetCall => Some (Some (str "getter"), str "trace_request_received")
  | SkField SfGetCallResult => Some (Some (str "getter"), str "trace_response_send")
  | SkField SfSetCall => Some (Some (str "setter"), str "trace_request_received")
  | SkField SfSetCallResult => Some (Some (str "setter"), str "trace_response_send")
  | PxEvent PeSubscribe => Some (None, str "trace_subscribe_send")
  | PxEvent PeUnsubscribe => Some (None, str "trace_unsubscribe_send")
  | PxEvent PeStateChange => Some (None, str "trace_subscription_state_changed")
  | PxEvent PeSetStateHandler => Some (None, str "trace_subscription_state_change_handler_registered")
  | PxEvent PeUnsetStateHandler => Some (None, str "trace_subscription_state_change_handler_deregistered")
  | PxEvent PeStateCallback => Some (None, str "trace_subscription_state_change_handler_callback")
  | PxEvent PeSetReceive => Some (None, str "trace_receive_handler_registered")
  | PxEvent PeUnsetReceive => Some (None, str "trace_receive_handler_deregistered")
  | PxEvent PeReceiveCallback => Some (None, str "trace_receive_handler_callback")
  | PxEvent PeGetNew => Some (None, str "trace_get_new_samples")
  | PxEvent PeGetNewCallback => Some (None, str "trace_get_new_samples_callback")
  | PxField PfSubscribe => Some (Some (str "notifier"), str "trace_subscribe_send")
  | PxField PfUnsubscribe => Some (Some (str "notifier"), str "trace_unsubscribe_send")
  | PxField PfStateChange => Some (Some (str "notifier"), str "trace_subscription_state_changed")
  | PxField PfSetStateHandler => Some (Some (str "notifier"), str "trace_subscription_state_change_handler_registered")
  | PxField PfUnsetStateHandler => Some (Some (str "notifier"), str "trace_subscription_state_change_handler_deregistered")
  | PxField PfStateCallback => Some (Some (str "notifier"), str "trace_subscription_state_change_handler_callback")
  | PxField PfSetReceive => Some (Some (str "notifier"), str "trace_receive_handler_registered")
  | PxField PfUnsetReceive => Some (Some (str "notifier"), str "trace_receive_handler_deregistered")
  | PxField PfReceiveCallback => Some (Some (str "notifier"), str "trace_receive_handler_callback")
  | PxField PfGetNew => Some (Some (str "notifier"), str "trace_get_new_samples")
  | PxField PfGetNewCallback => Some (Some (str "notifier"), str "trace_get_new_samples_callback")
  | PxField PfGet => Some (Some (str "getter"), str "trace_request_send")
  | PxField PfGetResult => Some (Some (str "getter"), str "trace_response_received")
  | PxField PfSet => Some (Some (str "setter"), str "trace_request_send")
  | PxField PfSetResult => Some (Some (str "setter"), str "trace_response_received")
  | _ => None
  end.
(** The entry [o] of an event or field asks for the trace point [p] *)
Definition switched_on (o : object) (p : point) : Prop :=
  match setting p with
  | None => False
  | Some (None, k) => find k o = Some (JBool true)
  | Some (Some sub, k) => exists b, find sub o = Some (JObj b) /\ find k b = Some (JBool true)
  end.

(** The entry [j] of a list of events or fields asks for the trace point [p] of the element [e] *)
Definition entry_asks (j : json) (e : name) (p : point) : Prop :=
  exists o, j = JObj o /\ find (str "shortname") o = Some (JStr e) /\ switched_on o p.
Definition list_key (k : kind) : name := match k with KEvent => str "events" | KField => str "fields" end.
(** The filter file asks for the trace point [p] of the element [e] of the service type [s] *)
Definition asks (file : json) (s e : name) (p : point) : Prop :=
  exists o services svc els j,
    file = JObj o /\ find (str "services") o = Some (JList services) /\ In (JObj svc) services /\
    find (str "shortname_path") svc = Some (JStr s) /\
    find (list_key (kind_of p)) svc = Some (JList els) /\ In j els /\ entry_asks j e p.

(** * The configuration *)

(** The service type [s] is configured with an event or field [e] *)
Definition configured (c : conf) (s e : name) (k : kind) : Prop :=
  exists sv t, In (sv, TLola t) (all_types c) /\ sv_name sv = s /\
    In e (map fst (match k with KEvent => lt_events t | KField => lt_fields t end)).
(** The instance [i] of the service type [s] has [n] tracing slots for its event or field [e] *)
Definition deployed_slots (c : conf) (i s e : name) (k : kind) (n : N) : Prop :=
  exists d l, In (i, d) (all_insts c) /\ sv_name (in_service d) = s /\ in_binding d = BLola l /\
    match k with
    | KEvent => exists ev, find e (li_events l) = Some ev /\ ev_tracing ev = n
    | KField => exists fd, find e (li_fields l) = Some fd /\ ev_tracing (fd_event fd) = n
    end.
(** What the types of the configuration guarantee: the names of the instances are instance
    specifiers, and a map has a key once *)
Definition proper (c : conf) : Prop :=
  forall i d, In (i, d) (all_insts c) -> create_specifier i = Some i /\
    forall l, in_binding d = BLola l -> NoDup (map fst (li_events l)) /\ NoDup (map fst (li_fields l)).
Definition no_nul (s : name) : Prop := ~ In 0 s.
(** No NUL character in the name of a service type, event or field *)
Definition plain (c : conf) : Prop := forall s e k, configured c s e k -> no_nul s /\ no_nul e.
(** The names of a service type and of one of its elements are together at most 1022 bytes long *)
Definition short (c : conf) : Prop :=
  forall s e k, configured c s e k -> N.of_nat (length s + length e) <= 1022.

(** The trace points at which the sample is kept until the trace is done *)
Definition keeps (p : point) : Prop :=
  p = SkEvent SeSend \/ p = SkEvent SeSendAlloc \/ p = SkField SfUpdate \/ p = SkField SfUpdateAlloc.

(** The same entries, met in another order *)
Definition reordered (f g : filter) : Prop :=
  Permutation (f_se f) (f_se g) /\ Permutation (f_sf f) (f_sf g) /\
  Permutation (f_pe f) (f_pe g) /\ Permutation (f_pf f) (f_pf g).

(** * Files of the right shape *)

Definition optional (o : object) (k : name) (P : json -> Prop) : Prop :=
  match find k o with None => True | Some j => P j end.
Definition is_bool (j : json) : Prop := exists b, j = JBool b.
Definition is_string (j : json) : Prop := exists s, j = JStr s.
Definition list_of (P : json -> Prop) (j : json) : Prop := exists l, j = JList l /\ forall x, In x l -> P x.
Definition object_with (P : object -> Prop) (j : json) : Prop := exists o, j = JObj o /\ P o.
(** The properties are true or false where they are given *)
Definition flags (o : object) : Prop := forall k j, find k o = Some j -> k <> str "shortname" -> is_bool j.
Definition event_shape (j : json) : Prop :=
  object_with (fun o => optional o (str "shortname") is_string /\ flags o) j.
Definition field_shape (j : json) : Prop :=
  object_with (fun o => optional o (str "shortname") is_string /\
    forall k, In k [str "notifier"; str "getter"; str "setter"] -> optional o k (object_with flags)) j.
Definition service_shape (j : json) : Prop :=
  object_with (fun o => optional o (str "shortname_path") is_string /\
    optional o (str "events") (list_of event_shape) /\ optional o (str "fields") (list_of field_shape)) j.
Definition file_shape (j : json) : Prop :=
  object_with (fun o => optional o (str "services") (list_of service_shape)) j.
