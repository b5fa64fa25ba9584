(** The trace filter: which trace points are switched on, and how many tracing slots are needed.
    T = score/mw/com/impl/tracing/configuration, C = score/mw/com/impl/configuration. *)
From Coq Require Import String.
From Verif Require Import Base NamesModel DeplModel ConfModel.
Open Scope N_scope.

(** * Trace points *)

(** score/mw/com/impl/service_element_type.h: the two kinds of service elements that are traced *)
Inductive kind := KEvent | KField.
Definition kind_eqb (a b : kind) : bool :=
  match a, b with KEvent, KEvent | KField, KField => true | _, _ => false end.

(** T/skeleton_event_trace_point_type.h:21-26 *)
Inductive sk_event := SeInvalid | SeSend | SeSendAlloc.
(** T/skeleton_field_trace_point_type.h:21-30 *)
Inductive sk_field :=
| SfInvalid | SfUpdate | SfUpdateAlloc | SfGetCall | SfGetCallResult | SfSetCall | SfSetCallResult.
(** T/proxy_event_trace_point_type.h:21-35 *)
Inductive px_event :=
| PeInvalid | PeSubscribe | PeUnsubscribe | PeStateChange | PeSetStateHandler | PeUnsetStateHandler
| PeStateCallback | PeSetReceive | PeUnsetReceive | PeReceiveCallback | PeGetNew | PeGetNewCallback.
(** T/proxy_field_trace_point_type.h:21-39 *)
Inductive px_field :=
| PfInvalid | PfSubscribe | PfUnsubscribe | PfStateChange | PfSetStateHandler | PfUnsetStateHandler
| PfStateCallback | PfSetReceive | PfUnsetReceive | PfReceiveCallback | PfGetNew | PfGetNewCallback
| PfGet | PfGetResult | PfSet | PfSetResult.

Inductive point := SkEvent (p : sk_event) | SkField (p : sk_field) | PxEvent (p : px_event) | PxField (p : px_field).

(** The enumerators as std::uint8_t *)
Definition code (p : point) : N :=
  match p with
  | SkEvent SeInvalid | SkField SfInvalid | PxEvent PeInvalid | PxField PfInvalid => 0
  | SkEvent SeSend | SkField SfUpdate | PxEvent PeSubscribe | PxField PfSubscribe => 1
  | SkEvent SeSendAlloc | SkField SfUpdateAlloc | PxEvent PeUnsubscribe | PxField PfUnsubscribe => 2
  | SkField SfGetCall | PxEvent PeStateChange | PxField PfStateChange => 3
  | SkField SfGetCallResult | PxEvent PeSetStateHandler | PxField PfSetStateHandler => 4
  | SkField SfSetCall | PxEvent PeUnsetStateHandler | PxField PfUnsetStateHandler => 5
  | SkField SfSetCallResult | PxEvent PeStateCallback | PxField PfStateCallback => 6
  | PxEvent PeSetReceive | PxField PfSetReceive => 7
  | PxEvent PeUnsetReceive | PxField PfUnsetReceive => 8
  | PxEvent PeReceiveCallback | PxField PfReceiveCallback => 9
  | PxEvent PeGetNew | PxField PfGetNew => 10
  | PxEvent PeGetNewCallback | PxField PfGetNewCallback => 11
  | PxField PfGet => 12
  | PxField PfGetResult => 13
  | PxField PfSet => 14
  | PxField PfSetResult => 15
  end.
(** Events and fields have different trace points *)
Definition kind_of (p : point) : kind :=
  match p with SkEvent _ | PxEvent _ => KEvent | SkField _ | PxField _ => KField end.

(** * The filter *)

(** T/service_element_identifier_view.h:35-45 *)
Record element := mkEl { e_service : name; e_name : name; e_kind : kind }.
(** T/service_element_identifier_view.cpp:20-24 operator==, service_element_identifier.cpp:20-24 *)
Definition element_eqb (a b : element) : bool :=
  name_eqb (e_service a) (e_service b) && (name_eqb (e_name a) (e_name b) && kind_eqb (e_kind a) (e_kind b)).
(** T/trace_point_key.h:26-46, trace_point_key.cpp:18-21 operator== *)
Definition key := (element * N)%type.
Definition key_eqb (a b : key) : bool := element_eqb (fst a) (fst b) && (snd a =? snd b).

(** T/trace_point_key.h:66-110 std::hash<TracePointKey>: names that do not fit the buffer of 1024
    bytes, together with the two bytes of kind and trace point, end the process. Every find and
    insert of the map hashes the key. (Standard libraries may leave out hashing when the map is
    empty; the model does not.) *)
Definition max_buffer : N := 1024.
Definition hashable (k : key) : bool :=
  N.of_nat (length (e_service (fst k)) + length (e_name (fst k))) + 2 <=? max_buffer.

(** std::unordered_map<TracePointKey, std::set<InstanceSpecifierView>>; the entries are kept in
    some order that the code does not determine. *)
Definition pmap := list (key * list name).
Fixpoint find_key (k : key) (m : pmap) : option (list name) :=
  match m with
  | [] => None
  | (k', v) :: t => if key_eqb k k' then Some v else find_key k t
  end.
Definition mem (x : name) (l : list name) : bool := existsb (name_eqb x) l.
(** insert of std::set *)
Definition insert (x : name) (l : list name) : list name := if mem x l then l else x :: l.
(** T/tracing_filter_config.cpp:51-70 InsertTracePointIntoMap, after the hashing *)
Fixpoint insert_point (k : key) (i : name) (m : pmap) : pmap :=
  match m with
  | [] => [(k, [i])]
  | (k', v) :: t => if key_eqb k k' then (k', insert i v) :: t else (k', v) :: insert_point k i t
  end.

(** T/tracing_filter_config.h:82-91, the four maps. The set of owned names is not modelled: only
    the views into it are. *)
Record filter := mkFilter { f_se : pmap; f_sf : pmap; f_pe : pmap; f_pf : pmap }.
Definition empty : filter := mkFilter [] [] [] [].
(** The map that the overload of IsTracePointEnabled / AddTracePoint uses,
    tracing_filter_config.cpp:289-397 *)
Definition map_of (p : point) (f : filter) : pmap :=
  match p with SkEvent _ => f_se f | SkField _ => f_sf f | PxEvent _ => f_pe f | PxField _ => f_pf f end.
Definition set_map (p : point) (m : pmap) (f : filter) : filter :=
  match p with
  | SkEvent _ => mkFilter m (f_sf f) (f_pe f) (f_pf f)
  | SkField _ => mkFilter (f_se f) m (f_pe f) (f_pf f)
  | PxEvent _ => mkFilter (f_se f) (f_sf f) m (f_pf f)
  | PxField _ => mkFilter (f_se f) (f_sf f) (f_pe f) m
  end.

(** tracing_filter_config.cpp:33-49 GetOrInsertStringInSet: the stored string is handed on as a
    char pointer, so the view ends before the first NUL character. *)
Fixpoint cut (s : name) : name :=
  match s with [] => [] | c :: t => if c =? 0 then [] else c :: cut t end.

(** tracing_filter_config.cpp:72-95 AddTracePointToMap and 343-397 AddTracePoint *)
Definition add_point (s e i : name) (p : point) (f : filter) : out filter :=
  if code p =? 0 then Terminates else
  let k := (mkEl (cut s) (cut e) (kind_of p), code p) in
  if hashable k then Done (set_map p (insert_point k i (map_of p f)) f) else Terminates.

(** tracing_filter_config.cpp:97-119 IsTracePointEnabledInMap and 289-341 IsTracePointEnabled *)
Definition is_enabled (f : filter) (s e i : name) (p : point) : out bool :=
  let k := (mkEl s e (kind_of p), code p) in
  if hashable k then
    Done (match find_key k (map_of p f) with None => false | Some l => mem i l end)
  else Terminates.

(** * The elements for which the deployment switches tracing on *)

(** C/tracing_configuration.h: std::map<ServiceElementIdentifier, std::unordered_set<InstanceSpecifier>> *)
Definition traced := list (element * list name).
Fixpoint find_el (k : element) (m : traced) : option (list name) :=
  match m with
  | [] => None
  | (k', v) :: t => if element_eqb k k' then Some v else find_el k t
  end.
(** C/tracing_configuration.cpp:70-93 SetServiceElementTracingEnabled *)
Fixpoint set_traced (k : element) (i : name) (m : traced) : out traced :=
  match m with
  | [] => Done [(k, [i])]
  | (k', v) :: t =>
      if element_eqb k k' then if mem i v then Terminates else Done ((k', i :: v) :: t)
      else t' <- set_traced k i t ;; Done ((k', v) :: t')
  end.
(** C/tracing_configuration.cpp:102-121 IsServiceElementTracingEnabled *)
Definition is_traced (m : traced) (k : element) (i : name) : out bool :=
  match find_el k m with
  | None => Done false
  | Some l => match create_specifier i with None => Terminates | Some x => Done (mem x l) end
  end.

(** A loop whose body may end the process *)
Fixpoint loop {A B} (f : A -> B -> out B) (l : list A) (b : B) : out B :=
  match l with
  | [] => Done b
  | a :: t => b' <- f a b ;; loop f t b'
  end.

(** C/configuration_json_parsing_strategy.cpp:519-576 ParseServiceElementTracingEnabled, for the
    events and for the fields of one instance (721-730). Simplified: it works on the parsed
    deployment, where the number of slots is 0 when the file has none. *)
Definition trace_el (s i : name) (k : kind) (x : name * N) (m : traced) : out traced :=
  if 0 <? snd x then set_traced (mkEl s (fst x) k) i m else Done m.
Definition ev_slots_of (l : lola_inst) (k : kind) : list (name * N) :=
  match k with
  | KEvent => map (fun x => (fst x, ev_tracing (snd x))) (li_events l)
  | KField => map (fun x => (fst x, ev_tracing (fd_event (snd x)))) (li_fields l)
  end.
Definition trace_inst (x : name * inst_depl) (m : traced) : out traced :=
  match in_binding (snd x) with
  | BBlank => Done m
  | BLola l =>
      let s := sv_name (in_service (snd x)) in
      m1 <- loop (trace_el s (fst x) KEvent) (ev_slots_of l KEvent) m ;;
      loop (trace_el s (fst x) KField) (ev_slots_of l KField) m1
  end.
(** C/configuration_json_parsing_strategy.cpp:743-774 ParseServiceInstances, what it records about
    tracing when tracing is switched on *)
Definition traced_of (insts : list (name * inst_depl)) : out traced := loop trace_inst insts [].

(** * Reading the filter file *)

(** As<T>() with a PRECONDITION_PRD or value() *)
Definition as_obj (j : json) : out object := match j with JObj o => Done o | _ => Terminates end.
Definition as_list (j : json) : out (list json) := match j with JList l => Done l | _ => Terminates end.
Definition as_str (j : json) : out name := match j with JStr s => Done s | _ => Terminates end.

(** T/tracing_filter_config_parser.cpp:46-137, the property names and the trace points they switch on *)
Definition not_implemented : list name := [str "trace_subscribe_received"; str "trace_unsubscribe_received"].
Definition px_event_table : list (name * point) := [
  (str "trace_subscribe_send", PxEvent PeSubscribe);
  (str "trace_unsubscribe_send", PxEvent PeUnsubscribe);
  (str "trace_subscription_state_changed", PxEvent PeStateChange);
  (str "trace_subscription_state_change_handler_registered", PxEvent PeSetStateHandler);
  (str "trace_subscription_state_change_handler_deregistered", PxEvent PeUnsetStateHandler);
  (str "trace_subscription_state_change_handler_callback", PxEvent PeStateCallback);
  (str "trace_get_new_samples", PxEvent PeGetNew);
  (str "trace_get_new_samples_callback", PxEvent PeGetNewCallback);
  (str "trace_receive_handler_registered", PxEvent PeSetReceive);
  (str "trace_receive_handler_deregistered", PxEvent PeUnsetReceive);
  (str "trace_receive_handler_callback", PxEvent PeReceiveCallback)].
Definition sk_event_table : list (name * point) := [
  (str "trace_send_allocate", SkEvent SeSendAlloc); (str "trace_send", SkEvent SeSend)].
Definition px_notifier_table : list (name * point) := [
  (str "trace_subscribe_send", PxField PfSubscribe);
  (str "trace_unsubscribe_send", PxField PfUnsubscribe);
  (str "trace_subscription_state_changed", PxField PfStateChange);
  (str "trace_subscription_state_change_handler_registered", PxField PfSetStateHandler);
  (str "trace_subscription_state_change_handler_deregistered", PxField PfUnsetStateHandler);
  (str "trace_subscription_state_change_handler_callback", PxField PfStateCallback);
  (str "trace_get_new_samples", PxField PfGetNew);
  (str "trace_get_new_samples_callback", PxField PfGetNewCallback);
  (str "trace_receive_handler_registered", PxField PfSetReceive);
  (str "trace_receive_handler_deregistered", PxField PfUnsetReceive);
  (str "trace_receive_handler_callback", PxField PfReceiveCallback)].
Definition px_getter_table : list (name * point) := [
  (str "trace_request_send", PxField PfGet); (str "trace_response_received", PxField PfGetResult)].
Definition px_setter_table : list (name * point) := [
  (str "trace_request_send", PxField PfSet); (str "trace_response_received", PxField PfSetResult)].
Definition sk_notifier_table : list (name * point) := [
  (str "trace_update", SkField SfUpdateAlloc); (str "trace_update", SkField SfUpdate)].
Definition sk_getter_table : list (name * point) := [
  (str "trace_request_received", SkField SfGetCall); (str "trace_response_send", SkField SfGetCallResult)].
Definition sk_setter_table : list (name * point) := [
  (str "trace_request_received", SkField SfSetCall); (str "trace_response_send", SkField SfSetCallResult)].

(** tracing_filter_config_parser.cpp:144-152 IsOptionalBoolPropertyEnabled *)
Definition is_set (o : object) (k : name) : out bool :=
  match find k o with None => Done false | Some (JBool b) => Done b | Some _ => Terminates end.
(** tracing_filter_config_parser.cpp:164-177 AddTracePoint *)
Definition add_if (o : object) (s e i : name) (x : name * point) (f : filter) : out filter :=
  b <- is_set o (fst x) ;; if b then add_point s e i (snd x) f else Done f.
(** tracing_filter_config_parser.cpp:238-247 and 347-355, what the warnings can end *)
Definition warn (o : object) (k : name) (f : filter) : out filter := _ <- is_set o k ;; Done f.

(** tracing_filter_config_parser.cpp:220-255, the body of the loop over the instances *)
Definition event_inst (tr : traced) (o : object) (s e : name) (i : name) (f : filter) : out filter :=
  b <- is_traced tr (mkEl s e KEvent) i ;;
  if b then
    f1 <- loop (add_if o s e i) px_event_table f ;;
    f2 <- loop (add_if o s e i) sk_event_table f1 ;;
    loop (warn o) not_implemented f2
  else Done f.
(** tracing_filter_config_parser.cpp:186-256 ParseEvent *)
Definition parse_event (tr : traced) (names insts : list name) (s : name) (j : json) (f : filter) : out filter :=
  o <- as_obj j ;;
  match find (str "shortname") o with
  | None => Done f
  | Some v =>
      e <- as_str v ;;
      if mem e names then loop (event_inst tr o s e) insts f else Done f
  end.

(** tracing_filter_config_parser.cpp:306-334 AddTracePointsFromSubObject *)
Definition add_sub (o : object) (sub s e i : name) (table : list (name * point)) (f : filter) : out filter :=
  match find sub o with
  | None => Done f
  | Some v => b <- as_obj v ;; loop (add_if b s e i) table f
  end.
(** tracing_filter_config_parser.cpp:337-357 WarnNotImplementedTracePointsFromSubObject *)
Definition warn_sub (o : object) (sub : name) (f : filter) : out filter :=
  match find sub o with
  | None => Done f
  | Some v => b <- as_obj v ;; loop (warn b) not_implemented f
  end.
(** tracing_filter_config_parser.cpp:402-457, the body of the loop over the instances *)
Definition field_inst (tr : traced) (o : object) (s e : name) (i : name) (f : filter) : out filter :=
  b <- is_traced tr (mkEl s e KField) i ;;
  if b then
    f1 <- add_sub o (str "notifier") s e i px_notifier_table f ;;
    f2 <- add_sub o (str "notifier") s e i sk_notifier_table f1 ;;
    f3 <- add_sub o (str "getter") s e i px_getter_table f2 ;;
    f4 <- add_sub o (str "getter") s e i sk_getter_table f3 ;;
    f5 <- add_sub o (str "setter") s e i px_setter_table f4 ;;
    f6 <- add_sub o (str "setter") s e i sk_setter_table f5 ;;
    warn_sub o (str "notifier") f6
  else Done f.
(** tracing_filter_config_parser.cpp:366-458 ParseField *)
Definition parse_field (tr : traced) (names insts : list name) (s : name) (j : json) (f : filter) : out filter :=
  o <- as_obj j ;;
  match find (str "shortname") o with
  | None => Done f
  | Some v =>
      e <- as_str v ;;
      if mem e names then loop (field_inst tr o s e) insts f else Done f
  end.

(** C/configuration.cpp:292-300 GetServiceTypeNames *)
Definition type_names (c : conf) : list name := map (fun x => sv_name (fst x)) (all_types c).
(** C/configuration.cpp:302-361 GetElementNamesOfServiceType *)
Definition type_elements (k : kind) (t : type_depl) : list name :=
  match t with
  | TBlank => []
  | TLola t => map fst (match k with KEvent => lt_events t | KField => lt_fields t end)
  end.
Definition element_names (c : conf) (s : name) (k : kind) : list name :=
  concat (map (fun x => if name_eqb (sv_name (fst x)) s then type_elements k (snd x) else []) (all_types c)).
(** C/configuration.cpp:410-420 GetInstancesOfServiceType. The std::set is sorted; the model keeps
    the order of the configuration. *)
Definition instances_of (c : conf) (s : name) : list name :=
  map fst (List.filter (fun x => name_eqb (sv_name (in_service (snd x))) s) (all_insts c)).

(** tracing_filter_config_parser.cpp:265-294 ParseEvents and 467-496 ParseFields *)
Definition parse_list (k : name) (f : json -> filter -> out filter) (o : object) (x : filter) : out filter :=
  match find k o with
  | None => Done x
  | Some v => l <- as_list v ;; loop f l x
  end.
(** tracing_filter_config_parser.cpp:539-568 ParseService; ParseMethods 505-530 does nothing *)
Definition parse_service (c : conf) (tr : traced) (j : json) (f : filter) : out filter :=
  o <- as_obj j ;;
  match find (str "shortname_path") o with
  | None => Done f
  | Some v =>
      s <- as_str v ;;
      if mem s (type_names c) then
        f1 <- parse_list (str "events") (parse_event tr (element_names c s KEvent) (instances_of c s) s) o f ;;
        parse_list (str "fields") (parse_field tr (element_names c s KField) (instances_of c s) s) o f1
      else Done f
  end.
(** tracing_filter_config_parser.cpp:577-604 ParseServices and 631-634 Parse *)
Definition parse (c : conf) (tr : traced) (j : json) : out filter :=
  o <- as_obj j ;;
  parse_list (str "services") (parse_service c tr) o empty.

(** score/mw/com/impl/runtime.cpp:93-108 ParseTraceConfig: [file] is what the JSON parser made of
    the filter file, nothing when it failed. *)
Definition load (on : bool) (file : option json) (c : conf) : out (option filter) :=
  if on then
    tr <- traced_of (all_insts c) ;;
    match file with
    | None => Done None
    | Some j => f <- parse c tr j ;; Done (Some f)
    end
  else Done None.

(** * The number of tracing slots *)

(** T/tracing_filter_config.cpp:121-156 DoesTracePointNeedTraceDoneCB, by the enumerators *)
Definition keeps_sample (skeleton : bool) (n : N) : bool := skeleton && ((n =? 1) || (n =? 2)).

(** tracing_filter_config.cpp:201-283, the slots of one instance *)
Definition slots_of_inst (c : conf) (e : element) (k : kind) (i : name) : out N :=
  match create_specifier i with
  | None => Terminates
  | Some x =>
      match get_inst c x with
      | None => Terminates
      | Some d =>
          match in_binding d with
          | BBlank => Terminates
          | BLola l => match find (e_name e) (ev_slots_of l k) with None => Terminates | Some n => Done n end
          end
      end
  end.
Definition slots_of_set (c : conf) (e : element) (k : kind) (l : list name) (n : N) : out N :=
  loop (fun i n => m <- slots_of_inst c e k i ;; Done (n + m)) l n.
(** tracing_filter_config.cpp:171-286 FindNumberOfTracingSlots; [m] lists the entries in the order
    in which the loop meets them, [seen] is the set shared by the four calls. The sum is a
    std::size_t in the code; it would need 2^56 entries to wrap around. *)
Fixpoint find_slots (c : conf) (skeleton : bool) (k : kind) (m : pmap) (seen : list element) (n : N)
  : out (list element * N) :=
  match m with
  | [] => Done (seen, n)
  | (x, l) :: t =>
      if negb (keeps_sample skeleton (snd x)) then find_slots c skeleton k t seen n
      else if existsb (element_eqb (fst x)) seen then find_slots c skeleton k t seen n
      else
        n' <- slots_of_set c (fst x) k l n ;;
        find_slots c skeleton k t (fst x :: seen) n'
  end.
(** tracing_filter_config.cpp:400-428 GetNumberOfTracingSlots; hash_helper_utility.h:24-45 Accumulate *)
Definition get_slots (c : conf) (f : filter) : out N :=
  a <- find_slots c true KEvent (f_se f) [] 0 ;;
  b <- find_slots c true KField (f_sf f) (fst a) 0 ;;
  d <- find_slots c false KEvent (f_pe f) (fst b) 0 ;;
  e <- find_slots c false KField (f_pf f) (fst d) 0 ;;
  let n := snd a + (snd b + (snd d + snd e)) in
  if 65535 <? n then Terminates else Done n.
