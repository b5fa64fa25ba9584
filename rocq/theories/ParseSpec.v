(** What a configuration file says, in the words of its schema
    (score/mw/com/impl/configuration/mw_com_config_schema.json and README.md). *)
From Coq Require Import String.
From Verif Require Import Base NamesModel DeplModel ConfModel FilterModel ParseModel.
Open Scope N_scope.

(** * JSON values *)

(** An object is a map: no key occurs twice, here and in every value inside *)
Fixpoint unique_keys (j : json) : Prop :=
  match j with
  | JList l => (fix go l := match l with [] => True | x :: t => unique_keys x /\ go t end) l
  | JObj o => NoDup (map fst o) /\
              (fix go o := match o with [] => True | (_, x) :: t => unique_keys x /\ go t end) o
  | _ => True
  end.

Definition is_num (lim : N) (j : json) (n : N) : Prop := j = JNum n /\ n < lim.
Definition is_flag (j : json) (b : bool) : Prop := j = JBool b.
Definition is_text (j : json) (s : name) : Prop := j = JStr s.
(** a list of user ids *)
Definition is_uids (j : json) (l : list N) : Prop := j = JList (map JNum l) /\ forall u, In u l -> u < two32.

(** the member [k] of the object is there and is [a]; may be missing; has a default *)
Definition has {A} (R : json -> A -> Prop) (o : object) (k : name) (a : A) : Prop :=
  exists j, find k o = Some j /\ R j a.
Definition missing (o : object) (k : name) : Prop := find k o = None.
Definition may_have {A} (R : json -> A -> Prop) (o : object) (k : name) (v : option A) : Prop :=
  match v with Some a => has R o k a | None => missing o k end.
Definition has_or {A} (R : json -> A -> Prop) (d : A) (o : object) (k : name) (a : A) : Prop :=
  has R o k a \/ missing o k /\ a = d.
(** the member [k] is a list of objects that describe the elements one by one *)
Definition lists {A} (R : object -> A -> Prop) (j : json) (l : list A) : Prop :=
  exists js, j = JList js /\ Forall2 (fun e a => exists o, e = JObj o /\ R o a) js l.
(** the same for named elements: the list may be missing, no name occurs twice *)
Definition named {A} (R : object -> name * A -> Prop) (o : object) (k : name) (l : list (name * A)) : Prop :=
  has_or (lists R) [] o k l /\ NoDup (map fst l).

(** * Service instances *)

(** The name of a service type; what follows a NUL character is not part of it *)
Definition says_service (o : object) (s : service) : Prop :=
  (exists n, has is_text o (str "serviceTypeName") n /\ cut n = sv_name s) /\
  exists v, find (str "version") o = Some (JObj v) /\
    has (is_num two32) v (str "major") (sv_major s) /\ has (is_num two32) v (str "minor") (sv_minor s).
(** Events: either numberOfSampleSlots or the old maxSamples, or none of them *)
Definition says_slots (o : object) (v : option N) : Prop :=
  missing o (str "maxSamples") /\ may_have (is_num two16) o (str "numberOfSampleSlots") v \/
  exists n, v = Some n /\ has (is_num two16) o (str "maxSamples") n /\ missing o (str "numberOfSampleSlots").
Definition says_event (o : object) (x : name * event_depl) : Prop :=
  let e := snd x in
  has is_text o (str "eventName") (fst x) /\ missing o (str "maxConcurrentAllocations") /\
  says_slots o (ev_slots e) /\ may_have (is_num two8) o (str "maxSubscribers") (ev_subs e) /\
  ev_allocs e = Some 1 /\ has_or is_flag true o (str "enforceMaxSamples") (ev_enforce e) /\
  has_or (is_num two8) 0 o (str "numberOfIpcTracingSlots") (ev_tracing e).
Definition says_field (o : object) (x : name * field_depl) : Prop :=
  let e := fd_event (snd x) in
  has is_text o (str "fieldName") (fst x) /\ missing o (str "maxConcurrentAllocations") /\
  may_have (is_num two16) o (str "numberOfSampleSlots") (ev_slots e) /\
  may_have (is_num two8) o (str "maxSubscribers") (ev_subs e) /\
  ev_allocs e = Some 1 /\ has_or is_flag true o (str "enforceMaxSamples") (ev_enforce e) /\
  has_or (is_num two8) 0 o (str "numberOfIpcTracingSlots") (ev_tracing e) /\
  has_or is_flag true o (str "useGetIfAvailable") (fd_get (snd x)) /\
  has_or is_flag true o (str "useSetIfAvailable") (fd_set (snd x)).
Definition says_method (o : object) (x : name * method_depl) : Prop :=
  has is_text o (str "methodName") (fst x) /\
  may_have (is_num two8) o (str "queueSize") (md_queue (snd x)) /\
  has_or is_flag true o (str "use") (md_use (snd x)).

(** The lists of allowed users: one per quality level *)
Definition entry {A} (k : name) (v : option A) : list (name * A) :=
  match v with Some a => [(k, a)] | None => [] end.
Definition says_users (o : object) (k : name) (m : list (name * list N)) : Prop :=
  missing o k /\ m = [] \/
  exists u b q, find k o = Some (JObj u) /\
    (forall n, In n (map fst u) -> n = str "QM" \/ n = str "B") /\
    may_have is_uids u (str "B") b /\ may_have is_uids u (str "QM") q /\
    m = entry (quality_text QB) b ++ entry (quality_text QQM) q.
(** Only "strict" and "file-permissions-on-empty", the default *)
Definition says_strict (o : object) (b : bool) : Prop :=
  b = true /\ has is_text o (str "permission-checks") (str "strict") \/
  b = false /\ has_or is_text (str "file-permissions-on-empty") o (str "permission-checks")
                  (str "file-permissions-on-empty").
Definition says_lola (o : object) (l : lola_inst) : Prop :=
  may_have (is_num two16) o (str "instanceId") (li_id l) /\
  may_have (is_num two64) o (str "shm-size") (li_shm l) /\
  may_have (is_num two64) o (str "control-asil-b-shm-size") (li_b l) /\
  may_have (is_num two64) o (str "control-qm-shm-size") (li_qm l) /\
  named says_event o (str "events") (li_events l) /\
  named says_field o (str "fields") (li_fields l) /\
  named says_method o (str "methods") (li_methods l) /\
  says_strict o (li_strict l) /\
  says_users o (str "allowedConsumer") (li_consumer l) /\
  says_users o (str "allowedProvider") (li_provider l) /\
  has_or is_flag false o (str "interVmSupport") (li_vm l) /\
  has_or is_flag false o (str "interVmForwarded") (li_forwarded l) /\
  (li_forwarded l = true -> li_vm l = true).
Definition level_name (q : quality) (s : name) : Prop :=
  q = QQM /\ s = str "QM" \/ q = QB /\ s = str "B".
(** One deployment of a service instance *)
Definition says_deployment (o : object) (d : inst_depl) : Prop :=
  (exists s, has is_text o (str "asil-level") s /\ level_name (in_asil d) s) /\
  has is_text o (str "binding") (str "SHM") /\
  exists l, in_binding d = BLola l /\ says_lola o l.
(** A service instance has exactly one deployment *)
Definition says_instance (o : object) (x : name * inst_depl) : Prop :=
  has is_text o (str "instanceSpecifier") (fst x) /\ create_specifier (fst x) = Some (fst x) /\
  in_spec (snd x) = fst x /\ says_service o (in_service (snd x)) /\
  has (lists says_deployment) o (str "instances") [snd x].

(** * Service types *)

Definition says_id (kn ki : name) (o : object) (x : name * N) : Prop :=
  has is_text o kn (fst x) /\ has (is_num two16) o ki (snd x).
(** The ids of events, fields and methods are all different *)
Definition says_lola_type (o : object) (t : lola_type) : Prop :=
  has (is_num two16) o (str "serviceId") (lt_id t) /\
  named (says_id (str "eventName") (str "eventId")) o (str "events") (lt_events t) /\
  named (says_id (str "fieldName") (str "fieldId")) o (str "fields") (lt_fields t) /\
  named (says_id (str "methodName") (str "methodId")) o (str "methods") (lt_methods t) /\
  NoDup (map snd (lt_events t) ++ map snd (lt_fields t) ++ map snd (lt_methods t)).
(** The first of the bindings counts *)
Definition says_type (o : object) (x : service * type_depl) : Prop :=
  says_service o (fst x) /\
  exists bs, find (str "bindings") o = Some (JList bs) /\
    match snd x with
    | TBlank => bs = []
    | TLola t => exists b r, bs = JObj b :: r /\ has is_text b (str "binding") (str "SHM") /\ says_lola_type b t
    end.

(** * The rest *)

Definition says_queue (o : object) (k : name) (d n : N) : Prop :=
  missing o (str "queue-size") /\ n = d \/
  exists q, find (str "queue-size") o = Some (JObj q) /\ has_or (is_num (2 ^ 31)) d q k n.
Definition mode_name (m : size_mode) (s : name) : Prop :=
  m = Simulation /\ s = str "SIMULATION" \/ m = Analysis /\ s = str "ANALYSIS".
Definition says_global (o : object) (g : global) : Prop :=
  ((exists s, has is_text o (str "asil-level") s /\ level_name (g_level g) s) \/
   missing o (str "asil-level") /\ g_level g = QQM) /\
  may_have (is_num two32) o (str "applicationID") (g_app g) /\
  says_queue o (str "QM-receiver") 10 (g_rx_qm g) /\ says_queue o (str "B-receiver") 10 (g_rx_b g) /\
  says_queue o (str "B-sender") 20 (g_tx_b g) /\
  ((exists s, has is_text o (str "shm-size-calc-mode") s /\ mode_name (g_mode g) s) \/
   missing o (str "shm-size-calc-mode") /\ g_mode g = Simulation).
Definition says_trace (o : object) (t : trace_conf) : Prop :=
  has_or is_flag false o (str "enable") (t_on t) /\
  has is_text o (str "applicationInstanceID") (t_app t) /\
  has_or is_text (str "./etc/mw_com_trace_filter.json") o (str "traceFilterConfigPath") (t_filter t).
(** A section of the file: what it says, or what holds when it is missing *)
Definition section {A} (R : object -> A -> Prop) (d : A) (o : object) (k : name) (a : A) : Prop :=
  missing o k /\ a = d \/ exists x, find k o = Some (JObj x) /\ R x a.

(** The file describes these service types, service instances, global and tracing properties: no
    type (name and version) and no instance specifier twice *)
Definition says (j : json) (types : list (service * type_depl)) (insts : list (name * inst_depl))
  (g : global) (t : trace_conf) : Prop :=
  exists o, j = JObj o /\
    has (lists says_type) o (str "serviceTypes") types /\ NoDup (map fst types) /\
    has (lists says_instance) o (str "serviceInstances") insts /\ NoDup (map fst insts) /\
    section says_global (mkGlobal QQM None 10 10 20 Simulation) o (str "global") g /\
    section says_trace (mkTrace false [] []) o (str "tracing") t.
