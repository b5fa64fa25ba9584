(** Reading the configuration file.
    P = score/mw/com/impl/configuration/configuration_json_parsing_strategy.cpp,
    C = score/mw/com/impl/configuration. *)
From Coq Require Import String.
From Verif Require Import Base NamesModel DeplModel ConfModel FilterModel.
Open Scope N_scope.

(** The JSON library is modelled as in DeplModel. Simplified: negative integers, which are accepted
    for the queue sizes only, are [JOther] and so refused; nothing reads the queue sizes. *)

(** json_map.find with PRECONDITION_PRD that the member exists *)
Definition need (o : object) (k : name) : out json :=
  match find k o with Some j => Done j | None => Terminates end.
(** As<T>() with PRECONDITION_PRD that it has a value (or value()) *)
Definition as_num (lim : N) (j : json) : out N :=
  match j with JNum n => if n <? lim then Done n else Terminates | _ => Terminates end.
Definition as_bool (j : json) : out bool := match j with JBool b => Done b | _ => Terminates end.
(** the same for a member that may be missing *)
Definition opt {A} (f : json -> out A) (o : object) (k : name) : out (option A) :=
  match find k o with None => Done None | Some j => a <- f j ;; Done (Some a) end.
Definition value_or {A} (d : A) (x : option A) : A := match x with Some a => a | None => d end.

(** P:49-116 *)
Definition p_instances := str "serviceInstances".
Definition p_specifier := str "instanceSpecifier".
Definition p_type_name := str "serviceTypeName".
Definition p_version := str "version".
Definition p_major := str "major".
Definition p_minor := str "minor".
Definition p_deployments := str "instances".
Definition p_binding := str "binding".
Definition p_bindings := str "bindings".
Definition p_asil := str "asil-level".
Definition p_service_id := str "serviceId".
Definition p_instance_id := str "instanceId".
Definition p_types := str "serviceTypes".
Definition p_events := str "events".
Definition p_event_name := str "eventName".
Definition p_event_id := str "eventId".
Definition p_fields := str "fields".
Definition p_field_name := str "fieldName".
Definition p_field_id := str "fieldId".
Definition p_methods := str "methods".
Definition p_method_name := str "methodName".
Definition p_method_id := str "methodId".
Definition p_queue := str "queueSize".
Definition p_use := str "use".
Definition p_slots := str "numberOfSampleSlots".
Definition p_max_samples := str "maxSamples".
Definition p_subscribers := str "maxSubscribers".
Definition p_enforce := str "enforceMaxSamples".
Definition p_allocations := str "maxConcurrentAllocations".
Definition p_get := str "useGetIfAvailable".
Definition p_set := str "useSetIfAvailable".
Definition p_shm_size := str "shm-size".
Definition p_b_size := str "control-asil-b-shm-size".
Definition p_qm_size := str "control-qm-shm-size".
Definition p_global := str "global".
Definition p_consumer := str "allowedConsumer".
Definition p_provider := str "allowedProvider".
Definition p_queues := str "queue-size".
Definition p_mode := str "shm-size-calc-mode".
Definition p_tracing := str "tracing".
Definition p_enable := str "enable".
Definition p_trace_app := str "applicationInstanceID".
Definition p_app := str "applicationID".
Definition p_filter := str "traceFilterConfigPath".
Definition p_vm := str "interVmSupport".
Definition p_vm_forwarded := str "interVmForwarded".
Definition p_trace_slots := str "numberOfIpcTracingSlots".
Definition p_permission := str "permission-checks".

(** * Parts of a service instance *)

(** P:131-142 ParseInstanceSpecifier, C/config_validate.cpp:63-72 CreateValidInstanceSpecifier *)
Definition parse_specifier (o : object) : out name :=
  j <- need o p_specifier ;; s <- as_str j ;;
  match create_specifier s with Some x => Done x | None => Terminates end.
(** P:144-190 ParseServiceTypeName, ParseVersion, ParseServiceTypeIdentifier: the name is handed on
    as name.data(), so it ends before the first NUL character *)
Definition parse_service (o : object) : out service :=
  j <- need o p_type_name ;; s <- as_str j ;;
  v <- need o p_version ;; vo <- as_obj v ;;
  a <- need vo p_major ;; b <- need vo p_minor ;;
  major <- as_num two32 a ;; minor <- as_num two32 b ;;
  Done (mkSv (cut s) major minor).

(** P:192-216 ParseAsilLevel *)
Definition parse_asil (o : object) : out (option quality) :=
  t <- opt as_str o p_asil ;;
  Done (match t with
        | None => None
        | Some s => Some (if name_eqb s (str "QM") then QQM else if name_eqb s (str "B") then QB else QInvalid)
        end).

(** P:276-282, the loop over the user ids *)
Fixpoint parse_uids (l : list json) : out (list N) :=
  match l with
  | [] => Done []
  | j :: t => n <- as_num two32 j ;; r <- parse_uids t ;; Done (n :: r)
  end.
(** P:257-302 ParseAllowedUser; user_map[...] = overwrites *)
Definition parse_user (e : name * json) (m : list (name * list N)) : out (list (name * list N)) :=
  l <- as_list (snd e) ;; ids <- parse_uids l ;;
  if name_eqb (fst e) (str "QM") then Done (put (quality_text QQM) ids m)
  else if name_eqb (fst e) (str "B") then Done (put (quality_text QB) ids m)
  else Terminates.
Definition parse_users (o : object) (k : name) : out (list (name * list N)) :=
  match find k o with
  | None => Done []
  | Some j => x <- as_obj j ;; loop parse_user x []
  end.

(** C/config_validate.h:35-44 EmplaceOrFatal for each element of a list *)
Fixpoint emplace_all {A} (f : json -> out (name * A)) (l : list json) (seen : list (name * A))
  : out (list (name * A)) :=
  match l with
  | [] => Done (rev seen)
  | j :: t =>
      x <- f j ;;
      match find (fst x) seen with
      | Some _ => Terminates
      | None => emplace_all f t (x :: seen)
      end
  end.
(** The list at key [k], nothing when the key is missing: P:382-392, 433-443, 490-500, 780-789,
    816-826, 853-863 *)
Definition parse_elements {A} (f : object -> out (name * A)) (o : object) (k : name)
  : out (list (name * A)) :=
  match find k o with
  | None => Done []
  | Some j => l <- as_list j ;; emplace_all (fun e => x <- as_obj e ;; f x) l []
  end.

(** P:118-129 AbortIfFound *)
Definition abort_if_found (o : object) (k : name) : out unit :=
  match find k o with Some _ => Terminates | None => Done tt end.
(** P:352-370 GetNumberOfSampleSlots *)
Definition parse_slots (o : object) : out (option N) :=
  match find p_max_samples o with
  | None => opt (as_num two16) o p_slots
  | Some j => match find p_slots o with
              | Some _ => Terminates
              | None => n <- as_num two16 j ;; Done (Some n)
              end
  end.
(** P:397-422, one event; the number of concurrent allocations is 1 *)
Definition parse_event_depl (o : object) : out (name * event_depl) :=
  _ <- abort_if_found o p_allocations ;;
  nj <- need o p_event_name ;; n <- as_str nj ;;
  slots <- parse_slots o ;;
  subs <- opt (as_num two8) o p_subscribers ;;
  enforce <- opt as_bool o p_enforce ;;
  tracing <- opt (as_num two8) o p_trace_slots ;;
  Done (n, mkEv slots subs (Some 1) (value_or true enforce) (value_or 0 tracing)).
(** P:448-480, one field; maxSamples is not looked at *)
Definition parse_field_depl (o : object) : out (name * field_depl) :=
  _ <- abort_if_found o p_allocations ;;
  nj <- need o p_field_name ;; n <- as_str nj ;;
  slots <- opt (as_num two16) o p_slots ;;
  subs <- opt (as_num two8) o p_subscribers ;;
  enforce <- opt as_bool o p_enforce ;;
  tracing <- opt (as_num two8) o p_trace_slots ;;
  g <- opt as_bool o p_get ;;
  s <- opt as_bool o p_set ;;
  Done (n, mkFd (mkEv slots subs (Some 1) (value_or true enforce) (value_or 0 tracing))
                (value_or true g) (value_or true s)).
(** P:505-511, one method *)
Definition parse_method_depl (o : object) : out (name * method_depl) :=
  n <- get_str o p_method_name ;;
  q <- opt (as_num two8) o p_queue ;;
  u <- opt as_bool o p_use ;;
  Done (n, mkMd q (value_or true u)).

(** P:578-594 ParsePermissionChecks, compared with "strict" in 665 *)
Definition parse_strict (o : object) : out bool :=
  t <- opt as_str o p_permission ;;
  match t with
  | None => Done false
  | Some s => if name_eqb s (str "strict") then Done true
              else if name_eqb s (str "file-permissions-on-empty") then Done false else Terminates
  end.

(** P:596-671 ParseLolaServiceInstanceDeployment *)
Definition parse_lola (o : object) : out lola_inst :=
  shm <- opt (as_num two64) o p_shm_size ;;
  b <- opt (as_num two64) o p_b_size ;;
  qm <- opt (as_num two64) o p_qm_size ;;
  i <- opt (as_num two16) o p_instance_id ;;
  vm <- opt as_bool o p_vm ;;
  fw <- opt as_bool o p_vm_forwarded ;;
  _ <- (if value_or false fw && negb (value_or false vm) then Terminates else Done tt) ;;
  e <- parse_elements parse_event_depl o p_events ;;
  f <- parse_elements parse_field_depl o p_fields ;;
  m <- parse_elements parse_method_depl o p_methods ;;
  strict <- parse_strict o ;;
  consumer <- parse_users o p_consumer ;;
  provider <- parse_users o p_provider ;;
  Done (mkLi i shm b qm e f m strict consumer provider (value_or false vm) (value_or false fw)).

(** P:543-575, one element of the list of events or fields *)
Definition trace_element (s i : name) (k : kind) (e : json) (m : traced) : out traced :=
  o <- as_obj e ;;
  nj <- need o (match k with KEvent => p_event_name | KField => p_field_name end) ;;
  n <- opt (as_num two8) o p_trace_slots ;;
  if 0 <? value_or 0 n then x <- as_str nj ;; set_traced (mkEl s x k) i m else Done m.
(** P:519-541 ParseServiceElementTracingEnabled *)
Definition trace_elements (o : object) (s i : name) (k : kind) (m : traced) : out traced :=
  match find (match k with KEvent => p_events | KField => p_fields end) o with
  | None => Done m
  | Some j => l <- as_list j ;; loop (trace_element s i k) l m
  end.

(** P:689-737, one element of the list of deployments; [on] is IsTracingEnabled *)
Definition parse_deployment (on : bool) (s : service) (i : name) (j : json)
  (x : list inst_depl * traced) : out (list inst_depl * traced) :=
  o <- as_obj j ;;
  q <- parse_asil o ;;
  q' <- (match q with Some QQM => Done QQM | Some QB => Done QB | _ => Terminates end) ;;
  bj <- need o p_binding ;; b <- as_str bj ;;
  if name_eqb b (str "SHM") then
    l <- parse_lola o ;;
    let d := mkInst s (BLola l) q' i in
    m <- (if on then
            m1 <- trace_elements o (sv_name s) i KEvent (snd x) ;;
            trace_elements o (sv_name s) i KField m1
          else Done (snd x)) ;;
    Done (fst x ++ [d], m)
  else Terminates.
(** P:673-739 ParseServiceInstanceDeployments and C/config_validate.h:49-58 ValidateSingleDeployment *)
Definition parse_single (on : bool) (o : object) (s : service) (i : name) (m : traced)
  : out (inst_depl * traced) :=
  dj <- need o p_deployments ;; dl <- as_list dj ;;
  r <- loop (parse_deployment on s i) dl ([], m) ;;
  match fst r with
  | [d] => Done (d, snd r)
  | _ => Terminates
  end.
(** P:754-772, one service instance *)
Definition parse_instance (on : bool) (j : json) (x : list (name * inst_depl) * traced)
  : out (list (name * inst_depl) * traced) :=
  o <- as_obj j ;;
  i <- parse_specifier o ;;
  s <- parse_service o ;;
  r <- parse_single on o s i (snd x) ;;
  match find i (fst x) with
  | Some _ => Terminates
  | None => Done (fst x ++ [(i, fst r)], snd r)
  end.
(** P:743-774 ParseServiceInstances *)
Definition parse_instances (on : bool) (o : object) : out (list (name * inst_depl) * traced) :=
  j <- need o p_instances ;; l <- as_list j ;; loop (parse_instance on) l ([], []).

(** * Service types *)

(** P:791-808, 828-845, 865-882: the id of an event, field or method *)
Definition parse_id (kn ki : name) (o : object) : out (name * N) :=
  nj <- need o kn ;; ij <- need o ki ;;
  n <- as_str nj ;; i <- as_num two16 ij ;; Done (n, i).
(** insertion into a std::set of ids that must all be new *)
Fixpoint distinct (l : list N) : bool :=
  match l with [] => true | n :: t => negb (existsb (N.eqb n) t) && distinct t end.
(** P:888-903 ParseLoLaServiceTypeDeployments, C/config_validate.cpp:27-61
    ValidateUniqueServiceElementIds *)
Definition parse_lola_type (o : object) : out lola_type :=
  ij <- need o p_service_id ;; i <- as_num two16 ij ;;
  e <- parse_elements (parse_id p_event_name p_event_id) o p_events ;;
  f <- parse_elements (parse_id p_field_name p_field_id) o p_fields ;;
  m <- parse_elements (parse_id p_method_name p_method_id) o p_methods ;;
  if distinct (map snd e ++ map snd f ++ map snd m) then Done (mkLt i e f m) else Terminates.
(** P:907-943 ParseServiceTypeDeployment: the loop returns in its first round *)
Definition parse_type_depl (o : object) : out type_depl :=
  bj <- need o p_bindings ;; bl <- as_list bj ;;
  match bl with
  | [] => Done TBlank
  | j :: _ =>
      x <- as_obj j ;; tj <- need x p_binding ;; t <- as_str tj ;;
      if name_eqb t (str "SHM") then l <- parse_lola_type x ;; Done (TLola l) else Terminates
  end.
(** P:958-968, one service type *)
Definition parse_type (j : json) (m : list (service * type_depl)) : out (list (service * type_depl)) :=
  o <- as_obj j ;; s <- parse_service o ;; t <- parse_type_depl o ;;
  match find_type s m with Some _ => Terminates | None => Done (m ++ [(s, t)]) end.
(** P:947-970 ParseServiceTypes *)
Definition parse_types (o : object) : out (list (service * type_depl)) :=
  j <- need o p_types ;; l <- as_list j ;; loop parse_type l [].

(** * Global and tracing properties *)

(** C/shm_size_calc_mode.h *)
Inductive size_mode := Simulation | Analysis.
(** C/global_configuration.h:97-106 *)
Record global := mkGlobal {
  g_level : quality; g_app : option N; g_rx_qm : N; g_rx_b : N; g_tx_b : N; g_mode : size_mode
}.
(** C/global_configuration.cpp:22-30 *)
Definition global_default : global := mkGlobal QQM None 10 10 20 Simulation.
Definition two31 : N := 2147483648.
(** P:972-1043 ParseReceiverQueueSize and ParseSenderQueueSize *)
Definition parse_queue (o : object) (k : name) : out (option N) :=
  match find p_queues o with
  | None => Done None
  | Some j => x <- as_obj j ;; opt (as_num two31) x k
  end.
(** P:218-245 ParseShmSizeCalcMode *)
Definition parse_mode (o : object) : out (option size_mode) :=
  t <- opt as_str o p_mode ;;
  match t with
  | None => Done None
  | Some s => if name_eqb s (str "SIMULATION") then Done (Some Simulation)
              else if name_eqb s (str "ANALYSIS") then Done (Some Analysis) else Terminates
  end.
(** P:1047-1127 ParseGlobalProperties *)
Definition parse_global (top : object) : out global :=
  match find p_global top with
  | None => Done global_default
  | Some j =>
      o <- as_obj j ;;
      q <- parse_asil o ;;
      level <- (match q with
                | None => Done QQM
                | Some QInvalid => Terminates
                | Some x => Done x
                end) ;;
      rq <- parse_queue o (str "QM-receiver") ;;
      rb <- parse_queue o (str "B-receiver") ;;
      tb <- parse_queue o (str "B-sender") ;;
      mode <- parse_mode o ;;
      app <- opt (as_num two32) o p_app ;;
      Done (mkGlobal level app (value_or 10 rq) (value_or 10 rb) (value_or 20 tb) (value_or Simulation mode))
  end.

(** score/mw/com/impl/tracing/configuration/tracing_config.h:21-31 *)
Record trace_conf := mkTrace { t_on : bool; t_app : name; t_filter : name }.
(** P:1172-1193 ParseTracingProperties with 1129-1168 *)
Definition parse_tracing (top : object) : out trace_conf :=
  match find p_tracing top with
  | None => Done (mkTrace false [] [])
  | Some j =>
      o <- as_obj j ;;
      on <- opt as_bool o p_enable ;;
      aj <- need o p_trace_app ;; a <- as_str aj ;;
      p <- opt as_str o p_filter ;;
      Done (mkTrace (value_or false on) a (value_or (str "./etc/mw_com_trace_filter.json") p))
  end.

(** * The configuration *)

Record parsed := mkParsed {
  pa_types : list (service * type_depl); pa_insts : list (name * inst_depl);
  pa_global : global; pa_trace : trace_conf; pa_traced : traced
}.
(** P:1230-1248 Parse *)
Definition read_conf (j : json) : out parsed :=
  o <- as_obj j ;;
  t <- parse_tracing o ;;
  types <- parse_types o ;;
  insts <- parse_instances (t_on t) o ;;
  g <- parse_global o ;;
  Done (mkParsed types (fst insts) g t (snd insts)).
(** P:1207-1222 Parse of a file: a file that is no JSON text ends the process *)
Definition read_file (j : option json) : out parsed :=
  match j with Some x => read_conf x | None => Terminates end.
(** C/configuration.cpp:24-35 *)
Definition conf_of (p : parsed) : conf := make_conf (pa_types p) (pa_insts p) (g_level (pa_global p)).
