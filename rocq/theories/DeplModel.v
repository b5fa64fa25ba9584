(** Deployments of service types and service instances, their JSON form, their comparisons.
    Strings are lists of byte values. C = score/mw/com/impl/configuration. *)
From Coq Require Import String Ascii.
From Verif Require Import Base NamesModel.
Open Scope N_scope.

Definition name := list N.

(** A C string constant as byte values *)
Fixpoint str (s : string) : name :=
  match s with EmptyString => [] | String a t => N_of_ascii a :: str t end.

(** std::string::compare: lexicographic, characters as unsigned char *)
Fixpoint name_cmp (a b : name) : comparison :=
  match a, b with
  | [], [] => Eq
  | [], _ :: _ => Lt
  | _ :: _, [] => Gt
  | x :: s, y :: t => match x ?= y with Eq => name_cmp s t | r => r end
  end.
Definition name_eqb (a b : name) : bool := match name_cmp a b with Eq => true | _ => false end.
Definition name_ltb (a b : name) : bool := match name_cmp a b with Lt => true | _ => false end.

(** * Maps *)

(** find of std::map and std::unordered_map *)
Fixpoint find {A} (k : name) (m : list (name * A)) : option A :=
  match m with
  | [] => None
  | (k', v) :: t => if name_eqb k k' then Some v else find k t
  end.

(** operator[] = of std::map: the entries are kept in the order of the keys *)
Fixpoint put {A} (k : name) (v : A) (m : list (name * A)) : list (name * A) :=
  match m with
  | [] => [(k, v)]
  | (k', v') :: t =>
      match name_cmp k k' with
      | Lt => (k, v) :: m
      | Eq => (k, v) :: t
      | Gt => (k', v') :: put k v t
      end
  end.

(** operator== of std::unordered_map: the sizes agree and every entry is found with an equal value *)
Definition map_eqb {A} (eqb : A -> A -> bool) (a b : list (name * A)) : bool :=
  Nat.eqb (length a) (length b) &&
  forallb (fun e => match find (fst e) b with Some v => eqb (snd e) v | None => false end) a.

Definition opt_eqb {A} (eqb : A -> A -> bool) (a b : option A) : bool :=
  match a, b with
  | Some x, Some y => eqb x y
  | None, None => true
  | _, _ => false
  end.

(** operator== of std::vector *)
Fixpoint vec_eqb (a b : list N) : bool :=
  match a, b with
  | [], [] => true
  | x :: s, y :: t => (x =? y) && vec_eqb s t
  | _, _ => false
  end.

(** * JSON *)

(** score::json::Any. Numbers that are not non-negative integers, and null, are [JOther]: no As<T>
    used here accepts them. The library itself (parser, writer, numeric conversions) is not
    modelled: As<T> of a number is taken to succeed exactly when the number fits T. *)
Inductive json :=
| JNum (n : N) | JBool (b : bool) | JStr (s : name) | JList (l : list json)
| JObj (o : list (name * json)) | JOther.
Definition object := list (name * json).

(** The outcome of a piece of code: a value, std::terminate (or a failed ASSERT_PRD, or value() of
    an error), or undefined behaviour. *)
Inductive out (A : Type) := Done (a : A) | Terminates | Undefined.
Arguments Done {A}. Arguments Terminates {A}. Arguments Undefined {A}.
Definition bind {A B} (x : out A) (f : A -> out B) : out B :=
  match x with Done a => f a | Terminates => Terminates | Undefined => Undefined end.
Notation "x <- e ;; f" := (bind e (fun x => f)) (at level 61, e at next level, right associativity).

(** C/configuration_common_resources.h:63-77 GetValueFromJson for arithmetic types. The check that
    the key exists is an assertion that release builds drop: dereferencing end() is undefined. *)
Definition get_num (lim : N) (o : object) (k : name) : out N :=
  match find k o with
  | None => Undefined
  | Some (JNum n) => if n <? lim then Done n else Terminates
  | Some _ => Terminates
  end.
Definition get_bool (o : object) (k : name) : out bool :=
  match find k o with None => Undefined | Some (JBool b) => Done b | Some _ => Terminates end.

(** configuration_common_resources.h:45-61 and 79-93 GetValueFromJson for objects and strings: the
    check stays in release builds *)
Definition get_obj (o : object) (k : name) : out object :=
  match find k o with Some (JObj x) => Done x | _ => Terminates end.
Definition get_str (o : object) (k : name) : out name :=
  match find k o with Some (JStr x) => Done x | _ => Terminates end.

(** configuration_common_resources.h:95-112 GetOptionalValueFromJson *)
Definition get_opt_num (lim : N) (o : object) (k : name) : out (option N) :=
  match find k o with
  | None => Done None
  | Some (JNum n) => if n <? lim then Done (Some n) else Terminates
  | Some _ => Terminates
  end.

(** configuration_common_resources.h:181-192 ConvertServiceElementMapToJson,
    C/binding_service_type_deployment_impl.h:47-57 ConvertServiceElementIdMapToJson,
    C/lola_service_instance_deployment.cpp:83-98 ConvertUidMapToJson: the entries are inserted one
    by one; the keys of the unordered_map are distinct, so each insertion succeeds *)
Definition map_to_json {A} (ser : A -> json) (m : list (name * A)) : json :=
  JObj (fold_left (fun o e => put (fst e) (ser (snd e)) o) m []).

(** configuration_common_resources.h:194-212 ConvertJsonToServiceElementMap and its two siblings
    (binding_service_type_deployment_impl.h:59-85, lola_service_instance_deployment.cpp:50-81):
    every entry is converted and inserted, a key met twice ends the process *)
Fixpoint entries_from {A} (des : json -> out A) (o : object) (seen : list (name * A))
  : out (list (name * A)) :=
  match o with
  | [] => Done (rev seen)
  | (k, j) :: t =>
      v <- des j ;;
      match find k seen with
      | Some _ => Terminates
      | None => entries_from des t ((k, v) :: seen)
      end
  end.
Definition map_from_json {A} (des : json -> out A) (o : object) (k : name) : out (list (name * A)) :=
  x <- get_obj o k ;; entries_from des x [].

Definition two8 : N := 256.
Definition two63 : N := 9223372036854775808.

(** * Keys *)
Definition k_version := str "serializationVersion".
Definition k_binding := str "bindingInfo".
Definition k_index := str "bindingInfoIndex".
Definition k_asil := str "asilLevel".
Definition k_spec := str "instanceSpecifier".
Definition k_service := str "service".
Definition k_instance_id := str "instanceId".
Definition k_shm_size := str "sharedMemorySize".
Definition k_b_size := str "controlAsilBMemorySize".
Definition k_qm_size := str "controlQmMemorySize".
Definition k_events := str "events".
Definition k_fields := str "fields".
Definition k_methods := str "methods".
Definition k_strict := str "strict".
Definition k_consumer := str "allowedConsumer".
Definition k_provider := str "allowedProvider".
Definition k_vm := str "interVmSupport".
Definition k_vm_forwarded := str "interVmForwarded".
Definition k_slots := str "numberOfSampleSlots".
Definition k_subs := str "maxSubscribers".
Definition k_allocs := str "maxConcurrentAllocations".
Definition k_enforce := str "enforceMaxSamples".
Definition k_tracing := str "numberOfIpcTracingSlots".
Definition k_get := str "useGetIfAvailable".
Definition k_set := str "useSetIfAvailable".
Definition k_queue := str "queueSize".
Definition k_use := str "use".
Definition k_type_name := str "serviceType".
Definition k_service_version := str "version".
Definition k_major := str "majorVersion".
Definition k_minor := str "minorVersion".
Definition k_service_id := str "serviceId".
Definition k_inst_depl := str "serviceInstanceDeployment".
Definition k_type_depl := str "serviceTypeDeployment".

(** The version check after each object: serializationVersion is 1 everywhere. *)
Definition check_version (o : object) : out unit :=
  v <- get_num two32 o k_version ;; if v =? 1 then Done tt else Terminates.

(** * Quality levels *)

(** C/quality_type.h:22-27 *)
Inductive quality := QInvalid | QQM | QB.
Definition quality_code (q : quality) : N := match q with QInvalid => 0 | QQM => 1 | QB => 2 end.
Definition quality_eqb (a b : quality) : bool := quality_code a =? quality_code b.
(** C/quality_type.cpp:29-51 ToString *)
Definition quality_text (q : quality) : name :=
  match q with QInvalid => str "kInvalid" | QQM => str "kASIL_QM" | QB => str "kASIL_B" end.
(** C/quality_type.cpp:53-71 FromString *)
Definition quality_of (s : name) : out quality :=
  if name_eqb s (str "kInvalid") then Done QInvalid
  else if name_eqb s (str "kASIL_QM") then Done QQM
  else if name_eqb s (str "kASIL_B") then Done QB
  else Terminates.

(** * Events, fields, methods *)

(** C/lola_event_instance_deployment.h:25-76 *)
Record event_depl := mkEv {
  ev_slots : option N; ev_subs : option N; ev_allocs : option N; ev_enforce : bool; ev_tracing : N
}.

(** json_object[k] = value, when the optional has one *)
Definition put_opt (k : name) (v : option N) (o : object) : object :=
  match v with Some n => put k (JNum n) o | None => o end.

(** C/lola_event_instance_deployment.cpp:86-110 Serialize: the number of tracing slots is written as
    the constant 0 *)
Definition ser_event (e : event_depl) : object :=
  put k_tracing (JNum 0)
    (put k_enforce (JBool (ev_enforce e))
       (put_opt k_allocs (ev_allocs e)
          (put k_version (JNum 1)
             (put_opt k_subs (ev_subs e)
                (put_opt k_slots (ev_slots e) []))))).

(** lola_event_instance_deployment.cpp:55-80 CreateFromJson *)
Definition des_event (o : object) : out event_depl :=
  _ <- check_version o ;;
  slots <- get_opt_num two16 o k_slots ;;
  subs <- get_opt_num two8 o k_subs ;;
  allocs <- get_opt_num two8 o k_allocs ;;
  enforce <- get_bool o k_enforce ;;
  tracing <- get_opt_num two8 o k_tracing ;;
  Done (mkEv slots subs allocs enforce (match tracing with Some n => n | None => 0 end)).

(** lola_event_instance_deployment.cpp:151-163 operator== *)
Definition event_eqb (a b : event_depl) : bool :=
  opt_eqb N.eqb (ev_slots a) (ev_slots b) && (ev_tracing a =? ev_tracing b) &&
  opt_eqb N.eqb (ev_subs a) (ev_subs b) && opt_eqb N.eqb (ev_allocs a) (ev_allocs b) &&
  Bool.eqb (ev_enforce a) (ev_enforce b).

(** lola_event_instance_deployment.cpp:116-132 GetNumberOfSampleSlots *)
Definition sample_slots (e : event_depl) : out (option N) :=
  match ev_slots e with
  | None => Done None
  | Some n => if 65535 <? n + ev_tracing e then Terminates else Done (Some (n + ev_tracing e))
  end.

(** C/lola_field_instance_deployment.h:27-55 *)
Record field_depl := mkFd { fd_event : event_depl; fd_get : bool; fd_set : bool }.
(** C/lola_field_instance_deployment.cpp:57-65 Serialize *)
Definition ser_field (f : field_depl) : object :=
  put k_set (JBool (fd_set f)) (put k_get (JBool (fd_get f)) (ser_event (fd_event f))).
(** lola_field_instance_deployment.cpp:46-55 CreateFromJson *)
Definition des_field (o : object) : out field_depl :=
  e <- des_event o ;; g <- get_bool o k_get ;; s <- get_bool o k_set ;; Done (mkFd e g s).
(** lola_field_instance_deployment.cpp:67-76 operator== *)
Definition field_eqb (a b : field_depl) : bool :=
  event_eqb (fd_event a) (fd_event b) && Bool.eqb (fd_get a) (fd_get b) &&
  Bool.eqb (fd_set a) (fd_set b).

(** C/lola_method_instance_deployment.h:33-82 *)
Record method_depl := mkMd { md_queue : option N; md_use : bool }.
(** C/lola_method_instance_deployment.cpp:50-60 Serialize *)
Definition ser_method (m : method_depl) : object :=
  put k_use (JBool (md_use m)) (put_opt k_queue (md_queue m) []).
(** lola_method_instance_deployment.cpp:36-42 *)
Definition des_method (o : object) : out method_depl :=
  q <- get_opt_num two8 o k_queue ;; u <- get_bool o k_use ;; Done (mkMd q u).
(** lola_method_instance_deployment.h:79-82 operator== *)
Definition method_eqb (a b : method_depl) : bool :=
  opt_eqb N.eqb (md_queue a) (md_queue b) && Bool.eqb (md_use a) (md_use b).

(** * Service types *)

(** C/service_identifier_type.h and service_version_type.h: name, major and minor version *)
Record service := mkSv { sv_name : name; sv_major : N; sv_minor : N }.
(** C/service_identifier_type.cpp:74-77 operator==, C/service_version_type.cpp:72-75 *)
Definition service_eqb (a b : service) : bool :=
  name_eqb (sv_name a) (sv_name b) && ((sv_major a =? sv_major b) && (sv_minor a =? sv_minor b)).
(** service_version_type.cpp:77-84 operator< *)
Definition version_ltb (a b : service) : bool :=
  if sv_major a =? sv_major b then sv_minor a <? sv_minor b else sv_major a <? sv_major b.
(** service_identifier_type.cpp:79-86 operator< *)
Definition service_ltb (a b : service) : bool :=
  if name_eqb (sv_name a) (sv_name b) then version_ltb a b else name_ltb (sv_name a) (sv_name b).
(** service_version_type.cpp:62-70 Serialize *)
Definition ser_version (s : service) : object :=
  put k_minor (JNum (sv_minor s)) (put k_major (JNum (sv_major s)) (put k_version (JNum 1) [])).
(** service_identifier_type.cpp:65-72 Serialize *)
Definition ser_service (s : service) : object :=
  put k_version (JNum 1)
    (put k_service_version (JObj (ser_version s)) (put k_type_name (JStr (sv_name s)) [])).
(** service_identifier_type.cpp:47-58 and service_version_type.cpp:45-55 *)
Definition des_service (o : object) : out service :=
  n <- get_str o k_type_name ;;
  v <- get_obj o k_service_version ;;
  major <- get_num two32 v k_major ;;
  minor <- get_num two32 v k_minor ;;
  _ <- check_version v ;;
  _ <- check_version o ;;
  Done (mkSv n major minor).

(** C/binding_service_type_deployment.h:27-74 with 16-bit ids (C/lola_service_type_deployment.h:25) *)
Record lola_type := mkLt {
  lt_id : N; lt_events : list (name * N); lt_fields : list (name * N); lt_methods : list (name * N)
}.
(** C/service_type_deployment.h: std::variant<LolaServiceTypeDeployment, blank> *)
Inductive type_depl := TLola (t : lola_type) | TBlank.

(** As<std::uint16_t>().value() *)
Definition des_id (j : json) : out N :=
  match j with JNum n => if n <? two16 then Done n else Terminates | _ => Terminates end.
(** C/binding_service_type_deployment_impl.h:133-146 Serialize *)
Definition ser_lola_type (t : lola_type) : object :=
  put k_methods (map_to_json JNum (lt_methods t))
    (put k_fields (map_to_json JNum (lt_fields t))
       (put k_events (map_to_json JNum (lt_events t))
          (put k_service_id (JNum (lt_id t)) (put k_version (JNum 1) [])))).
(** binding_service_type_deployment_impl.h:117-131 *)
Definition des_lola_type (o : object) : out lola_type :=
  i <- get_num two16 o k_service_id ;;
  e <- map_from_json des_id o k_events ;;
  f <- map_from_json des_id o k_fields ;;
  m <- map_from_json des_id o k_methods ;;
  _ <- check_version o ;;
  Done (mkLt i e f m).
(** binding_service_type_deployment_impl.h:155-161 operator== *)
Definition lola_type_eqb (a b : lola_type) : bool :=
  (lt_id a =? lt_id b) && map_eqb N.eqb (lt_events a) (lt_events b) &&
  map_eqb N.eqb (lt_fields a) (lt_fields b) && map_eqb N.eqb (lt_methods a) (lt_methods b).
(** C/service_type_deployment.cpp:139-142 operator== *)
Definition type_eqb (a b : type_depl) : bool :=
  match a, b with
  | TLola x, TLola y => lola_type_eqb x y
  | TBlank, TBlank => true
  | _, _ => false
  end.
(** C/service_type_deployment.cpp:118-132 Serialize *)
Definition ser_type (t : type_depl) : object :=
  match t with
  | TLola x => put k_binding (JObj (ser_lola_type x)) (put k_version (JNum 1) (put k_index (JNum 0) []))
  | TBlank => put k_version (JNum 1) (put k_index (JNum 1) [])
  end.
(** service_type_deployment.cpp:101-109 and 30-38, configuration_common_resources.h:114-179
    DeserializeVariant: index 0 is the LoLa alternative, 1 is blank, others fail an assertion *)
Definition des_type (o : object) : out type_depl :=
  i <- get_num two63 o k_index ;;
  t <- (if i =? 0 then x <- get_obj o k_binding ;; l <- des_lola_type x ;; Done (TLola l)
        else if i =? 1 then Done TBlank else Terminates) ;;
  _ <- check_version o ;;
  Done t.

(** * Service instances *)

(** C/lola_service_instance_deployment.h:38-92; the user lists are keyed by the quality level's
    text, which ToString and FromString map one to one *)
Record lola_inst := mkLi {
  li_id : option N; li_shm : option N; li_b : option N; li_qm : option N;
  li_events : list (name * event_depl); li_fields : list (name * field_depl);
  li_methods : list (name * method_depl); li_strict : bool;
  li_consumer : list (name * list N); li_provider : list (name * list N);
  li_vm : bool; li_forwarded : bool
}.
(** C/service_instance_deployment.h:37-77; std::variant<LolaServiceInstanceDeployment, blank> *)
Inductive binding := BLola (l : lola_inst) | BBlank.
Record inst_depl := mkInst {
  in_service : service; in_binding : binding; in_asil : quality; in_spec : name
}.

(** C/lola_service_instance_id.cpp:58-64 Serialize *)
Definition ser_instance_id (i : N) : object := put k_version (JNum 1) (put k_instance_id (JNum i) []).
(** lola_service_instance_id.cpp:47-56 *)
Definition des_instance_id (o : object) : out N :=
  i <- get_num two16 o k_instance_id ;; _ <- check_version o ;; Done i.

(** lola_service_instance_deployment.cpp:68-75 *)
Fixpoint des_uids (l : list json) : out (list N) :=
  match l with
  | [] => Done []
  | JNum n :: t => if n <? two32 then r <- des_uids t ;; Done (n :: r) else Terminates
  | _ => Terminates
  end.
Definition des_uid_list (j : json) : out (list N) :=
  match j with JList l => des_uids l | _ => Terminates end.
(** lola_service_instance_deployment.cpp:50-81 ConvertJsonToUidMap: FromString ends the process for
    a key that is no quality level *)
Definition des_uid_map (o : object) (k : name) : out (list (name * list N)) :=
  m <- map_from_json des_uid_list o k ;;
  if forallb (fun e => match quality_of (fst e) with Done _ => true | _ => false end) m
  then Done m else Terminates.

Definition as_object {A} (f : object -> out A) (j : json) : out A :=
  match j with JObj o => f o | _ => Terminates end.

(** C/lola_service_instance_deployment.cpp:218-255 Serialize *)
Definition ser_lola_inst (d : lola_inst) : object :=
  put k_provider (map_to_json (fun l => JList (map JNum l)) (li_provider d))
   (put k_consumer (map_to_json (fun l => JList (map JNum l)) (li_consumer d))
    (put k_vm_forwarded (JBool (li_forwarded d))
     (put k_vm (JBool (li_vm d))
      (put k_strict (JBool (li_strict d))
       (put k_methods (map_to_json (fun m => JObj (ser_method m)) (li_methods d))
        (put k_fields (map_to_json (fun m => JObj (ser_field m)) (li_fields d))
         (put k_events (map_to_json (fun m => JObj (ser_event m)) (li_events d))
          (put_opt k_qm_size (li_qm d)
           (put_opt k_b_size (li_b d)
            (put_opt k_shm_size (li_shm d)
             ((fun o => match li_id d with
                        | Some i => put k_instance_id (JObj (ser_instance_id i)) o
                        | None => o
                        end)
              (put k_version (JNum 1) [])))))))))))).

(** lola_service_instance_deployment.cpp:146-187; the optional instance id uses As<Object>().value() *)
Definition des_opt_id (o : object) : out (option N) :=
  match find k_instance_id o with
  | None => Done None
  | Some (JObj x) => i <- des_instance_id x ;; Done (Some i)
  | Some _ => Terminates
  end.
Definition des_lola_inst (o : object) : out lola_inst :=
  e <- map_from_json (as_object des_event) o k_events ;;
  f <- map_from_json (as_object des_field) o k_fields ;;
  m <- map_from_json (as_object des_method) o k_methods ;;
  strict <- get_bool o k_strict ;;
  consumer <- des_uid_map o k_consumer ;;
  provider <- des_uid_map o k_provider ;;
  vm <- get_bool o k_vm ;;
  forwarded <- get_bool o k_vm_forwarded ;;
  _ <- check_version o ;;
  i <- des_opt_id o ;;
  shm <- get_opt_num two64 o k_shm_size ;;
  b <- get_opt_num two64 o k_b_size ;;
  qm <- get_opt_num two64 o k_qm_size ;;
  Done (mkLi i shm b qm e f m strict consumer provider vm forwarded).

(** lola_service_instance_deployment.cpp:111-133 operator==: everything but the two inter-VM flags *)
Definition lola_inst_eqb (a b : lola_inst) : bool :=
  opt_eqb N.eqb (li_id a) (li_id b) && opt_eqb N.eqb (li_shm a) (li_shm b) &&
  opt_eqb N.eqb (li_b a) (li_b b) && opt_eqb N.eqb (li_qm a) (li_qm b) &&
  map_eqb event_eqb (li_events a) (li_events b) && map_eqb field_eqb (li_fields a) (li_fields b) &&
  map_eqb method_eqb (li_methods a) (li_methods b) && Bool.eqb (li_strict a) (li_strict b) &&
  map_eqb vec_eqb (li_consumer a) (li_consumer b) && map_eqb vec_eqb (li_provider a) (li_provider b).
(** operator< of std::optional, lola_service_instance_deployment.cpp:135-138,
    C/lola_service_instance_id.cpp:76-79 *)
Definition opt_ltb (a b : option N) : bool :=
  match a, b with
  | None, Some _ => true
  | Some x, Some y => x <? y
  | _, None => false
  end.
Definition lola_inst_ltb (a b : lola_inst) : bool := opt_ltb (li_id a) (li_id b).
(** lola_service_instance_deployment.cpp:102-109 areCompatible *)
Definition lola_inst_compatible (a b : lola_inst) : bool :=
  match li_id a, li_id b with Some x, Some y => x =? y | _, _ => true end.

(** operator== and operator< of std::variant *)
Definition binding_eqb (a b : binding) : bool :=
  match a, b with
  | BLola x, BLola y => lola_inst_eqb x y
  | BBlank, BBlank => true
  | _, _ => false
  end.
Definition binding_ltb (a b : binding) : bool :=
  match a, b with
  | BLola x, BLola y => lola_inst_ltb x y
  | BLola _, BBlank => true
  | BBlank, _ => false
  end.

(** C/service_instance_deployment.cpp:70-73 operator== *)
Definition inst_eqb (a b : inst_depl) : bool :=
  quality_eqb (in_asil a) (in_asil b) && binding_eqb (in_binding a) (in_binding b).
(** service_instance_deployment.cpp:75-82 operator< *)
Definition inst_ltb (a b : inst_depl) : bool :=
  if binding_eqb (in_binding a) (in_binding b)
  then quality_code (in_asil a) <? quality_code (in_asil b)
  else binding_ltb (in_binding a) (in_binding b).
(** service_instance_deployment.cpp:84-94 areCompatible *)
Definition inst_compatible (a b : inst_depl) : bool :=
  quality_eqb (in_asil a) (in_asil b) &&
  match in_binding a, in_binding b with
  | BLola x, BLola y => lola_inst_compatible x y
  | _, _ => false
  end.
(** service_instance_deployment.cpp:123-144 Serialize *)
Definition ser_inst (d : inst_depl) : object :=
  put k_version (JNum 1)
    (put k_spec (JStr (in_spec d))
       (put k_service (JObj (ser_service (in_service d)))
          (put k_asil (JStr (quality_text (in_asil d)))
             (match in_binding d with
              | BLola l => put k_binding (JObj (ser_lola_inst l)) (put k_index (JNum 0) [])
              | BBlank => put k_index (JNum 1) []
              end)))).
(** service_instance_deployment.cpp:97-112, 43-55, 58-66; InstanceSpecifier::Create(...).value() *)
Definition des_inst (o : object) : out inst_depl :=
  so <- get_obj o k_service ;;
  s <- des_service so ;;
  i <- get_num two63 o k_index ;;
  b <- (if i =? 0 then x <- get_obj o k_binding ;; l <- des_lola_inst x ;; Done (BLola l)
        else if i =? 1 then Done BBlank else Terminates) ;;
  qt <- get_str o k_asil ;;
  q <- quality_of qt ;;
  sp <- get_str o k_spec ;;
  sp' <- (match create_specifier sp with Some x => Done x | None => Terminates end) ;;
  _ <- check_version o ;;
  Done (mkInst s b q sp').
