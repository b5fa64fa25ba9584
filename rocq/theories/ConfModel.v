(** The configuration of a process (class Configuration), the identifiers made from it
    (class InstanceIdentifier, HandleType) and its life in the runtime.
    I = score/mw/com/impl, C = I/configuration. *)
From Verif Require Import Base NamesModel DeplModel.
Open Scope N_scope.

(** * Configuration *)

(** C/configuration.h:239-279: a list of generations of types and of instances, newest first (the
    initial one is the back of the list), and the ASIL level of the process out of
    global_configuration_. The maps are unordered; the order of a list of entries is any. *)
Record conf := mkConf {
  c_types : list (list (service * type_depl));
  c_insts : list (list (name * inst_depl));
  c_level : quality
}.

(** C/configuration.cpp:24-35: the constructor makes one generation of each *)
Definition make_conf (types : list (service * type_depl)) (insts : list (name * inst_depl))
  (level : quality) : conf := mkConf [types] [insts] level.

Fixpoint find_type (s : service) (m : list (service * type_depl)) : option type_depl :=
  match m with
  | [] => None
  | (s', t) :: r => if service_eqb s s' then Some t else find_type s r
  end.

(** configuration.cpp:422-439 GetServiceTypeDeployment, 441-458 GetServiceInstanceDeployment: the
    first generation that has the key *)
Fixpoint gen_type (s : service) (g : list (list (service * type_depl))) : option type_depl :=
  match g with
  | [] => None
  | m :: r => match find_type s m with Some t => Some t | None => gen_type s r end
  end.
Fixpoint gen_inst (k : name) (g : list (list (name * inst_depl))) : option inst_depl :=
  match g with
  | [] => None
  | m :: r => match find k m with Some t => Some t | None => gen_inst k r end
  end.
Definition get_type (c : conf) (s : service) : option type_depl := gen_type s (c_types c).
Definition get_inst (c : conf) (k : name) : option inst_depl := gen_inst k (c_insts c).

(** current_list->back()->emplace *)
Fixpoint emplace_back {A} (e : A) (g : list (list A)) : list (list A) :=
  match g with
  | [] => []
  | [m] => [e :: m]
  | m :: r => m :: emplace_back e r
  end.

(** configuration.cpp:52-77 AddServiceTypeDeployment (483-491 CheckServiceTypeExists, 503-514
    GetListOfServiceTypeMaps: an empty list ends the process) *)
Definition add_type (c : conf) (s : service) (t : type_depl) : out conf :=
  match c_types c with
  | [] => Terminates
  | g => match gen_type s g with
         | Some _ => Terminates
         | None => Done (mkConf (emplace_back (s, t) g) (c_insts c) (c_level c))
         end
  end.
(** configuration.cpp:79-105 AddServiceInstanceDeployments *)
Definition add_inst (c : conf) (k : name) (d : inst_depl) : out conf :=
  match c_insts c with
  | [] => Terminates
  | g => match gen_inst k g with
         | Some _ => Terminates
         | None => Done (mkConf (c_types c) (emplace_back (k, d) g) (c_level c))
         end
  end.

(** configuration.cpp:529-543 GetServiceTypes, 545-559 GetServiceInstances: emplace keeps the first
    entry of a key *)
Fixpoint flat_types (l : list (service * type_depl)) : list (service * type_depl) :=
  match l with
  | [] => []
  | (s, t) :: r => (s, t) :: filter (fun e => negb (service_eqb s (fst e))) (flat_types r)
  end.
Fixpoint flat_insts (l : list (name * inst_depl)) : list (name * inst_depl) :=
  match l with
  | [] => []
  | (k, d) :: r => (k, d) :: filter (fun e => negb (name_eqb k (fst e))) (flat_insts r)
  end.
Definition all_types (c : conf) := flat_types (concat (c_types c)).
Definition all_insts (c : conf) := flat_insts (concat (c_insts c)).

Inductive conf_error :=
| DuplicateType | DuplicateInstance | BadAsil | BadTypeReference | BadInstanceBinding
| BadTypeBinding | BadEvent | BadField.

(** configuration.cpp:107-186 MergeServiceEntries: the types are checked and published first, the
    instances after them; an error about the instances leaves the new types published *)
Definition merge (c extra : conf) : conf * option conf_error :=
  let ts := all_types extra in
  if existsb (fun e => match get_type c (fst e) with Some _ => true | None => false end) ts
  then (c, Some DuplicateType)
  else
    let c1 := match ts with
              | [] => c
              | _ => mkConf (ts :: c_types c) (c_insts c) (c_level c)
              end in
    let is := all_insts extra in
    if existsb (fun e => match get_inst c (fst e) with Some _ => true | None => false end) is
    then (c1, Some DuplicateInstance)
    else
      (match is with
       | [] => c1
       | _ => mkConf (c_types c1) (is :: c_insts c1) (c_level c1)
       end, None).

(** configuration.cpp:217-271, the body of the loop of CrossCheckServiceInstancesToTypes *)
Definition check_inst (c : conf) (d : inst_depl) : option conf_error :=
  match find_type (in_service d) (all_types c) with
  | None => Some BadTypeReference
  | Some t =>
      match in_binding d with
      | BBlank => Some BadInstanceBinding
      | BLola l =>
          match t with
          | TBlank => Some BadTypeBinding
          | TLola lt =>
              if forallb (fun e => match find (fst e) (lt_events lt) with Some _ => true | None => false end)
                   (li_events l)
              then if forallb (fun e => match find (fst e) (lt_fields lt) with Some _ => true | None => false end)
                        (li_fields l)
                   then None else Some BadField
              else Some BadEvent
          end
      end
  end.
Fixpoint first_error (f : inst_depl -> option conf_error) (l : list (name * inst_depl))
  : option conf_error :=
  match l with
  | [] => None
  | (_, d) :: r => match f d with Some e => Some e | None => first_error f r end
  end.
(** configuration.cpp:203-215, the body of the loop of CrossCheckAsilLevels *)
Definition check_asil (c : conf) (d : inst_depl) : option conf_error :=
  if quality_eqb (in_asil d) QB && negb (quality_eqb (c_level c) QB) then Some BadAsil else None.
(** configuration.cpp:188-201 Validate *)
Definition validate (c : conf) : option conf_error :=
  match first_error (check_asil c) (all_insts c) with
  | Some e => Some e
  | None => first_error (check_inst c) (all_insts c)
  end.

(** configuration.cpp:385-408 AggregateAllowedUsers: the new set and whether to stop *)
Definition aggregate (users : list N) (lists : list (name * list N)) (q : quality) : list N * bool :=
  match find (quality_text q) lists with
  | Some [] => ([], true)
  | Some l => (l ++ users, false)
  | None => (users, false)
  end.
(** configuration.cpp:363-383 GetAggregatedAllowedUsers *)
Fixpoint allowed_loop (l : list (name * inst_depl)) (q : quality) (users : list N) : out (list N) :=
  match l with
  | [] => Done users
  | (_, d) :: r =>
      match in_binding d with
      | BBlank => Terminates
      | BLola li =>
          let '(u1, stop1) := aggregate users (li_consumer li) q in
          if stop1 then Done u1
          else let '(u2, stop2) := aggregate u1 (li_provider li) q in
               if stop2 then Done u2 else allowed_loop r q u2
      end
  end.
Definition aggregated_users (c : conf) (q : quality) : out (list N) := allowed_loop (all_insts c) q [].

(** * Identifiers *)

(** A string given to or returned by the identifiers: what it denotes as JSON ([None] if it is no
    JSON text) and which of the texts for that value it is; the writer produces variant 0. Parsing
    what was written gives the value back: property of the JSON library, not modelled. *)
Record text := mkText { tx_json : option json; tx_variant : N }.
Definition written (o : object) : text := mkText (Some (JObj o)) 0.

(** I/instance_identifier.h:134-170. The deployments are referenced in the configuration, where
    entries never change once inserted. *)
Record ident := mkIdent { i_inst : inst_depl; i_type : type_depl; i_text : text }.

(** I/instance_identifier.cpp:126-135 Serialize *)
Definition ser_ident (d : inst_depl) (t : type_depl) : object :=
  put k_type_depl (JObj (ser_type t))
    (put k_inst_depl (JObj (ser_inst d)) (put k_version (JNum 1) [])).
(** instance_identifier.cpp:118-124 and instance_identifier.h make_InstanceIdentifier *)
Definition make_ident (d : inst_depl) (t : type_depl) : ident :=
  mkIdent d t (written (ser_ident d t)).

(** instance_identifier.cpp:142-146 operator== *)
Definition ident_eqb (a b : ident) : bool :=
  service_eqb (in_service (i_inst a)) (in_service (i_inst b)) && inst_eqb (i_inst a) (i_inst b).
(** instance_identifier.cpp:148-152 operator<: lexicographic as std::tie compares *)
Definition ident_ltb (a b : ident) : bool :=
  service_ltb (in_service (i_inst a)) (in_service (i_inst b)) ||
  (negb (service_ltb (in_service (i_inst b)) (in_service (i_inst a))) &&
   inst_ltb (i_inst a) (i_inst b)).
(** instance_identifier.cpp:202-206 std::hash: the hash of the text *)
Definition hash_text (i : ident) : text := i_text i.
(** instance_identifier.cpp:164-178 GetServiceInstanceId *)
Definition instance_id (i : ident) : option N :=
  match in_binding (i_inst i) with BLola l => li_id l | BBlank => None end.
(** instance_identifier.cpp:190-198 isCompatibleWith *)
Definition compatible (a b : ident) : bool := inst_compatible (i_inst a) (i_inst b).

Inductive create_error := InvalidConfiguration | InvalidString.
Inductive created :=
| Created (i : ident) (c : conf)
| CreateError (e : create_error)
| CreateTerminates
| CreateUndefined.

(** instance_identifier.cpp:83-111, the constructor from JSON *)
Definition from_json (c : conf) (o : object) (t : text) : out (ident * conf) :=
  _ <- check_version o ;;
  io <- get_obj o k_inst_depl ;;
  d <- des_inst io ;;
  to <- get_obj o k_type_depl ;;
  ty <- des_type to ;;
  c1 <- add_type c (in_service d) ty ;;
  c2 <- add_inst c1 (in_spec d) d ;;
  Done (mkIdent d ty t, c2).
(** instance_identifier.cpp:47-76 Create; no configuration is registered before the runtime exists *)
Definition create (oc : option conf) (t : text) : created :=
  match oc with
  | None => CreateError InvalidConfiguration
  | Some c =>
      match tx_json t with
      | Some (JObj o) =>
          match from_json c o t with
          | Done (i, c') => Created i c'
          | Terminates => CreateTerminates
          | Undefined => CreateUndefined
          end
      | _ => CreateError InvalidString
      end
  end.

(** I/runtime.cpp:258-285 resolve: no identifier, or one *)
Definition resolve (c : conf) (k : name) : option ident :=
  match get_inst c k with
  | None => None
  | Some d => match get_type c (in_service d) with
              | Some t => Some (make_ident d t)
              | None => None
              end
  end.

(** * Handles *)

(** I/handle_type.h:106-108: the identifier and the instance id, which for a LoLa identifier is a
    number. A handle of an identifier with an id in its deployment carries that id, otherwise the
    id found by the search (handle_type.cpp:29-55); a handle without any ends the process. *)
Record handle := mkHandle { h_ident : ident; h_id : N }.
Definition make_handle (i : ident) (found : option N) : out handle :=
  match found with
  | Some n => Done (mkHandle i n)
  | None => match instance_id i with Some n => Done (mkHandle i n) | None => Terminates end
  end.
(** I/handle_type.cpp:74-77 operator==, 79-82 operator< *)
Definition handle_eqb (a b : handle) : bool :=
  ident_eqb (h_ident a) (h_ident b) && (h_id a =? h_id b).
Definition handle_ltb (a b : handle) : bool :=
  ident_ltb (h_ident a) (h_ident b) ||
  (negb (ident_ltb (h_ident b) (h_ident a)) && (h_id a <? h_id b)).
(** Four hexadecimal digits: C/configuration_common_resources.cpp:20-31 ToHashStringImpl *)
Definition hex4 (n : N) : list N :=
  [n / 4096 mod 16; n / 256 mod 16; n / 16 mod 16; n mod 16].
(** C/service_type_deployment.cpp:53-84, C/service_instance_id.cpp:63-96: the index of the variant's
    alternative as one digit, then the id *)
Definition type_hash (t : type_depl) : list N :=
  match t with TLola x => 0 :: hex4 (lt_id x) | TBlank => [1] end.
(** I/handle_type.h:127-164 std::hash: the concatenation is hashed *)
Definition handle_hash_text (h : handle) : list N :=
  (0 :: hex4 (h_id h)) ++ type_hash (i_type (h_ident h)).

(** * The runtime *)

(** C/configuration.cpp:272-290 HasLolaServiceDeployment *)
Definition has_lola (c : conf) : bool :=
  existsb (fun e => match snd e with TLola _ => true | TBlank => false end) (all_types c).

(** A running runtime: its configuration, and what was computed from the configuration once, when it
    was constructed: whether a LoLa runtime exists (I/plumbing/binding_runtime_factory.cpp:27-55)
    and its lists of allowed users (I/bindings/lola/runtime.cpp:57-80, 109-125). *)
Record running := mkRun {
  r_conf : conf; r_lola : bool; r_users_qm : list N; r_users_b : list N
}.
(** I/runtime.cpp:84-85: initialization_config_, runtime_initialization_locked_ and the singleton *)
Record process := mkProc { p_init : option conf; p_run : option running }.
Definition fresh : process := mkProc None None.

(** I/runtime.cpp:213-248 Runtime::Runtime, I/bindings/lola/runtime.cpp:57-80. The second list is
    only computed for an ASIL-B process. Tracing is not part of this model. *)
Definition start (c : conf) : out running :=
  if has_lola c then
    qm <- aggregated_users c QQM ;;
    b <- (if quality_eqb (c_level c) QB then aggregated_users c QB else Done []) ;;
    Done (mkRun c true qm b)
  else Done (mkRun c false [] []).

(** The calls of a process. The configuration argument is what the parser made of the file; parsing
    itself is not modelled here. *)
Inductive call :=
| Initialize (c : conf)              (* I/runtime.cpp:111-134 *)
| UseRuntime (default : conf)        (* the first getInstance, I/runtime.cpp:186-211 *)
| AddOn (default c : conf)           (* InitializeRuntimeAddonConfiguration, I/runtime.cpp:136-166 *)
| CreateIdent (t : text).            (* InstanceIdentifier::Create *)

(** I/runtime.cpp:186-211 getInstanceInternal: the configuration given to Initialize, or the default
    file, which is not validated *)
Definition instance (p : process) (default : conf) : out running :=
  match p_run p with
  | Some r => Done r
  | None => match p_init p with Some c => start c | None => start default end
  end.

Definition exec (p : process) (l : call) : out process :=
  match l with
  | Initialize c =>
      match p_run p with
      | Some _ => Done p
      | None => match validate c with
                | Some _ => Terminates
                | None => Done (mkProc (Some c) None)
                end
      end
  | UseRuntime d => r <- instance p d ;; Done (mkProc None (Some r))
  | AddOn d c =>
      r <- instance p d ;;
      (* I/runtime.cpp:287-304 MergeAdditionalConfiguration; a merge error ends the process in 160-164 *)
      match merge (r_conf r) c with
      | (_, Some _) => Terminates
      | (c', None) =>
          match validate c' with
          | Some _ => Terminates
          | None => Done (mkProc None (Some (mkRun c' (r_lola r) (r_users_qm r) (r_users_b r))))
          end
      end
  | CreateIdent t =>
      match create (option_map r_conf (p_run p)) t with
      | Created _ c' =>
          match p_run p with
          | Some r => Done (mkProc (p_init p)
                              (Some (mkRun c' (r_lola r) (r_users_qm r) (r_users_b r))))
          | None => Done p
          end
      | CreateError _ => Done p
      | CreateTerminates => Terminates
      | CreateUndefined => Undefined
      end
  end.

(** I/bindings/lola/messaging/message_passing_service_instance.cpp:209-246: the constructor ignores
    the configuration with the allowed users, and the connect callback accepts every client *)
Definition messaging_admits (r : running) (q : quality) (uid : N) : bool := true.
