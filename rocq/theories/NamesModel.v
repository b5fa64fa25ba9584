(** Names and identifiers: the instance specifier grammar, the identifiers of the simulated
    shared-memory resources and the names of the shared-memory objects and marker files.
    Characters are byte values (N below 256). *)
From Verif Require Import Base.
Open Scope N_scope.

Definition slash : N := 47.        (* '/' *)
Definition underscore : N := 95.   (* '_' *)
Definition minus : N := 45.        (* '-' *)
Definition zero : N := 48.         (* '0' *)

(** std::isdigit / std::isalpha / std::isalnum of the "C" locale, which is the locale of a
    process that never calls setlocale. *)
Definition isdigit (c : N) : bool := (48 <=? c) && (c <=? 57).
Definition isalpha (c : N) : bool :=
  ((65 <=? c) && (c <=? 90)) || ((97 <=? c) && (c <=? 122)).
Definition isalnum (c : N) : bool := isalpha c || isdigit c.

(** score/mw/com/impl/instance_specifier.cpp:46-57, the predicate of std::find_if_not *)
Definition char_ok (first : bool) (c : N) : bool :=
  (if first then isalpha c else isalnum c) || (c =? underscore) || (c =? slash).

(** score/mw/com/impl/instance_specifier.cpp:45-59 validate_chars: no character of the range
    fails the predicate *)
Definition validate_chars (first : bool) (l : list N) : bool := forallb (char_ok first) l.

(** std::string_view::find("//") != npos *)
Fixpoint has_double_slash (l : list N) : bool :=
  match l with
  | a :: ((b :: _) as t) => ((a =? slash) && (b =? slash)) || has_double_slash t
  | _ => false
  end.

(** score/mw/com/impl/instance_specifier.cpp:38-77 IsShortNameValid *)
Definition is_short_name_valid (s : list N) : bool :=
  match s with
  | [] => false
  | c :: t =>
      if List.last s 0 =? slash then false
      else if negb (validate_chars true [c]) then false
      else if negb (validate_chars false t) then false
      else if has_double_slash s then false
      else true
  end.

(** score/mw/com/impl/instance_specifier.cpp:81-99 InstanceSpecifier::Create and :101-104 ToString.
    [None] is ComErrc::kInvalidMetaModelShortname. *)
Definition create_specifier (s : list N) : option (list N) :=
  if is_short_name_valid s then Some s else None.

(** * Identifiers *)

(** score/mw/com/impl/bindings/lola/skeleton_memory_manager.cpp:95-100 ShmObjectType *)
Inductive shm_kind := KControlQM | KControlB | KData.
Definition kind_code (k : shm_kind) : N :=
  match k with KControlQM => 0 | KControlB => 1 | KData => 2 end.

(** score/mw/com/impl/bindings/lola/skeleton_memory_manager.cpp:102-108 CalculateMemoryResourceId,
    64-bit arithmetic *)
Definition resource_id (service instance : N) (k : shm_kind) : N :=
  ((N.shiftl service 24 mod two64) + (N.shiftl instance 8 mod two64) + kind_code k) mod two64.

(** * Names *)

(** Decimal digits of a number, most significant first, as std::ostream << prints them. *)
Fixpoint dec_digits (fuel : nat) (n : N) (acc : list N) : list N :=
  match fuel with
  | O => acc
  | S f => let acc' := (zero + n mod 10) :: acc in
           if n / 10 =? 0 then acc' else dec_digits f (n / 10) acc'
  end.
Definition decimal (n : N) : list N := dec_digits (S (N.size_nat n)) n [].

(** out << std::setfill('0') << std::setw(w) << n : pads on the left, never truncates *)
Definition setw (w : nat) (n : N) : list N :=
  repeat zero (w - length (decimal n)) ++ decimal n.

(** score/mw/com/impl/bindings/lola/path_builder.cpp:34-48 AppendService, AppendInstanceId (the
    fill character set by AppendService stays in force) *)
Definition service_and_instance (service instance : N) : list N :=
  setw 16 service ++ [minus] ++ setw 5 instance.

(** "lola-data-", "lola-ctl-", "lola-methods-", "-b": shm_path_builder.cpp:29-32;
    "usage-", "existence-": partial_restart_path_builder.cpp:36-37 *)
Definition s_lola_data : list N := [108;111;108;97;45;100;97;116;97;45].
Definition s_lola_ctl : list N := [108;111;108;97;45;99;116;108;45].
Definition s_lola_methods : list N := [108;111;108;97;45;109;101;116;104;111;100;115;45].
Definition s_b : list N := [45;98].
Definition s_usage : list N := [117;115;97;103;101;45].
Definition s_existence : list N := [101;120;105;115;116;101;110;99;101;45].
(** "/" or "/intervm-shared-shmem/": shm_path_builder.cpp:33,114 *)
Definition s_shm_prefix (intervm : bool) : list N :=
  if intervm
  then [47;105;110;116;101;114;118;109;45;115;104;97;114;101;100;45;115;104;109;101;109;47]
  else [47].
(** "/tmp/mw_com_lola/partial_restart/" (Linux): partial_restart_path_builder.cpp:22-23,33,66 *)
Definition s_restart_prefix : list N :=
  [47;116;109;112;47;109;119;95;99;111;109;95;108;111;108;97;47;
   112;97;114;116;105;97;108;95;114;101;115;116;97;114;116;47].

(** The objects whose names are built. The application id is a std::uint32_t, the others are
    std::uint16_t. *)
Inductive object :=
| OData (service instance : N)
| OControl (b : bool) (service instance : N)
| OMethods (service instance app counter : N)
| OUsage (service instance : N)
| OExistence (service instance : N).

(** shm_path_builder.cpp:40-137 and partial_restart_path_builder.cpp:42-79 *)
Definition object_name (intervm : bool) (o : object) : list N :=
  match o with
  | OData s i => s_shm_prefix intervm ++ s_lola_data ++ service_and_instance s i
  | OControl b s i =>
      s_shm_prefix intervm ++ s_lola_ctl ++ service_and_instance s i ++ (if b then s_b else [])
  | OMethods s i a c =>
      s_shm_prefix intervm ++ s_lola_methods ++ service_and_instance s i
        ++ [minus] ++ setw 5 a ++ [minus] ++ setw 5 c
  | OUsage s i => s_restart_prefix ++ s_usage ++ service_and_instance s i
  | OExistence s i => s_restart_prefix ++ s_existence ++ service_and_instance s i
  end.
