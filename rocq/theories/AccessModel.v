(** Access rights of the shared-memory objects of a service instance, of its methods, and the
    provider check of a consumer. User ids are numbers. *)
From Verif Require Import Base.
Open Scope N_scope.

Inductive quality := QM | ASILB.
Definition other_quality (q : quality) : quality := match q with QM => ASILB | ASILB => QM end.

(** score/mw/com/impl/configuration/lola_service_instance_deployment.h:80-84: strict_permissions_,
    allowed_consumer_ and allowed_provider_ (a list of user ids per quality level, or no entry) *)
Record config := mkConfig {
  strict : bool;
  consumers : quality -> option (list N);
  providers : quality -> option (list N)
}.

(** score/memory/shared/i_shared_memory_resource.h UserPermissions: the variant of WorldReadable,
    WorldWritable and the map from permission to users. [PMap] is the map with the user lists of
    kRead and kWrite. *)
Inductive permissions := WorldReadable | WorldWritable | PMap (readers writers : list N).

Definition mem (u : N) (l : list N) : bool := existsb (N.eqb u) l.

Definition entries (o : option (list N)) : list N := match o with Some l => l | None => [] end.

(** An empty permissions map is one into which no user was pushed. *)
Definition nobody (l : list N) : bool := match l with [] => true | _ => false end.

(** score/mw/com/impl/bindings/lola/skeleton_memory_manager.cpp:695-709 CreateSharedMemoryForData;
    the iteration order of the unordered_map does not matter *)
Definition data_permissions (c : config) : permissions :=
  let users := entries (consumers c QM) ++ entries (consumers c ASILB) in
  if nobody users && negb (strict c) then WorldReadable else PMap users [].

(** skeleton_memory_manager.cpp:759-776 CreateSharedMemoryForControl *)
Definition control_permissions (c : config) (q : quality) : permissions :=
  let users := entries (consumers c q) in
  if nobody users && negb (strict c) then WorldWritable else PMap users users.

(** A file: its owner, the rights of other users, and the users with an access control entry.
    Group rights equal the rights of others for every mode used here and are not modelled. *)
Record file := mkFile {
  owner : N; other_read : bool; other_write : bool; acl_read : list N; acl_write : list N
}.

(** The rights of others that the process's umask removes. *)
Record umask := mkUmask { mask_read : bool; mask_write : bool }.

(** score/memory/shared/shared_memory_resource.cpp:499-552 CreateImpl outside typed memory:
    calcStatModeForPermissions 273-296, shm_open (subject to the umask), CompensateUmask 885-896
    (fchmod only for read-write access for everybody) and ApplyPermissions 899-926 (AllowUser is
    taken to succeed; a failure is only logged there). *)
Definition create_file (creator : N) (um : umask) (p : permissions) : file :=
  match p with
  | WorldWritable => mkFile creator true true [] []
  | WorldReadable => mkFile creator (negb (mask_read um)) false [] []
  | PMap r w => mkFile creator false false r w
  end.

(** The kernel's access check. The owner always has the user rights read and write. *)
Definition may_read (u : N) (f : file) : bool :=
  (u =? owner f) || mem u (acl_read f) || other_read f.
Definition may_write (u : N) (f : file) : bool :=
  (u =? owner f) || mem u (acl_write f) || other_write f.

Definition data_file (creator : N) (um : umask) (c : config) : file :=
  create_file creator um (data_permissions c).
Definition control_file (creator : N) (um : umask) (c : config) (q : quality) : file :=
  create_file creator um (control_permissions c q).

(** score/mw/com/impl/bindings/lola/skeleton.cpp:792-818 GetAllowedConsumers and the test of
    message_passing_service_instance.cpp:652-691 whether the caller's uid is allowed *)
Definition methods_allowed (c : config) (q : quality) (u : N) : bool :=
  match consumers c q with
  | None => negb (strict c)
  | Some l => mem u l
  end.

(** score/memory/shared/shared_memory_factory_impl.cpp:66-80 checkUidMatch *)
Definition uid_match (me provider : N) (l : list N) : bool := (provider =? me) || mem provider l.

(** score/mw/com/impl/bindings/lola/proxy.cpp:172-184 the providers accepted by OpenSharedMemory and
    shared_memory_factory_impl.cpp:169-180 the check in Open *)
Definition provider_accepted (c : config) (q : quality) (me provider : N) : bool :=
  match providers c q with
  | Some l => uid_match me provider l
  | None => if strict c then uid_match me provider [] else true
  end.

(** proxy.cpp:186-199 OpenSharedMemory: control is opened for reading and writing, data for
    reading; both check the provider. [pc] is the provider's configuration, [cc] the consumer's. *)
Definition open_shared_memory (pc cc : config) (provider : N) (um : umask) (q : quality) (me : N) : bool :=
  let ctl := control_file provider um pc q in
  let dat := data_file provider um pc in
  may_read me ctl && may_write me ctl && provider_accepted cc q me (owner ctl)
  && may_read me dat && provider_accepted cc q me (owner dat).
