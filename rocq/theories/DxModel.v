(** Asynchronous discovery through the Rust interface of the LoLa runtime.

    Models score/mw/com/impl/rust/com-api/com-api-runtime-lola/consumer.rs
    947-1096 ([get_available_instances_async], [ServiceDiscoveryFuture]) with
    the bridge in score/mw/com/impl/rust/com-api/com-api-ffi-lola
    (registry_bridge_macro.cpp 403-450, registry_bridge_macro.h 171-190) and
    the calls the C++ discovery makes to the handler
    (service_discovery_client.cpp 573-592 and 760-775).

    Simplifications.  One call of the function; an instance is a number; the
    instances found are compared as sets, as the C++ code does; a handler call
    has two steps, storing the handles and waking the task; ending a search
    waits for a running handler, as StopFindService does from another thread. *)
From Coq Require Import List Arith Bool.
Import ListNotations.

(** The future: not created; holding the error of a failed start (consumer.rs
    1007); created and not polled; inside [poll] between registering the waker
    and looking at the result (1056-1072); waiting; ended. *)
Inductive fut := FNone | FErr | FNew | FIn | FWait | FEnd.

Record st := {
  offered : list nat;            (** instances on offer *)
  prev : list nat;               (** handles the search reported last *)
  search : bool;                 (** the C++ search is running *)
  task : fut;
  hs : option (list nat);        (** [DiscoveryStateData::handles], 873-875 *)
  wk : bool;                     (** a waker is stored *)
  woken : bool;                  (** the task was woken since its last poll began *)
  cb : bool;                     (** a handler call has stored and not yet woken *)
  stops : nat;                   (** calls of StopFindService *)
  closure : bool;                (** the memory of the boxed callback is allocated *)
  reports : list (list nat)      (** ghost: what the search reported, newest first *)
}.

Definition init : st :=
  {| offered := []; prev := []; search := false; task := FNone; hs := None; wk := false;
     woken := false; cb := false; stops := 0; closure := false; reports := [] |}.

Inductive out := OUnit | OPending | OReady (l : list nat) | OError.

Inductive label :=
  | LOffer (i : nat) | LWithdraw (i : nat)   (** providers *)
  | LCall (spec_ok start_ok : bool)          (** [get_available_instances_async] *)
  | LStore | LWake                           (** a handler call *)
  | LPollA | LPollB                          (** [poll] *)
  | LDrop.                                   (** the future is dropped *)

Definition mem (i : nat) (l : list nat) : bool := existsb (Nat.eqb i) l.
Definition subset (a b : list nat) : bool := forallb (fun i => mem i b) a.

(** service_discovery_client.cpp 573-576: comparison of the sets. *)
Definition same (a b : list nat) : bool := subset a b && subset b a.

Definition set_offered (s : st) (l : list nat) : st :=
  {| offered := l; prev := prev s; search := search s; task := task s; hs := hs s; wk := wk s;
     woken := woken s; cb := cb s; stops := stops s; closure := closure s; reports := reports s |}.

(** consumer.rs 947-1003: the callback is boxed before the specifier is
    looked at; the search starts in this call, not in the first poll.  A
    search that finds instances at once calls the handler synchronously
    (service_discovery_client.cpp 767-775); the waker is not set yet. *)
Definition call (s : st) (spec_ok start_ok : bool) : st :=
  if spec_ok && start_ok then
    match offered s with
    | [] => {| offered := []; prev := []; search := true; task := FNew; hs := None; wk := false;
               woken := true; cb := false; stops := 0; closure := true; reports := [] |}
    | l => {| offered := l; prev := l; search := true; task := FNew; hs := Some l; wk := false;
              woken := true; cb := false; stops := 0; closure := true; reports := [l] |}
    end
  else {| offered := offered s; prev := []; search := false; task := FErr; hs := None; wk := false;
          woken := true; cb := false; stops := 0; closure := true; reports := [] |}.

(** service_discovery_client.cpp 573-592 and consumer.rs 971-977, first half. *)
Definition store (s : st) : st :=
  {| offered := offered s; prev := offered s; search := search s; task := task s;
     hs := Some (offered s); wk := wk s; woken := woken s; cb := true; stops := stops s;
     closure := closure s; reports := offered s :: reports s |}.

(** consumer.rs 976: [wake] takes the waker. *)
Definition wake (s : st) : st :=
  {| offered := offered s; prev := prev s; search := search s; task := task s; hs := hs s;
     wk := false; woken := woken s || wk s; cb := false; stops := stops s;
     closure := closure s; reports := reports s |}.

(** consumer.rs 1057: registering the waker. *)
Definition register (s : st) : st :=
  {| offered := offered s; prev := prev s; search := search s; task := FIn; hs := hs s;
     wk := true; woken := false; cb := cb s; stops := stops s;
     closure := closure s; reports := reports s |}.

(** The end of the future.  Only [ServiceDiscoveryFuture], which exists from
    the first poll on, stops the search (consumer.rs 1036-1047);
    [NativeFindServiceHandle] has no destructor (bridge_ffi.rs 362-379).  The
    C++ side never frees the boxed callback (registry_bridge_macro.h 188). *)
Definition finish (s : st) (stop : bool) : st :=
  {| offered := offered s; prev := prev s; search := if stop then false else search s;
     task := FEnd; hs := if stop then None else hs s; wk := wk s; woken := woken s; cb := cb s;
     stops := if stop then S (stops s) else stops s; closure := closure s; reports := reports s |}.

Definition wait (s : st) : st :=
  {| offered := offered s; prev := prev s; search := search s; task := FWait; hs := hs s;
     wk := wk s; woken := woken s; cb := cb s; stops := stops s;
     closure := closure s; reports := reports s |}.

Definition step (s : st) (l : label) : option (st * out) :=
  match l with
  | LOffer i => if mem i (offered s) then None else Some (set_offered s (i :: offered s), OUnit)
  | LWithdraw i =>
      if mem i (offered s) then Some (set_offered s (filter (fun j => negb (i =? j)) (offered s)), OUnit)
      else None
  | LCall a b => match task s with FNone => Some (call s a b, OUnit) | _ => None end
  | LStore =>
      if search s && negb (cb s) && negb (same (prev s) (offered s)) then Some (store s, OUnit) else None
  | LWake => if cb s then Some (wake s, OUnit) else None
  | LPollA =>
      match task s with
      | FErr => Some (finish s false, OError)
      | FNew | FWait => Some (register s, OUnit)
      | _ => None
      end
  | LPollB =>
      (* consumer.rs 1066-1095; a future that is ready is dropped by the await *)
      match task s, hs s with
      | FIn, Some l => if cb s then None else Some (finish s true, OReady l)
      | FIn, None => Some (wait s, OPending)
      | _, _ => None
      end
  | LDrop =>
      match task s with
      | FErr | FNew => Some (finish s false, OUnit)
      | FWait => if cb s then None else Some (finish s true, OUnit)
      | _ => None
      end
  end.
