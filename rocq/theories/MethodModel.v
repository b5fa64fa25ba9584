(** Method subscriptions and method calls at one offered service instance.
    Models score/mw/com/impl/bindings/lola/skeleton.cpp (SK), skeleton_method.cpp (SM),
    methods/method_resource_map.cpp (MR), methods/type_erased_call_queue.cpp (TQ) and the method maps of
    messaging/message_passing_service_instance.cpp (MS).
    Messages are handled one at a time: the Unix-domain engine runs all server callbacks of a process
    on its one thread. Consumers in the provider's own process, which call in on their own threads,
    are not modelled. A region's content is what its creator put there when the provider reads it. *)
From Verif Require Import Base.

Definition app := nat.
Definition ctr := nat.

(** A consumer's proxy object: ProxyInstanceIdentifier (application id, counter) plus the process id and
    user id the transport reports and the quality level of the connection used. *)
Record proxy := mkProxy { p_app : app; p_ctr : ctr; p_pid : nat; p_uid : nat; p_q : bool }.

(** One entry of MethodData::method_call_queues_ in the proxy's region: method, queue length, whether
    there are arguments or a return value (TypeErasedElementInfo). *)
Record mentry := mkEntry { e_m : nat; e_len : nat; e_data : bool }.

(** The skeleton's configuration: its methods (SK 560-565) and who may subscribe (SK 792-818). *)
Record cfg := mkCfg { known : nat -> bool; allowed : bool -> nat -> bool }.

(** An entry of MethodResourceMap: application, process id, counter, region. MR keeps one process id
    per application; an application without counters has no entry (MR 105-108). *)
Record rentry := mkRes { r_app : app; r_pid : nat; r_ctr : ctr; r_reg : nat }.

(** A registration guard in a SkeletonMethod together with the handler in the message passing
    service it keeps registered (SM 97-118, MS 1265-1310). *)
Record guard := mkGuard { g_m : nat; g_app : app; g_ctr : ctr; g_pid : nat; g_uid : nat; g_q : bool;
                          g_reg : nat; g_len : nat; g_data : bool }.

Record st := mkSt { offered : bool; res : list rentry; guards : list guard }.
Definition init : st := mkSt false [] [].

Inductive op :=
| Offer
| StopOffer
| Subscribe (p : proxy) (reg : nat) (ms : list mentry) (can_open : bool)
| Unsubscribe (a : app) (c : ctr)
| Call (a : app) (c : ctr) (q : bool) (m : nat) (uid : nat) (pos : nat).

Inductive outcome :=
| Done                      (* success is replied *)
| Failed (code : nat)       (* MethodErrc, methods/method_error.h *)
| Ran (reg pos : nat)       (* the user's handler ran on the given region and queue position *)
| Dangling                  (* the user's handler ran on memory no longer mapped *)
| Aborted.                  (* an assertion terminates the provider *)

Definition kBindingFailure := 3.
Definition kNotSubscribed := 5.
Definition kNotOffered := 6.
Definition kUnknownProxy := 7.

(** MR 24-39 *)
Definition contains (s : st) (a : app) (c : ctr) (pid : nat) : bool :=
  existsb (fun e => (r_app e =? a) && (r_pid e =? pid) && (r_ctr e =? c)) (res s).

(** MR 56-88 *)
Definition clean_old_regions (a : app) (pid : nat) (l : list rentry) : list rentry :=
  filter (fun e => negb ((r_app e =? a) && negb (r_pid e =? pid))) l.

(** MR 41-54: the application's process id is overwritten; an existing counter is kept. *)
Definition insert (a : app) (c : ctr) (pid reg : nat) (l : list rentry) : list rentry :=
  let l' := map (fun e => if r_app e =? a then mkRes a pid (r_ctr e) (r_reg e) else e) l in
  if existsb (fun e => (r_app e =? a) && (r_ctr e =? c)) l' then l' else mkRes a pid c reg :: l'.

(** MR 95-109 *)
Definition remove (a : app) (c : ctr) (l : list rentry) : list rentry :=
  filter (fun e => negb ((r_app e =? a) && (r_ctr e =? c))) l.

(** SM 157-187 *)
Definition clean_old_handlers (m : nat) (a : app) (pid : nat) (l : list guard) : list guard :=
  if existsb (fun g => (g_m g =? m) && (g_app g =? a) && (g_pid g =? pid)) l then l
  else filter (fun g => negb ((g_m g =? m) && (g_app g =? a))) l.

(** SM 58-118 with MS 1265-1280: [None] is the assertion that no handler is registered under the key. *)
Definition subscribe_method (p : proxy) (reg : nat) (e : mentry) (l : list guard) : option (list guard) :=
  let l' := clean_old_handlers (e_m e) (p_app p) (p_pid p) l in
  if existsb (fun g => (g_m g =? e_m e) && (g_app g =? p_app p) && (g_ctr g =? p_ctr p)) l' then None
  else Some (mkGuard (e_m e) (p_app p) (p_ctr p) (p_pid p) (p_uid p) (p_q p) reg (e_len e) (e_data e) :: l').

(** SK 728-779. Registering a handler never returns an error, so neither does this function. *)
Fixpoint subscribe_methods (k : cfg) (p : proxy) (reg : nat) (ms : list mentry) (l : list guard) : option (list guard) :=
  match ms with
  | [] => Some l
  | e :: r =>
      if known k (e_m e) then
        match subscribe_method p reg e l with
        | None => None
        | Some l' => subscribe_methods k p reg r l'
        end
      else None
  end.

Definition step (k : cfg) (s : st) (o : op) : st * outcome :=
  match o with
  | Offer => (mkSt true (res s) (guards s), Done)                   (* SK 389-416 *)
  | StopOffer => (mkSt false [] [], Done)                           (* SK 449-476 *)
  | Subscribe p reg ms can_open =>                                  (* MS 652-691, SK 663-709 *)
      if negb (offered s) then (s, Failed kNotOffered)
      else if negb (allowed k (p_q p) (p_uid p)) then (s, Failed kUnknownProxy)
      else if contains s (p_app p) (p_ctr p) (p_pid p) then (s, Done)
      else
        let rs := clean_old_regions (p_app p) (p_pid p) (res s) in
        if negb can_open then (mkSt true rs (guards s), Failed kBindingFailure)
        else
          match subscribe_methods k p reg ms (guards s) with
          | None => (s, Aborted)
          | Some gs => (mkSt true (insert (p_app p) (p_ctr p) (p_pid p) reg rs) gs, Done)
          end
  | Unsubscribe a c =>                                              (* MS 693-721, SK 711-726 *)
      if negb (offered s) then (s, Done)
      else (mkSt true (remove a c (res s))
                 (filter (fun g => negb ((g_app g =? a) && (g_ctr g =? c))) (guards s)), Done)
  | Call a c q m uid pos =>                                         (* MS 723-761, SM 75-95, TQ 32-49 *)
      match find (fun g => (g_m g =? m) && (g_app g =? a) && (g_ctr g =? c) && Bool.eqb (g_q g) q) (guards s) with
      | None => (s, Failed kNotSubscribed)
      | Some g =>
          if negb (g_uid g =? uid) then (s, Failed kUnknownProxy)
          else if g_data g && negb (pos <? g_len g) then (s, Aborted)
          else if g_data g && negb (existsb (fun e => r_reg e =? g_reg g) (res s)) then (s, Dangling)
          else (s, Ran (g_reg g) pos)
      end
  end.

(** A history, newest operation first, with each operation's outcome. *)
Definition hist := list (op * outcome).

Fixpoint final (k : cfg) (ops : list op) : st * hist :=
  match ops with
  | [] => (init, [])
  | o :: r => let (s, h) := final k r in let (s', x) := step k s o in (s', (o, x) :: h)
  end.
