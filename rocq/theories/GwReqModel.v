(** Requests of the gateway transport: sequence numbers, acknowledgements, retries (any number of threads calling
    SendRequest), and the other side acknowledging and queueing what it receives.

    Each step is one access to shared state: pending_requests_ is only touched under pending_mutex_, so a locked
    block is one step; is_connected_ and next_sequence_ are atomics.  std::map is a function from keys to optional
    values. *)
From Verif Require Import Base.
Local Open Scope N_scope.

Definition two32 : N := 4294967296.

(** transport_error.h: what SendRequest returns *)
Inductive failure := NotConnected | SendFailure | Timeout.
Inductive result := Ok | Err (f : failure).

(** bidirectional_transport.h:125 *)
Definition kMaxSendRetries : nat := 5.

(** Where a thread is in SendRequest (bidirectional_transport.cpp:411-455).  n is a ghost number identifying the
    request, s its sequence number, a the attempt, r last_result (an
    error as long as the loop goes on). *)
Inductive pc :=
| Idle
| Fetch                                        (* connected at line 413, before line 418 *)
| Register (n s : N)                           (* before line 421 *)
| Loop (n s : N) (a : nat) (r : failure)       (* at line 424/426 *)
| Reset (n s : N) (a : nat)                    (* before line 436 *)
| Send (n s : N) (a : nat)                     (* before line 398, in TrySendAndWaitForAck *)
| Find (n s : N) (a : nat)                     (* before pending_request_tracker.cpp:63 *)
| Wait (n s : N) (a : nat)                     (* in wait_for, pending_request_tracker.cpp:70 *)
| Check (n s : N) (a : nat) (r : failure)      (* before bidirectional_transport.cpp:447 *)
| Erase (n s : N) (r : result).                (* before line 442/453 *)

(** What an observer sees. *)
Inductive label :=
| LBegin (t : nat) (n s : N)             (* thread t registered request n under sequence number s *)
| LSent (t : nat) (n s : N)              (* and put it on the connection *)
| LAck (s : N)                           (* an acknowledgement for s was received *)
| LReturn (t : nat) (n s : N) (r : result). (* SendRequest returned *)

Record st := mkSt {
  next : N;                          (* next_sequence_ *)
  count : N;                         (* ghost: how often it was incremented *)
  pending : N -> option bool;        (* pending_requests_: acknowledged *)
  connected : bool;                  (* is_connected_ *)
  at_ : nat -> pc;
  ub : bool }.                       (* an iterator to an erased element was used *)

(** pending_request_tracker.h:90, bidirectional_transport.h:109 *)
Definition init : st := mkSt 1 0 (fun _ => None) false (fun _ => Idle) false.

Definition upd {A} (f : N -> A) (k : N) (v : A) : N -> A := fun x => if x =? k then v else f x.
Definition updt (f : nat -> pc) (k : nat) (v : pc) : nat -> pc := fun x => if Nat.eqb x k then v else f x.
Definition go (s : st) (t : nat) (p : pc) : st := mkSt (next s) (count s) (pending s) (connected s) (updt (at_ s) t p) (ub s).
Definition set_pending (s : st) (f : N -> option bool) : st := mkSt (next s) (count s) f (connected s) (at_ s) (ub s).

Inductive act :=
| Run (t : nat) (ok : bool)          (* thread t goes on; ok: the outcome of sending, if it sends *)
| AckIn (s : N)                      (* the receive thread handles an AckResponse *)
| SetConnected (b : bool).           (* connected, disconnected, shutdown *)

Definition exec (s : st) (a : act) : st * option label :=
  match a with
  | Run t ok =>
      match at_ s t with
      | Idle => (if connected s then go s t Fetch else s, None)                            (* 413-416 *)
      | Fetch => (* 418, pending_request_tracker.cpp:20-23 *)
          (mkSt ((next s + 1) mod two32) (count s + 1) (pending s) (connected s) (updt (at_ s) t (Register (count s) (next s))) (ub s), None)
      | Register n q => (* 421, pending_request_tracker.cpp:25-29 *)
          (go (set_pending s (upd (pending s) q (Some false))) t (Loop n q 0 SendFailure), Some (LBegin t n q))
      | Loop n q k r => (* 424-437 *)
          (if (k <? kMaxSendRetries)%nat then
             if connected s then go s t (if (0 <? k)%nat then Reset n q k else Send n q k)
             else go s t (Erase n q (Err NotConnected))
           else go s t (Erase n q (Err r)), None)
      | Reset n q k => (* 436, pending_request_tracker.cpp:37-45 *)
          (go (match pending s q with Some _ => set_pending s (upd (pending s) q (Some false)) | None => s end) t (Send n q k), None)
      | Send n q k => (* 396-405 *)
          if ok then (go s t (Find n q k), Some (LSent t n q)) else (go s t (Check n q k SendFailure), None)
      | Find n q k => (* pending_request_tracker.cpp:63-68 *)
          (match pending s q with Some _ => go s t (Wait n q k) | None => go s t (Check n q k SendFailure) end, None)
      | Wait n q k => (* pending_request_tracker.cpp:70-89: the wait ends by notification, timeout or spuriously;
                         acknowledged and is_connected decide *)
          (match pending s q with
           | None => mkSt (next s) (count s) (pending s) (connected s) (at_ s) true
           | Some true => go s t (Erase n q Ok)                                         (* 440-443 *)
           | Some false => go s t (Check n q k (if connected s then Timeout else NotConnected))
           end, None)
      | Check n q k r => (* 447-450 *)
          (if connected s then go s t (Loop n q (S k) r) else go s t (Erase n q (Err r)), None)
      | Erase n q r => (* 442, 453, pending_request_tracker.cpp:31-35 *)
          (go (set_pending s (upd (pending s) q None)) t Idle, Some (LReturn t n q r))
      end
  | AckIn q => (* bidirectional_transport.cpp:373-384, pending_request_tracker.cpp:47-56 *)
      (match pending s q with Some _ => set_pending s (upd (pending s) q (Some true)) | None => s end, Some (LAck q))
  | SetConnected b => (mkSt (next s) (count s) (pending s) b (at_ s) (ub s), None)
  end.

(** Run of a list of actions; the trace is in the order of time. *)
Fixpoint runs (s : st) (l : list act) : st * list label :=
  match l with
  | [] => (s, [])
  | a :: l => let '(s', x) := exec s a in let '(s'', tr) := runs s' l in (s'', match x with Some e => e :: tr | None => tr end)
  end.

(** * Both sides *)

(** A request on its way: calling thread, request, sequence number *)
Record msg := mkMsg { m_t : nat; m_n : N; m_s : N }.
Record sys := mkSys {
  a_ : st;
  chan : list msg;               (* sent, not yet received; oldest first *)
  acks : list msg;               (* acknowledgements sent, not yet received; on the wire only m_s *)
  held : option msg;             (* the receiver: acknowledged, not yet queued *)
  queued : list msg }.           (* pushed to dispatch_queue_ so far, oldest first *)
Definition sys_init : sys := mkSys init [] [] None [].

Inductive sact :=
| SA (t : nat) (ok : bool)       (* the requesting side's thread t *)
| SConnected (b : bool)
| SReceive (ok : bool)           (* the receiver gets the oldest request; ok: sending the acknowledgement works *)
| SQueue                         (* and queues it *)
| SAckIn                         (* the oldest acknowledgement arrives *)
| SLost (i j : nat).             (* connection lost: the newest part of what is on the way does not arrive *)

(** bidirectional_transport.cpp:303-336 HandleIncomingMessage with a handler set.  A failing send puts nothing on the
    connection here (that it may put a part of the message there is the subject of C41). *)
Definition sys_exec (y : sys) (a : sact) : sys * option label :=
  match a with
  | SA t ok =>
      let '(s, x) := exec (a_ y) (Run t ok) in
      (mkSys s (match x with Some (LSent t n q) => chan y ++ [mkMsg t n q] | _ => chan y end) (acks y) (held y) (queued y), x)
  | SConnected b => let '(s, x) := exec (a_ y) (SetConnected b) in (mkSys s (chan y) (acks y) (held y) (queued y), x)
  | SReceive ok =>
      match chan y, held y with
      | m :: c, None => (if ok then mkSys (a_ y) c (acks y ++ [m]) (Some m) (queued y) else mkSys (a_ y) c (acks y) None (queued y), None)   (* 321-327 *)
      | _, _ => (y, None)
      end
  | SQueue =>
      match held y with
      | Some m => (mkSys (a_ y) (chan y) (acks y) None (queued y ++ [m]), None)      (* 331-334 *)
      | None => (y, None)
      end
  | SAckIn =>
      match acks y with
      | m :: k => let '(s, x) := exec (a_ y) (AckIn (m_s m)) in (mkSys s (chan y) k (held y) (queued y), x)
      | [] => (y, None)
      end
  | SLost i j => (mkSys (a_ y) (firstn i (chan y)) (firstn j (acks y)) (held y) (queued y), None)
  end.

Fixpoint sys_runs (y : sys) (l : list sact) : sys * list label :=
  match l with
  | [] => (y, [])
  | a :: l => let '(y', x) := sys_exec y a in let '(y'', tr) := sys_runs y' l in (y'', match x with Some e => e :: tr | None => tr end)
  end.
