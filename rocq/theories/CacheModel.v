(** The connections a process keeps to others, and who waits for whom while they are made.  Models
    score/mw/com/impl/bindings/lola/messaging/message_passing_client_cache.cpp (MC) together with
    Start, Stop, connecting and destruction of a connection in
    score/message_passing/client_connection.cpp (CC) and the one thread that runs the commands and
    callbacks of all connections of the process (the engine; message_passing_service.cpp:64 gives
    the server the clients' engine, so messages are handled on that thread too).

    Thread 0 is the engine, the others are the user's.  A user calls [Call t p] whenever it sends to
    process p (Send() of an event, SetReceiveHandler, Subscribe, method calls ...: all start with
    GetMessagePassingClient); the engine does so if a message it handles makes it run user code
    that sends (receive handlers and method handlers run on the engine), and calls
    RemoveMessagePassingClient for an Outdated message (MS 603).

    Simplifications: the result of a call is what Send would report right after it; a connection
    handed out is not kept by its caller; the engine runs queued commands in any order; a pending
    TryConnect of a stopping connection does nothing (MpClientModel.v has the details). *)
From Verif Require Import Base.

Inductive cst := CStarting | CReady | CStopping | CStopped.   (* i_client_connection.h, State *)
Definition is_ready (x : cst) : bool := match x with CReady => true | _ => false end.

Inductive pc :=
| Idle
| GetLock (p : nat)                                (* MC 82: waiting for mutex_ *)
| GetWait (p c : nat) (old : option nat)           (* MC 141-162: polling the new connection *)
| GetEnd (p c : nat) (old : option nat)            (* MC 110-115: return; the evicted connection is destroyed, CC 74-91 *)
| RemLock (p : nat)                                (* MC 171 *)
| RemWait (p c : nat).                             (* MC 178-188 *)

Inductive cmd := Connect (c : nat) | Disconnect (c : nat).    (* CC 338-345, 303-309 *)
Definition cmd_of (x : cmd) : nat := match x with Connect c | Disconnect c => c end.

Inductive event :=
| TimedOut (t p : nat)               (* the 500 ms of MC 140-159 passed *)
| Returned (t p : nat) (sent : bool). (* the call returned; was the connection ready to send? *)

Record st := mkSt {
  holder : option nat;            (* owner of mutex_ *)
  cache : nat -> option nat;      (* clients_: process -> connection *)
  cstate : nat -> cst;
  peer : nat -> nat;              (* connection -> process *)
  fresh : nat;                    (* number of the next connection *)
  queue : list cmd;               (* commands for the engine *)
  pcs : nat -> pc;
  listening : nat -> bool;        (* the process exists and accepts connections *)
  aborted : bool;                 (* MC 185 std::terminate *)
  log : list event                (* newest first *)
}.

Definition init (up : nat -> bool) : st :=
  mkSt None (fun _ => None) (fun _ => CStopped) (fun _ => 0) 0 [] (fun _ => Idle) up false [].

Definition drop_cmds (c : nat) (q : list cmd) : list cmd := filter (fun x => negb (cmd_of x =? c)) q.

(** CC 292-312: on the engine thread at once, otherwise through the queue *)
Definition stop (t c : nat) (s : st) : st :=
  match cstate s c with
  | CStarting | CReady =>
      if t =? 0 then
        mkSt (holder s) (cache s) (fupd (cstate s) c CStopped) (peer s) (fresh s) (drop_cmds c (queue s)) (pcs s) (listening s) (aborted s) (log s)
      else
        mkSt (holder s) (cache s) (fupd (cstate s) c CStopping) (peer s) (fresh s) (queue s ++ [Disconnect c]) (pcs s) (listening s) (aborted s) (log s)
  | CStopping | CStopped => s
  end.

Definition set_pc (t : nat) (x : pc) (s : st) : st :=
  mkSt (holder s) (cache s) (cstate s) (peer s) (fresh s) (queue s) (fupd (pcs s) t x) (listening s) (aborted s) (log s).
Definition set_holder (h : option nat) (s : st) : st :=
  mkSt h (cache s) (cstate s) (peer s) (fresh s) (queue s) (pcs s) (listening s) (aborted s) (log s).
Definition set_cache (p : nat) (c : option nat) (s : st) : st :=
  mkSt (holder s) (fupd (cache s) p c) (cstate s) (peer s) (fresh s) (queue s) (pcs s) (listening s) (aborted s) (log s).
Definition note (e : event) (s : st) : st :=
  mkSt (holder s) (cache s) (cstate s) (peer s) (fresh s) (queue s) (pcs s) (listening s) (aborted s) (e :: log s).

(** MC 117-137: a new connection is started *)
Definition create (t p : nat) (old : option nat) (s : st) : st :=
  let c := fresh s in
  set_pc t (GetWait p c old)
    (mkSt (holder s) (cache s) (fupd (cstate s) c CStarting) (fupd (peer s) c p) (S c) (queue s ++ [Connect c]) (pcs s) (listening s) (aborted s) (log s)).

Fixpoint remove_nth {A} (n : nat) (l : list A) : list A :=
  match l, n with
  | [], _ => []
  | _ :: r, 0 => r
  | x :: r, S n => x :: remove_nth n r
  end.

Inductive label :=
| Call (t p : nat)      (* thread t sends to process p *)
| Remove (p : nat)      (* the engine handles the message that process p is outdated *)
| Lock (t : nat)
| Poll (t : nat)
| Timeout (t : nat)
| Return (t : nat)
| Engine (i : nat)      (* the engine runs a queued command *)
| PeerLost (c : nat)    (* the engine notices that the other end is gone *)
| PeerUp (p : nat) | PeerDown (p : nat).

Definition step (s : st) (l : label) : option st :=
  match l with
  | Call t p => match pcs s t with Idle => Some (set_pc t (GetLock p) s) | _ => None end
  | Remove p => match pcs s 0 with Idle => Some (set_pc 0 (RemLock p) s) | _ => None end
  | Lock t =>
      match holder s with
      | Some _ => None
      | None =>
          match pcs s t with
          | GetLock p =>                                              (* MC 84-108 *)
              match cache s p with
              | Some c =>
                  if is_ready (cstate s c) then Some (note (Returned t p true) (set_pc t Idle s))
                  else Some (create t p (Some c) (set_cache p None (stop t c (set_holder (Some t) s))))
              | None => Some (create t p None (set_holder (Some t) s))
              end
          | RemLock p =>                                              (* MC 173-176 *)
              match cache s p with
              | None => Some (set_pc t Idle s)
              | Some c => Some (set_pc t (RemWait p c) (stop t c (set_holder (Some t) s)))
              end
          | _ => None
          end
      end
  | Poll t =>
      match pcs s t with
      | GetWait p c old =>                                            (* MC 143-155 *)
          match cstate s c with CStarting => None | _ => Some (set_pc t (GetEnd p c old) s) end
      | RemWait p c =>                                                (* MC 178, 189 *)
          match cstate s c with
          | CStopped => Some (set_holder None (set_pc t Idle (set_cache p None s)))
          | _ => None
          end
      | _ => None
      end
  | Timeout t =>
      match pcs s t with
      | GetWait p c old =>                                            (* MC 156-159, 164-166 *)
          match cstate s c with CStarting => Some (note (TimedOut t p) (set_pc t (GetEnd p c old) s)) | _ => None end
      | RemWait p c =>                                                (* MC 181-185 *)
          match cstate s c with
          | CStopped => None
          | _ => Some (mkSt (holder s) (cache s) (cstate s) (peer s) (fresh s) (queue s) (pcs s) (listening s) true (log s))
          end
      | _ => None
      end
  | Return t =>
      match pcs s t with
      | GetEnd p c old =>                                             (* MC 110-115; ~ClientConnection CC 76-89 *)
          if match old with Some o => match cstate s o with CStopped => true | _ => false end | None => true end
          then Some (note (Returned t p (is_ready (cstate s c))) (set_holder None (set_pc t Idle (set_cache p (Some c) s))))
          else None
      | _ => None
      end
  | Engine i =>
      match pcs s 0, nth_error (queue s) i with
      | Idle, Some (Disconnect c) =>                                  (* CC 575-612 *)
          Some (mkSt (holder s) (cache s) (fupd (cstate s) c CStopped) (peer s) (fresh s) (drop_cmds c (queue s)) (pcs s) (listening s) (aborted s) (log s))
      | Idle, Some (Connect c) =>                                     (* CC 348-450; otherwise it is tried again later *)
          if listening s (peer s c) then
            Some (mkSt (holder s) (cache s) (match cstate s c with CStarting => fupd (cstate s) c CReady | _ => cstate s end)
                       (peer s) (fresh s) (remove_nth i (queue s)) (pcs s) (listening s) (aborted s) (log s))
          else Some s
      | _, _ => None
      end
  | PeerLost c =>                                                     (* CC 416-433 *)
      match pcs s 0, cstate s c with
      | Idle, CReady =>
          if listening s (peer s c) then None
          else Some (mkSt (holder s) (cache s) (fupd (cstate s) c CStopped) (peer s) (fresh s) (drop_cmds c (queue s)) (pcs s) (listening s) (aborted s) (log s))
      | _, _ => None
      end
  | PeerUp p => Some (mkSt (holder s) (cache s) (cstate s) (peer s) (fresh s) (queue s) (pcs s) (fupd (listening s) p true) (aborted s) (log s))
  | PeerDown p => Some (mkSt (holder s) (cache s) (cstate s) (peer s) (fresh s) (queue s) (pcs s) (fupd (listening s) p false) (aborted s) (log s))
  end.

Fixpoint run (s : st) (ls : list label) : option st :=
  match ls with
  | [] => Some s
  | l :: r => match step s l with Some s' => run s' r | None => None end
  end.
