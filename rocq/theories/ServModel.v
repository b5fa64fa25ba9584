(** The message server over Unix-domain sockets: one engine thread serves the
    sockets of any number of servers and their connections, and calls the user's
    callbacks, which may in turn send and disconnect.

    U/ = /repo/score/message_passing/unix_domain/.  The user's code and the
    clients are the environment: each step of them is a label.  The stack holds
    what the engine thread is in the middle of.

    Simplifications: messages are numbers and arrive whole or not at all (their
    framing is C49); the engine's own pipe has no slot; a command is run at any
    time after it was queued, in any order (their queue is C48); the size check
    of Reply and Notify and allocation failures are left out; clients of other
    servers (ClientConnection) on the same engine are left out. *)
From Verif Require Import Base OffsetPtrModel.
Open Scope nat_scope.

(** a complete message as the server finds it: U/unix_domain_server.cpp:112-129 *)
Inductive item := Req (m : nat) | Snd (m : nat) | Bad.

(** what a file descriptor stands for in the kernel *)
Inductive sock := SListen (s : nat) | SStream (p : nat).

(** a client: complete messages not yet received, all complete messages ever sent, part of a further
    message has been sent, it has not closed, what it got from the server *)
Record peer := mkPeer { p_used : bool; p_in : list item; p_sent : list item; p_part : bool; p_open : bool; p_out : list nat }.
Definition no_peer : peer := mkPeer false [] [] false true [].

(** PosixEndpointEntry of a listener or a connection: i_shared_resource_engine.h:69-81 *)
Inductive ep := EListen (s : nat) | EConn (c : nat).
Definition ep_eqb (a b : ep) : bool :=
  match a, b with EListen x, EListen y => Nat.eqb x y | EConn x, EConn y => Nat.eqb x y | _, _ => false end.

(** U/unix_domain_engine.h:145-146 poll_fds_ and poll_endpoints_, one element of each: the endpoint
    and its descriptor, or null and -1; whether revents is set *)
Definition slot := (option (ep * nat) * bool)%type.

(** U/unix_domain_server.h:54-59.  [c_acc]: user_data_ holds a value and endpoint_ is filled in;
    [c_alive]: not yet destroyed *)
Record conn := mkConn { c_srv : nat; c_peer : nat; c_fd : nat; c_acc : bool; c_alive : bool }.

(** server_fd_ of a server (U/unix_domain_server.h:84), and whether a thread is inside StopListening *)
Record server := mkSrv { s_fd : option nat; s_stop : bool }.

Inductive cmd := CReg (s : nat) | CClean (s : nat).
Definition cmd_owner (k : cmd) : nat := match k with CReg s => s | CClean s => s end.

(** what the engine thread is in the middle of: the loop over poll_fds_, ProcessCleanup, waiting in
    recvmsg, and the three kinds of callbacks *)
Inductive frame := FLoop (i : nat) | FClean (s i : nat) | FRecv (c : nat)
| FConnect (c : nat) | FMsg (c : nat) | FDisc (c : nat).

(** what the user sees: the connect callback is called, connection accepted or rejected, a message
    callback, something sent to the client, the disconnect callback, the connection is gone,
    StopListening returns *)
Inductive event := VConnect (c s p : nat) | VAccept (c : nat) | VReject (c : nat) | VMsg (c : nat) (it : item)
| VOut (c m : nat) | VDisc (c : nat) | VGone (c : nat) | VStopped (s : nat).

Record st := mkSt {
  slots : list slot;
  conns : nat -> conn; ncon : nat;
  os : nat -> option sock;
  peers : nat -> peer;
  backlog : nat -> list nat;
  srv : nat -> server;
  cmds : list cmd;
  stack : list frame;
  log : list event       (* newest first *)
}.

Definition no_conn : conn := mkConn 0 0 0 false false.
Definition s0 : st := mkSt [] (fun _ => no_conn) 0 (fun _ => None) (fun _ => no_peer) (fun _ => [])
  (fun _ => mkSrv None false) [] [] [].

Definition set_slots s x := mkSt x (conns s) (ncon s) (os s) (peers s) (backlog s) (srv s) (cmds s) (stack s) (log s).
Definition set_conn s c x := mkSt (slots s) (fupd (conns s) c x) (ncon s) (os s) (peers s) (backlog s) (srv s) (cmds s) (stack s) (log s).
Definition set_os s x := mkSt (slots s) (conns s) (ncon s) x (peers s) (backlog s) (srv s) (cmds s) (stack s) (log s).
Definition set_peer s p x := mkSt (slots s) (conns s) (ncon s) (os s) (fupd (peers s) p x) (backlog s) (srv s) (cmds s) (stack s) (log s).
Definition set_backlog s k x := mkSt (slots s) (conns s) (ncon s) (os s) (peers s) (fupd (backlog s) k x) (srv s) (cmds s) (stack s) (log s).
Definition set_srv s k x := mkSt (slots s) (conns s) (ncon s) (os s) (peers s) (backlog s) (fupd (srv s) k x) (cmds s) (stack s) (log s).
Definition set_cmds s x := mkSt (slots s) (conns s) (ncon s) (os s) (peers s) (backlog s) (srv s) x (stack s) (log s).
Definition set_stack s x := mkSt (slots s) (conns s) (ncon s) (os s) (peers s) (backlog s) (srv s) (cmds s) x (log s).
Definition push s f := set_stack s (f :: stack s).
Definition tell s e := mkSt (slots s) (conns s) (ncon s) (os s) (peers s) (backlog s) (srv s) (cmds s) (stack s) (e :: log s).

(** U/unix_domain_engine.cpp:94-128 RegisterPosixEndpoint: the first free place, else a new one; not
    modelled: the sizes of the receive buffer (C49), posix_endpoint_list_ (the same endpoints again) *)
Fixpoint register (sl : list slot) (e : ep) (fd : nat) : list slot :=
  match sl with
  | [] => [(Some (e, fd), false)]
  | (None, _) :: r => (Some (e, fd), false) :: r
  | x :: r => x :: register r e fd
  end.

(** :134 std::find over poll_endpoints_ *)
Fixpoint find_ep (sl : list slot) (e : ep) : option nat :=
  match sl with
  | [] => None
  | (Some (e', _), _) :: r => if ep_eqb e' e then Some 0 else option_map S (find_ep r e)
  | _ :: r => option_map S (find_ep r e)
  end.

(** :146-148 *)
Fixpoint clear (sl : list slot) (i : nat) : list slot :=
  match sl, i with
  | [], _ => []
  | _ :: r, O => (None, false) :: r
  | x :: r, S j => x :: clear r j
  end.

(** U/unix_domain_server.cpp:133-150 ~ServerConnection: with user data the disconnect callback is
    called first (its end is in [ret]); then the descriptor is closed *)
Definition finish (s : st) (c : nat) : st :=
  let k := conns s c in
  tell (set_conn (set_os s (fupd (os s) (c_fd k) None)) c (mkConn (c_srv k) (c_peer k) (c_fd k) (c_acc k) false)) (VGone c).
Definition destroy (s : st) (c : nat) : res st :=
  let k := conns s c in
  if negb (c_alive k) then UB
  else if c_acc k then Ok (tell (push s (FDisc c)) (VDisc c))
  else Ok (finish s c).

(** U/unix_domain_engine.cpp:142-153 UnpollEndpoint; the disconnect function of a connection resets
    the pointer to itself (U/unix_domain_server.cpp:55-57), a listener has none (:213) *)
Definition unpoll (s : st) (i : nat) : res st :=
  match nth_error (slots s) i with
  | Some (Some (EListen _, _), _) => Ok (set_slots s (clear (slots s) i))
  | Some (Some (EConn c, _), _) => destroy (set_slots s (clear (slots s) i)) c
  | _ => UB
  end.

(** U/unix_domain_engine.cpp:130-140 UnregisterPosixEndpoint on the engine's thread *)
Definition unregister (s : st) (e : ep) : res st :=
  match find_ep (slots s) e with
  | None => Ok s
  | Some i => unpoll s i
  end.

(** U/unix_domain_server.cpp:48-53 and 101-131: one message is received (blocking) and handed to the
    user, or the connection is dropped *)
Definition input (s : st) (c : nat) : res st :=
  let k := conns s c in
  if negb (c_alive k) then UB
  else match os s (c_fd k) with
       | Some (SStream p) =>
         let q := peers s p in
         match p_in q with
         | it :: r =>
           let s1 := set_peer s p (mkPeer (p_used q) r (p_sent q) (p_part q) (p_open q) (p_out q)) in
           match it with
           | Bad => unregister s1 (EConn c)
           | _ => Ok (tell (push s1 (FMsg c)) (VMsg c it))
           end
         | [] => if p_open q then Ok (push s (FRecv c)) else unregister s (EConn c)
         end
       | _ => unregister s (EConn c)
       end.

(** what accept and getsockopt give: U/unix_domain_server.cpp:240-252 *)
Inductive accepted := AFail | ANoCred | AOk (fd : nat).

(** U/unix_domain_server.cpp:236-265 ProcessConnect up to the callback; .value() of a failed accept ends the program *)
Definition connect (s : st) (l : nat) (a : accepted) : res st :=
  match a with
  | AFail => Term
  | _ =>
    match backlog s l with
    | [] => Ok s                                (* accept waits *)
    | p :: r =>
      let s1 := set_backlog s l r in
      match a with
      | AOk fd =>
        let c := ncon s in
        Ok (tell (mkSt (slots s1) (fupd (conns s1) c (mkConn l p fd false true)) (S c)
                   (fupd (os s1) fd (Some (SStream p))) (peers s1) (backlog s1) (srv s1) (cmds s1)
                   (FConnect c :: stack s1) (log s1))
             (VConnect c l p))
      | _ => Ok s1
      end
    end
  end.

(** the owner an endpoint names: U/unix_domain_server.cpp:45 and 206 *)
Definition owner (s : st) (e : ep) : nat := match e with EListen l => l | EConn c => c_srv (conns s c) end.
Definition ep_ok (s : st) (e : ep) : bool := match e with EListen _ => true | EConn c => c_alive (conns s c) end.

(** U/unix_domain_server.cpp:226-234 StopListening after CleanUpOwner: the socket is closed, clients still
    waiting to be accepted are refused by the kernel *)
Definition stopped (s : st) (l : nat) : st :=
  let s1 := match s_fd (srv s l) with Some fd => set_os s (fupd (os s) fd None) | None => s end in
  tell (set_srv (set_backlog s1 l []) l (mkSrv None false)) (VStopped l).

(** one step of the engine's thread.
    U/unix_domain_engine.cpp:328-335 the loop over the results of poll;
    :295-309 ProcessCleanup *)
Definition go (s : st) (a : accepted) : res st :=
  match stack s with
  | FLoop i :: r =>
    match nth_error (slots s) i with
    | None => Ok (set_stack s r)
    | Some (_, false) => Ok (set_stack s (FLoop (S i) :: r))
    | Some (None, true) => UB
    | Some (Some (EListen l, _), true) => connect (set_stack s (FLoop (S i) :: r)) l a
    | Some (Some (EConn c, _), true) => input (set_stack s (FLoop (S i) :: r)) c
    end
  | FClean l i :: r =>
    match nth_error (slots s) i with
    | None => Ok (stopped (set_cmds (set_stack s r) (List.filter (fun k => negb (Nat.eqb (cmd_owner k) l)) (cmds s))) l)
    | Some (None, _) => Ok (set_stack s (FClean l (S i) :: r))
    | Some (Some (e, _), _) =>
      if negb (ep_ok s e) then UB
      else if Nat.eqb (owner s e) l then unpoll (set_stack s (FClean l (S i) :: r)) i
      else Ok (set_stack s (FClean l (S i) :: r))
    end
  | FRecv c :: r => input (set_stack s r) c
  | _ => Ok s
  end.

(** what user code does with a connection: Reply or Notify (U/unix_domain_server.cpp:73-93; before the
    connection is accepted endpoint_.fd is -1), RequestDisconnect (:95-99) *)
Inductive action := AOut (c m : nat) | ADisc (c : nat).
Definition send (s : st) (c m : nat) : res st :=
  let k := conns s c in
  if negb (c_alive k) then UB
  else if negb (c_acc k) then Ok s
  else match os s (c_fd k) with
       | Some (SStream p) =>
         let q := peers s p in
         if p_open q
         then Ok (tell (set_peer s p (mkPeer (p_used q) (p_in q) (p_sent q) (p_part q) (p_open q) (p_out q ++ [m]))) (VOut c m))
         else Ok s
       | _ => Ok s
       end.
Definition act (s : st) (a : action) : res st :=
  match a with
  | AOut c m => send s c m
  | ADisc c => if negb (c_alive (conns s c)) then UB else unregister s (EConn c)
  end.
(** the same from another thread: UnregisterPosixEndpoint asserts to be on the engine's
    (U/unix_domain_engine.cpp:132) *)
Definition act_thread (s : st) (a : action) : res st :=
  match a with
  | AOut c m => send s c m
  | ADisc c => if negb (c_alive (conns s c)) then UB else Term
  end.

(** a callback returns.  Connect: U/unix_domain_server.cpp:265-270, 41-61; message: :49-52 and 115-124 (only
    an error makes the library look at the connection again); disconnect: :149 *)
Definition ret (s : st) (b : bool) : res st :=
  match stack s with
  | FConnect c :: r =>
    let s1 := set_stack s r in
    let k := conns s c in
    if b
    then Ok (tell (set_slots (set_conn s1 c (mkConn (c_srv k) (c_peer k) (c_fd k) true (c_alive k)))
                     (register (slots s1) (EConn c) (c_fd k))) (VAccept c))
    else destroy (tell s1 (VReject c)) c
  | FMsg c :: r =>
    let s1 := set_stack s r in
    if b then Ok s1
    else if negb (c_alive (conns s c)) then UB else unregister s1 (EConn c)
  | FDisc c :: r => Ok (finish (set_stack s r) c)
  | _ => Ok s
  end.

Definition in_callback (s : st) : bool :=
  match stack s with FConnect _ :: _ | FMsg _ :: _ | FDisc _ :: _ => true | _ => false end.

(** what poll may report about a descriptor *)
Definition readable (s : st) (fd : nat) : bool :=
  match os s fd with
  | Some (SListen l) => match backlog s l with [] => false | _ => true end
  | Some (SStream p) => match p_in (peers s p) with [] => p_part (peers s p) || negb (p_open (peers s p)) | _ => true end
  | None => true                                (* POLLNVAL *)
  end.
(** U/unix_domain_engine.cpp:325: poll reports some of what is ready *)
Fixpoint polled (s : st) (sl : list slot) (ready : nat -> bool) (i : nat) : list slot :=
  match sl with
  | [] => []
  | (Some (e, fd), _) :: r => (Some (e, fd), ready i && readable s fd) :: polled s r ready (S i)
  | (None, _) :: r => (None, false) :: polled s r ready (S i)
  end.

Inductive label :=
| LListen (s fd : nat)            (* StartListening succeeds *)
| LStop (s : nat)                 (* a thread calls StopListening *)
| LConnect (p s : nat)            (* a client connects *)
| LSend (p : nat) (it : item) | LPart (p : nat) | LClose (p : nat)
| LRun (k : nat)                  (* the engine runs a queued command *)
| LPoll (ready : nat -> bool)
| LGo (a : accepted)              (* the engine goes on *)
| LAct (a : action)               (* the running callback does something *)
| LThread (a : action)            (* another thread does *)
| LRet (b : bool).                (* the running callback returns success or not *)

(** A label that is not possible in a state changes nothing. *)
Definition step (s : st) (l : label) : res st :=
  match l with
  | LListen k fd =>               (* U/unix_domain_server.cpp:183-221 *)
    match s_fd (srv s k), os s fd with
    | None, None =>
      Ok (set_cmds (set_srv (set_os s (fupd (os s) fd (Some (SListen k)))) k (mkSrv (Some fd) false)) (cmds s ++ [CReg k]))
    | _, _ => Ok s
    end
  | LStop k =>                    (* U/unix_domain_server.cpp:228-230, U/unix_domain_engine.cpp:176-186 *)
    match s_fd (srv s k), s_stop (srv s k) with
    | Some fd, false => Ok (set_cmds (set_srv s k (mkSrv (Some fd) true)) (cmds s ++ [CClean k]))
    | _, _ => Ok s
    end
  | LConnect p k =>
    if negb (p_used (peers s p)) && match s_fd (srv s k) with Some _ => true | None => false end
    then Ok (set_backlog (set_peer s p (mkPeer true [] [] false true [])) k (backlog s k ++ [p]))
    else Ok s
  | LSend p it =>
    let q := peers s p in
    if p_used q && p_open q
    then Ok (set_peer s p (mkPeer true (p_in q ++ [it]) (p_sent q ++ [it]) false true (p_out q))) else Ok s
  | LPart p =>
    let q := peers s p in
    if p_used q && p_open q then Ok (set_peer s p (mkPeer true (p_in q) (p_sent q) true true (p_out q))) else Ok s
  | LClose p =>
    let q := peers s p in
    if p_used q then Ok (set_peer s p (mkPeer true (p_in q) (p_sent q) (p_part q) false (p_out q))) else Ok s
  | LRun i =>                     (* U/unix_domain_engine.cpp:324, U/unix_domain_server.cpp:218-220, U/unix_domain_engine.cpp:180-183 *)
    match stack s, nth_error (cmds s) i with
    | [], Some k =>
      let s1 := set_cmds s (firstn i (cmds s) ++ skipn (S i) (cmds s)) in
      match k with
      | CReg l => match s_fd (srv s l) with
                  | Some fd => Ok (set_slots s1 (register (slots s) (EListen l) fd))
                  | None => UB
                  end
      | CClean l => Ok (push s1 (FClean l 0))
      end
    | _, _ => Ok s
    end
  | LPoll ready =>
    match stack s with
    | [] => Ok (push (set_slots s (polled s (slots s) ready 0)) (FLoop 0))
    | _ => Ok s
    end
  | LGo a => go s a
  | LAct a => if in_callback s then act s a else Ok s
  | LThread a => act_thread s a
  | LRet b => ret s b
  end.

Fixpoint run (s : st) (ls : list label) : res st :=
  match ls with
  | [] => Ok s
  | l :: r => do s1 <- step s l ; run s1 r
  end.
