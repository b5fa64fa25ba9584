(** Messages from a server to a client on QNX: the queue of a connection in the server, the registration of the client
    for pulses, the pulses, and the reading of the client.
    Models score/message_passing/qnx_dispatch/qnx_dispatch_server.cpp (QS), qnx_dispatch_engine.cpp (QE) and
    ClientConnection::ProcessInputEvent (client_connection.cpp:452-507). One connection. Reply and Notify may be called
    from any thread; they run under send_mutex_ and are one step each. The payload of a message is a list of bytes. *)
From Coq Require Export List ZArith Bool Arith Lia.
Export ListNotations.

Definition bytes := list Z.

(** An element of send_queue_: one of the notify buffers with its content, or reply_message_, of which there is only
    one (QS 36-42, qnx_dispatch_server.h:96-103). *)
Inductive item := IReply | INotify (bs : bytes).
(** QE 38-40 *)
Inductive pulse := PNew | PPing.
(** QE 803-827: the client's pulses are unknown; stored; and the check for waiting messages is done. *)
Inductive regst := RNone | RSet | RDone.
Inductive answer := AOk | EMSGSIZE | ENOBUFS.
(** What the server's user sends and the client's user receives. *)
Inductive msg := MReply (bs : bytes) | MNotify (bs : bytes).

Record cfg := mkCfg {
  max_notify : nat;   (* max_notify_size_ *)
  max_reply : nat;    (* max_reply_size_ *)
  buffers : nat;      (* max_queued_notifies *)
  receive : nat       (* size of posix_receive_buffer_ of the client, QE 307-311 *)
}.

Record st := mkSt {
  pool : nat;            (* buffers in notify_pool_ *)
  queue : list item;     (* send_queue_ *)
  rbuf : bytes;          (* content of reply_message_ *)
  regd : regst;
  pulses : list pulse;   (* on their way to the client, delivered in order *)
  asked : nat;           (* requests of the client the server's user has been given *)
  acc : list msg;        (* history: accepted by Reply and Notify, oldest first *)
  got : list msg;        (* history: given to the client's user, oldest first *)
  ans : option answer;   (* answer of the last Reply or Notify *)
  ub : bool              (* undefined behaviour has happened *)
}.
Definition init (c : cfg) : st := mkSt (buffers c) [] [] RNone [] 0 [] [] None false.

Definition answered (s : st) (a : answer) : st :=
  mkSt (pool s) (queue s) (rbuf s) (regd s) (pulses s) (asked s) (acc s) (got s) (Some a) (ub s).
Definition set_ub (s : st) : st :=
  mkSt (pool s) (queue s) (rbuf s) (regd s) (pulses s) (asked s) (acc s) (got s) (ans s) true.
(** MsgDeliverEvent; nothing is sent as long as the event is SIGEV_NONE. *)
Definition signal (s : st) (p : pulse) : list pulse := match regd s with RNone => pulses s | _ => pulses s ++ [p] end.
Definition registered (s : st) : bool := match regd s with RNone => false | _ => true end.
Definition is_reply (i : item) : bool := match i with IReply => true | _ => false end.
Definition empty {A} (l : list A) : bool := match l with [] => true | _ => false end.

(** QS 97-137 *)
Definition notify (c : cfg) (s : st) (bs : bytes) : st :=
  if max_notify c <? length bs then answered s EMSGSIZE
  else if empty bs && registered s then
    mkSt (pool s) (queue s) (rbuf s) (regd s) (signal s PPing) (asked s) (acc s ++ [MNotify bs]) (got s) (Some AOk) (ub s)
  else match pool s with
       | 0 => answered s ENOBUFS
       | S p => mkSt p (queue s ++ [INotify bs]) (rbuf s) (regd s) (signal s PNew) (asked s) (acc s ++ [MNotify bs]) (got s) (Some AOk) (ub s)
       end.

(** QS 76-95; to add a list element that is in the list already is undefined *)
Definition reply (c : cfg) (s : st) (bs : bytes) : st :=
  if max_reply c <? length bs then answered s EMSGSIZE
  else if existsb is_reply (queue s) then set_ub s
  else mkSt (pool s) (queue s ++ [IReply]) bs (regd s) (signal s PNew) (asked s) (acc s ++ [MReply bs]) (got s) (Some AOk) (ub s).

Definition content (s : st) (i : item) : msg := match i with IReply => MReply (rbuf s) | INotify bs => MNotify bs end.
Definition payload (m : msg) : bytes := match m with MReply bs => bs | MNotify bs => bs end.

(** The client handles its oldest pulse: QE 199-231. A ping is a notification without content
    (client_connection.cpp:424-429). Otherwise one message is read: the server answers with the oldest message
    (QS 209-269), whatever size the client has asked for; the kernel copies what fits and returns the full size, and the
    client makes a span of the full size over its buffer (QE 502-515). No message: EAGAIN, nothing happens. *)
Definition handle (c : cfg) (s : st) : option st :=
  match pulses s with
  | [] => None
  | PPing :: ps => Some (mkSt (pool s) (queue s) (rbuf s) (regd s) ps (asked s) (acc s) (got s ++ [MNotify []]) (ans s) (ub s))
  | PNew :: ps =>
      match queue s with
      | [] => Some (mkSt (pool s) [] (rbuf s) (regd s) ps (asked s) (acc s) (got s) (ans s) (ub s))
      | i :: q =>
          let m := content s i in
          if receive c <? 1 + length (payload m) then Some (set_ub s)
          else Some (mkSt (if is_reply i then pool s else S (pool s)) q (rbuf s) (regd s) ps (asked s) (acc s) (got s ++ [m]) (ans s) (ub s))
      end
  end.

Inductive label :=
| LNotify (bs : bytes)
| LReply (bs : bytes)
| LRegSet         (* QE 820-822: the server stores the events the client has sent *)
| LRegCheck       (* QE 823-826 *)
| LHandle
| LAsk.           (* the client sends a request: QE 665-738, QS 149-172 *)

Definition step (c : cfg) (s : st) (l : label) : option st :=
  if ub s then None
  else match l with
  | LNotify bs => Some (notify c s bs)
  | LReply bs => Some (reply c s bs)
  | LRegSet => match regd s with
               | RNone => Some (mkSt (pool s) (queue s) (rbuf s) RSet (pulses s) (asked s) (acc s) (got s) (ans s) (ub s))
               | _ => None
               end
  | LRegCheck => match regd s with
                 | RSet => Some (mkSt (pool s) (queue s) (rbuf s) RDone (if empty (queue s) then pulses s else pulses s ++ [PNew])
                                   (asked s) (acc s) (got s) (ans s) (ub s))
                 | _ => None
                 end
  | LHandle => handle c s
  | LAsk => Some (mkSt (pool s) (queue s) (rbuf s) (regd s) (pulses s) (S (asked s)) (acc s) (got s) (ans s) (ub s))
  end.

Fixpoint run (c : cfg) (s : st) (ls : list label) : option st :=
  match ls with
  | [] => Some s
  | l :: ls => match step c s l with Some s' => run c s' ls | None => None end
  end.

(** * What the server makes of the size fields of a message it is sent: QE 702-730.
    msglen: bytes received; offset: where the message begins in them; nbytes: the size field of the message;
    hdr: sizeof(io_write_t). The answer is the number of bytes given to the user as message, if any. *)
Local Open Scope Z_scope.
Definition W64 : Z := 18446744073709551616.
Definition write_size (hdr msglen offset nbytes : Z) : option Z :=
  if nbytes <? 1 then None
  else if (msglen - offset - hdr) mod W64 <? nbytes then None
  else Some (nbytes - 1).

(** * The pulses of a client with several endpoints: QE 303-428, 199-231. *)
Definition W16 : Z := 65536.
Definition W32 : Z := 4294967296.
(** QE 88-100 *)
Definition pack (index signal nonce : Z) : Z := (nonce * 2 ^ 48 + signal * 2 ^ 32 + index) mod W64.
Definition unpack (v : Z) : Z * Z * Z := (v mod W32, (v / 2 ^ 32) mod W16, (v / 2 ^ 48) mod W16).

Record slot := mkSlot { s_ep : option nat; s_nonce : Z; s_count : nat (* history: registrations in this slot, less one *) }.
Record spulse := mkSp { sp_val : Z; sp_ep : nat (* history: the endpoint it was meant for *); sp_index : nat; sp_count : nat (* history *) }.
Record pst := mkPst {
  slots : list slot;          (* poll_endpoints_ *)
  sent : list spulse;         (* in the channel *)
  calls : list (nat * bool * nat * nat * nat)   (* history: endpoint called, ping?, endpoint meant, slot, registrations of the slot since *)
}.
Definition pinit : pst := mkPst [] [] [].

Fixpoint first_free (l : list slot) (i : nat) : nat :=
  match l with
  | [] => i
  | x :: l => match s_ep x with None => i | Some _ => first_free l (S i) end
  end.
Fixpoint upd {A} (l : list A) (i : nat) (x : A) : list A :=
  match l, i with
  | [], _ => []
  | _ :: l, O => x :: l
  | y :: l, S i => y :: upd l i x
  end.

Inductive plabel :=
| PReg (e : nat)                      (* RegisterPosixEndpoint *)
| PUnreg (i : nat)                    (* UnselectEndpoint of the endpoint in slot i *)
| PSend (i : nat) (ping : bool)       (* the server of the endpoint in slot i delivers the event registered for it *)
| PHandle.                            (* SelectPulseCallback for the oldest pulse *)

Definition preg (s : pst) (e : nat) : pst :=
  let i := first_free (slots s) 0 in
  match nth_error (slots s) i with
  | Some x => mkPst (upd (slots s) i (mkSlot (Some e) ((s_nonce x + 1) mod W16) (S (s_count x)))) (sent s) (calls s)
  | None => if Z.of_nat (length (slots s)) =? W32 - 1 then s (* QE 328-334 *)
            else mkPst (slots s ++ [mkSlot (Some e) 0 0]) (sent s) (calls s)
  end.
Definition sigv (ping : bool) : Z := if ping then 1 else 0.
Definition pstep (s : pst) (l : plabel) : option pst :=
  match l with
  | PReg e => Some (preg s e)
  | PUnreg i => match nth_error (slots s) i with
                | Some x => match s_ep x with
                            | Some _ => Some (mkPst (upd (slots s) i (mkSlot None (s_nonce x) (s_count x))) (sent s) (calls s))
                            | None => None
                            end
                | None => None
                end
  | PSend i ping => match nth_error (slots s) i with
                    | Some x => match s_ep x with
                                | Some e => Some (mkPst (slots s) (sent s ++ [mkSp (pack (Z.of_nat i) (sigv ping) (s_nonce x)) e i (s_count x)]) (calls s))
                                | None => None (* the kernel delivers only registered events: QE 408-421 *)
                                end
                    | None => None
                    end
  | PHandle => match sent s with
               | [] => None
               | p :: ps =>
                   let '(i, sg, nc) := unpack (sp_val p) in
                   match nth_error (slots s) (Z.to_nat i) with
                   | Some x => match s_ep x with
                               | Some e => if s_nonce x =? nc
                                           then Some (mkPst (slots s) ps
                                                        ((e, sg =? 1, sp_ep p, sp_index p, (s_count x - sp_count p)%nat) :: calls s))
                                           else Some (mkPst (slots s) ps (calls s))
                               | None => Some (mkPst (slots s) ps (calls s))
                               end
                   | None => Some (mkPst (slots s) ps (calls s))
                   end
               end
  end.
Fixpoint prun (s : pst) (ls : list plabel) : option pst :=
  match ls with
  | [] => Some s
  | l :: ls => match pstep s l with Some s' => prun s' ls | None => None end
  end.
