(** Messages between processes: how they are written and read, and what a process does with a
    message it receives.  Models
    score/mw/com/impl/bindings/lola/messaging/message_passing_service_instance.cpp (MS) with the
    structures in lola/element_fq_id.h, lola/skeleton_instance_identifier.h,
    lola/proxy_instance_identifier.h, lola/methods/{proxy_method_instance_identifier,
    unique_method_identifier,method_error}.h and mw/com/impl/error_serializer.cpp (ErrorCodeModel.v).

    Bytes are N below 256; integers are little endian; structures have the usual x86-64 / AArch64
    layout, with padding bytes whose content the sender does not control ([pad]).
    What becomes of a request in the tables of handlers is a parameter of each message
    ([handler]); C73 and C74 are about them.  A process handles the messages it receives one after the other. *)
From Verif Require Import Base.
From Verif Require ErrorCodeModel.
Local Open Scope N_scope.

Definition byte := N.

(** little endian, w bytes *)
Fixpoint le (w : nat) (v : N) : list byte :=
  match w with O => [] | S w => v mod 256 :: le w (v / 256) end.
Fixpoint unle (b : list byte) : N :=
  match b with [] => 0 | x :: r => x + 256 * unle r end.

(** element_fq_id.h:83-89, 8 bytes.  Maps compare the first three only (element_fq_id.cpp:79-101). *)
Record fqid := mkF { f_service : N; f_element : N; f_instance : N; f_type : N }.
(** skeleton_instance_identifier.h:33-37, 4 bytes *)
Record skid := mkSk { sk_service : N; sk_instance : N }.
(** proxy_instance_identifier.h:37-45, 8 bytes *)
Record pxid := mkPx { px_app : N; px_ctr : N }.
(** unique_method_identifier.h:30-37 within proxy_method_instance_identifier.h:29-33, 12 bytes *)
Record pmid := mkPm { pm_px : pxid; pm_id : N; pm_type : N }.

(** ** Writing: MS 140-158 SerializeToMessage, with the callers 770, 803, 836, 878, 1315, 1452 and
    the unregister message; the structures of MS 65-81 *)
Section Write.
Variable pad : nat -> byte.   (* padding bytes of the sender's object *)
Definition w_fqid (f : fqid) : list byte :=
  le 2 (f_service f) ++ le 2 (f_element f) ++ le 2 (f_instance f) ++ le 1 (f_type f) ++ [pad 0%nat].
Definition w_skid (k : skid) : list byte := le 2 (sk_service k) ++ le 2 (sk_instance k).
Definition w_pxid (p : pxid) : list byte := le 4 (px_app p) ++ le 2 (px_ctr p) ++ [pad 1%nat; pad 2%nat].
Definition w_pmid (m : pmid) : list byte := w_pxid (pm_px m) ++ le 2 (pm_id m) ++ le 1 (pm_type m) ++ [pad 3%nat].
End Write.

(** message_passing_service_instance.h:138-152; pid_t is a signed 32-bit integer, here its bit pattern *)
Inductive note := Register (e : fqid) | Unregister (e : fqid) | Update (e : fqid) | Outdated (pid : N).
Inductive request := SubscribeMethods (k : skid) (p : pxid) | CallMethod (m : pmid) (pos : N) | UnsubscribeMethods (k : skid) (p : pxid).

Definition write_note (pad : nat -> byte) (n : note) : list byte :=
  match n with
  | Register e => 1 :: w_fqid pad e
  | Unregister e => 2 :: w_fqid pad e
  | Update e => 3 :: w_fqid pad e
  | Outdated p => 4 :: le 4 p
  end.
Definition write_request (pad : nat -> byte) (r : request) : list byte :=
  match r with
  | SubscribeMethods k p => 1 :: w_skid k ++ w_pxid pad p
  | CallMethod m pos => 2 :: w_pmid pad m ++ [pad 4%nat; pad 5%nat; pad 6%nat; pad 7%nat] ++ le 8 pos
  | UnsubscribeMethods k p => 3 :: w_skid k ++ w_pxid pad p
  end.

(** ** Reading: MS 90-109 DeserializeFromPayload copies the bytes if their number is right *)
Definition part (b : list byte) (off w : nat) : N := unle (firstn w (skipn off b)).
Definition r_fqid (b : list byte) : fqid := mkF (part b 0 2) (part b 2 2) (part b 4 2) (part b 6 1).
Definition r_skid (b : list byte) (o : nat) : skid := mkSk (part b o 2) (part b (o + 2) 2).
Definition r_pxid (b : list byte) (o : nat) : pxid := mkPx (part b o 4) (part b (o + 4) 2).
Definition r_pmid (b : list byte) : pmid := mkPm (r_pxid b 0) (part b 8 2) (part b 10 1).
Definition sized {A} (n : nat) (b : list byte) (a : A) : option A := if (length b =? n)%nat then Some a else None.

(** MS 378-406 MessageCallback: which message it is; None: it is dropped with a log message *)
Definition read_note (b : list byte) : option note :=
  match b with
  | [] => None
  | t :: p =>
      if t =? 1 then option_map Register (sized 8 p (r_fqid p))
      else if t =? 2 then option_map Unregister (sized 8 p (r_fqid p))
      else if t =? 3 then option_map Update (sized 8 p (r_fqid p))
      else if t =? 4 then option_map Outdated (sized 4 p (part p 0 4))
      else None
  end.

(** MS 408-442 MessageCallbackWithReply; the error is the MethodErrc (2: unexpected message,
    3: unexpected size) *)
Definition read_request (b : list byte) : request + Z :=
  match b with
  | [] => inr 3%Z
  | t :: p =>
      if t =? 1 then match sized 12 p (SubscribeMethods (r_skid p 0) (r_pxid p 4)) with Some r => inl r | None => inr 3%Z end
      else if t =? 3 then match sized 12 p (UnsubscribeMethods (r_skid p 0) (r_pxid p 4)) with Some r => inl r | None => inr 3%Z end
      else if t =? 2 then match sized 24 p (CallMethod (r_pmid p) (part p 16 8)) with Some r => inl r | None => inr 3%Z end
      else inr 2%Z
  end.

(** ** The receiving process *)
(** keys of the tables of events *)
Definition ekey : Type := N * N * N.
Definition key_of (f : fqid) : ekey := (f_service f, f_instance f, f_element f).
Definition ekey_eqb (a b : ekey) : bool :=
  let '(x, y, z) := a in let '(x', y', z') := b in (x =? x') && (y =? y') && (z =? z').

Record proc := mkProc {
  nodes : ekey -> N -> bool;      (* event_update_interested_nodes_ *)
  here : ekey -> bool;            (* a local receive handler is registered (event_update_handlers_) *)
  told : ekey -> option bool;     (* Some b: a handler status callback is registered, last told b *)
  conns : N -> bool               (* client_cache_ holds a connection to the process *)
}.
(** effects a caller of this process's API can see *)
Inductive effect := HandlersCalled (e : ekey).

Definition eupd {A} (f : ekey -> A) (k : ekey) (v : A) : ekey -> A := fun x => if ekey_eqb x k then v else f x.
Definition nupd {A} (f : N -> A) (k : N) (v : A) : N -> A := fun x => if x =? k then v else f x.

(** calling the status callback, if there is one (MS 512-520, 567-575) *)
Definition tell (s : proc) (k : ekey) (b : bool) : proc :=
  match told s k with
  | Some _ => mkProc (nodes s) (here s) (eupd (told s) k (Some b)) (conns s)
  | None => s
  end.
Definition set_nodes (s : proc) (k : ekey) (v : N -> bool) : proc := mkProc (eupd (nodes s) k v) (here s) (told s) (conns s).

Inductive out := Fine (s : proc) (fx : list effect) | Terminated.

Section Handle.
(** all process ids there are: the sets of the code are finite *)
Variable pids : list N.
Definition nobody (v : N -> bool) : bool := forallb (fun p => negb (v p)) pids.

(** MS 463-521 HandleRegisterNotificationMsg, 523-576 HandleUnregisterNotificationMsg,
    444-461 HandleNotifyEventMsg, 578-604 HandleOutdatedNodeIdMsg.  [closes]: a connection to the
    outdated process ends within 10 * 50 ms (message_passing_client_cache.cpp:169-191). *)
Definition handle_note (s : proc) (sender : N) (b : list byte) (closes : bool) : out :=
  match read_note b with
  | None => Fine s []
  | Some (Register e) =>
      let k := key_of e in
      let first := nobody (nodes s k) in
      let s1 := set_nodes s k (nupd (nodes s k) sender true) in
      Fine (if first && negb (here s k) then tell s1 k true else s1) []
  | Some (Unregister e) =>
      let k := key_of e in
      let v := nupd (nodes s k) sender false in
      let s1 := set_nodes s k v in
      Fine (if nodes s k sender && nobody v && negb (here s k) then tell s1 k false else s1) []
  | Some (Update e) => Fine s (if here s (key_of e) then [HandlersCalled (key_of e)] else [])
  | Some (Outdated p) =>
      if conns s p && negb closes then Terminated
      else Fine (mkProc (fun k => nupd (nodes s k) p false) (here s) (told s) (nupd (conns s) p false)) []
  end.
End Handle.

(** ** Requests with reply *)
(** What happens when a well-formed request reaches the tables of handlers: no handler is
    registered, the calling user is not allowed, the handler's scope has expired, or the handler
    runs.  Only the subscription handler returns an error of its own, when it cannot open the
    consumer's memory (skeleton.cpp:691-695; registering the method handlers cannot fail). *)
Inductive handler := NoHandler | NotAllowed | ScopeGone | CannotOpen | Runs.

(** methods/method_error.h and, for CannotOpen, ComErrc::kBindingFailure of com_error.h:30-67; the
    unsubscription table has no list of users, and a call's handler returns nothing *)
Definition eSkeletonDestroyed : Z := 1%Z.
Definition eUnexpectedMessage : Z := 2%Z.
Definition eUnexpectedSize : Z := 3%Z.
Definition eMessagePassing : Z := 4%Z.
Definition eNotSubscribed : Z := 5%Z.
Definition eNotOffered : Z := 6%Z.
Definition eUnknownProxy : Z := 7%Z.
Definition comBindingFailure : Z := 3%Z.

(** MS 652-691, 693-721, 723-761; None: success *)
Definition handled (r : request) (h : handler) : option Z :=
  match r with
  | SubscribeMethods _ _ =>
      match h with
      | NoHandler => Some eNotOffered
      | NotAllowed => Some eUnknownProxy
      | ScopeGone => Some eSkeletonDestroyed
      | CannotOpen => Some comBindingFailure
      | Runs => None
      end
  | CallMethod _ _ =>
      match h with
      | NoHandler => Some eNotSubscribed
      | NotAllowed => Some eUnknownProxy
      | ScopeGone => Some eSkeletonDestroyed
      | CannotOpen | Runs => None
      end
  | UnsubscribeMethods _ _ => None
  end.

(** MS 181-205 IsMethodErrorRecoverable; None: precondition violated *)
Definition recoverable (c : Z) : option bool :=
  if (c =? eSkeletonDestroyed)%Z || (c =? eUnknownProxy)%Z || (c =? eNotSubscribed)%Z || (c =? eNotOffered)%Z then Some true
  else if (c =? eUnexpectedMessage)%Z || (c =? eUnexpectedSize)%Z || (c =? eMessagePassing)%Z then Some false
  else None.

(** the process's own table scope (message_callback_scope_) *)
Inductive answer :=
| Replied (b : list byte) (keep : bool)   (* reply sent; keep: the connection is kept *)
| NotReplied                              (* reply could not be sent; the client is disconnected *)
| Died.

(** two's complement of a 32-bit integer, and back *)
Definition z2n (z : Z) : N := Z.to_N (z mod 4294967296).
Definition n2z (n : N) : Z := let z := Z.of_N n in if (z <? 2147483648)%Z then z else (z - 4294967296)%Z.

(** MS 160-179 SerializeToMethodReplyMessage *)
Definition write_reply (r : option Z) : option (list byte) :=
  match r with
  | None => Some (le 4 (z2n ErrorCodeModel.serialize_success))
  | Some c => match ErrorCodeModel.serialize_error ErrorCodeModel.DMethod c with
              | ErrorCodeModel.Ret v => Some (le 4 (z2n v))
              | ErrorCodeModel.Abort => None
              end
  end.

(** MS 303-376: [alive]: the scope of the messaging instance has not expired; [sent]: Reply works *)
Definition handle_request (alive sent : bool) (b : list byte) (h : handler) : answer :=
  if negb alive then
    (* 330-342: after a successful reply the function falls through to .value() of an empty result *)
    if sent then Died else NotReplied
  else
    let res := match read_request b with inl r => handled r h | inr e => Some e end in
    match (match res with None => Some true | Some c => recoverable c end) with
    | None => Died
    | Some ok =>
        match write_reply res with
        | None => Died
        | Some w => if sent then Replied w ok else NotReplied
        end
    end.

(** The caller, MS 763-867: what it makes of the reply; SendWaitReply's buffer has four bytes
    (client_connection.cpp:176-180 refuses longer replies). *)
Inductive verdict := VOk | VError (code : Z) | VAbort.
Definition read_reply (reply : option (list byte)) : verdict :=
  match reply with
  | None => VError eMessagePassing
  | Some b =>
      if (4 <? length b)%nat then VError eMessagePassing
      else if negb (length b =? 4)%nat then VError eUnexpectedSize
      else match ErrorCodeModel.deserialize ErrorCodeModel.DMethod (n2z (unle b)) with
           | ErrorCodeModel.Abort => VAbort
           | ErrorCodeModel.Ret ErrorCodeModel.Success => VOk
           | ErrorCodeModel.Ret (ErrorCodeModel.Failure c) => VError c
           end
  end.

(** The caller and the called process together *)
Definition ask (alive sent : bool) (pad : nat -> byte) (r : request) (h : handler) : verdict :=
  match handle_request alive sent (write_request pad r) h with
  | Replied b _ => read_reply (Some b)
  | NotReplied | Died => read_reply None
  end.
