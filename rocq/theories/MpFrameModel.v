(** Message framing of the Unix-domain engine of the message passing library.
    Models score/message_passing/unix_domain/unix_domain_engine.cpp SendProtocolMessage, ReceiveProtocolMessage and the
    sizing of the receive buffer in RegisterPosixEndpoint. Bytes are numbers; the target is little endian. *)

From Coq Require Import List Bool NArith.
Import ListNotations.
Local Open Scope N_scope.

Definition byte := N.

(** unix_domain_engine.cpp 198-207: the size field is the message size cast to 16 bits, the payload is complete. *)
Definition size16 (n : N) : N := n mod 65536.
Definition frame (code : byte) (m : list byte) : list byte :=
  let size := size16 (N.of_nat (length m)) in
  code :: size mod 256 :: size / 256 :: m.

(** What sendmsg does (213): fail, putting nothing on the wire, or send a number of bytes. *)
Inductive sent := SErr | SCount (k : nat).
(** SendProtocolMessage 190-219: the number of bytes sent is not looked at. Result: bytes on the wire, success. *)
Definition send (code : byte) (m : list byte) (o : sent) : list byte * bool :=
  match o with
  | SErr => ([], false)
  | SCount k => (firstn k (frame code m), true)
  end.

(** The receive buffer has the largest size any endpoint registered so far asked for: 98-101. *)
Definition buffer_size (endpoints : list N) : N := fold_left (fun b e => if b <? e then e else b) endpoints 0.

Inductive error := ERecv | EPIPE | EMSGSIZE | EIO.
Inductive received := Msg (code : byte) (m : list byte) | Fail (e : error).

(** What recvmsg does (240, 264): fail, or deliver at most [k] bytes of those asked for. *)
Inductive got := GErr | GUpTo (k : nat).
Definition recvmsg (n : nat) (g : got) (st : list byte) : option (list byte * list byte) :=
  match g with
  | GErr => None
  | GUpTo k => let c := Nat.min n (Nat.min k (length st)) in Some (firstn c st, skipn c st)
  end.

(** ReceiveProtocolMessage 221-274. [code] and [size] keep their old values where fewer than 3 bytes arrive; [size] is
    initialised to 0 (228). *)
Definition header (t : list byte) : byte * N :=
  match t with
  | [] => (0, 0)
  | [c] => (c, 0)
  | [c; lo] => (c, lo)
  | c :: lo :: hi :: _ => (c, lo + 256 * hi)
  end.
Definition receive (buffer : N) (g1 g2 : got) (st : list byte) : received * list byte :=
  match recvmsg 3 g1 st with
  | None => (Fail ERecv, st)
  | Some ([], r) => (Fail EPIPE, r)
  | Some (t, r) =>
      let (code, size) := header t in
      if size =? 0 then (Msg code [], r)
      else if size16 buffer <? size then (Fail EMSGSIZE, r)
      else match recvmsg (N.to_nat size) g2 r with
           | None => (Fail ERecv, r)
           | Some (m, r2) => if N.of_nat (length m) =? size then (Msg code m, r2) else (Fail EIO, r2)
           end
  end.

(** recvmsg with MSG_WAITALL on an open connection. *)
Definition all_of_it : got := GUpTo (N.to_nat 1000000).
