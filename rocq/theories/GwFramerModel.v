(** Model of the gateway's message framing on a byte stream.
    score/mw/com/gateway/transport_layer/sample/message_framer.{h,cpp}.

    The socket is a reliable byte stream (TCP).  How many bytes one sendto()/recv() moves, and whether it
    fails, is an oracle; a recv() at the end of the stream returns 0 (peer closed). *)
From Verif Require Import Base GwCodecModel.
Local Open Scope N_scope.

(** message_framer.h:37 *)
Definition kMaxPayloadSize : N := 1024.

(** One sendto(): it fails, or moves at least one and at most the requested number of bytes. *)
Inductive send_r := SendError | Sent (k : nat).   (* min (k + 1) length bytes *)

(** message_framer.cpp:29-44 SendAll: success?, the bytes put on the stream, the number of calls made.  Every
    successful call moves at least one byte, so the data itself bounds the number of calls. *)
Fixpoint send_all (fuel : nat) (o : nat -> send_r) (pos : nat) (data : byte_list) : bool * byte_list * nat :=
  match data, fuel with
  | [], _ | _, O => (true, [], pos)
  | _, S fuel =>
      match o pos with
      | SendError => (false, [], S pos)
      | Sent k => let n := Nat.min (S k) (length data) in
                  let '(r, out, pos') := send_all fuel o (S pos) (skipn n data) in
                  (r, firstn n data ++ out, pos')
      end
  end.

Inductive sm_res := SmOk | SmFailure | SmUB.

(** message_framer.cpp:101-126 SendMessage; buf is send_buffer_ *)
Definition send_message (o : nat -> send_r) (pos : nat) (buf : byte_list) (m : message) : sm_res * byte_list * nat * byte_list :=
  match msg_serialize (m_body m) buf with
  | SUB | SErr _ => (SmUB, [], pos, buf)
  | SOk payload_size buf' =>
      if payload_size =? 0 then (SmFailure, [], pos, buf')
      else
        let h := header_bytes (mtype_code (m_type m)) (m_seq m) (u32 payload_size) in
        let '(r1, out1, pos1) := send_all (length h) o pos h in
        if r1 then
          match read_at buf' 0 payload_size with
          | None => (SmUB, out1, pos1, buf')
          | Some payload =>
              let '(r2, out2, pos2) := send_all (length payload) o pos1 payload in
              ((if r2 then SmOk else SmFailure), out1 ++ out2, pos2, buf')
          end
        else (SmFailure, out1, pos1, buf')
  end.

(** One recv(): it fails, or moves at least one byte if there is one. *)
Inductive recv_r := RecvError | Got (k : nat).   (* min (k + 1) (min length available) bytes *)

Inductive ra_res := RaAll (b rest : byte_list) (pos : nat) | RaClosed | RaError.
(** message_framer.cpp:48-73 ReceiveAll *)
Fixpoint receive_all (fuel : nat) (o : nat -> recv_r) (pos : nat) (want : nat) (stream : byte_list) : ra_res :=
  match want, fuel with
  | O, _ | _, O => RaAll [] stream pos
  | _, S fuel =>
      match o pos with
      | RecvError => RaError
      | Got k =>
          let n := Nat.min (Nat.min (S k) want) (length stream) in
          match n with
          | O => RaClosed
          | _ => match receive_all fuel o (S pos) (want - n) (skipn n stream) with
                 | RaAll b rest pos' => RaAll (firstn n stream ++ b) rest pos'
                 | r => r
                 end
          end
      end
  end.

(** ReceiveAll into a buffer: writing behind its end is undefined. *)
Inductive ri_res := RiAll (buf rest : byte_list) (pos : nat) | RiFail | RiUB.
Definition receive_into (o : nat -> recv_r) (pos : nat) (buf : byte_list) (want : N) (stream : byte_list) : ri_res :=
  if len buf <? want then RiUB
  else match receive_all (N.to_nat want) o pos (N.to_nat want) stream with
       | RaAll b rest pos' => RiAll (b ++ skipn (length b) buf) rest pos'
       | RaClosed | RaError => RiFail
       end.

Inductive rm_res := RmMessage (m : message) (rest : byte_list) (pos : nat) (buf : byte_list) | RmNull | RmUB.
(** message_framer.cpp:128-172 ReceiveMessage; buf is receive_buffer_ *)
Definition receive_message (o : nat -> recv_r) (pos : nat) (buf stream : byte_list) : rm_res :=
  match receive_into o pos (repeat 0 9) kWireSize stream with
  | RiUB => RmUB
  | RiFail => RmNull
  | RiAll hb rest pos1 =>
      let '(type, sequence, payload_size) := header_of hb in
      if kMaxPayloadSize <? payload_size then RmNull
      else
        let finish buf' rest' pos' :=
          match mtype_of_code type with
          | None => RmNull
          | Some t =>
              if 0 <? payload_size then
                match read_at buf' 0 payload_size with
                | None => RmUB
                | Some data => match msg_deserialize t data with
                               | MdOk b => RmMessage (mkM t sequence b) rest' pos' buf'
                               | MdFail => RmNull
                               | MdUB => RmUB
                               end
                end
              else RmMessage (mkM t sequence (default_body t)) rest' pos' buf'
          end in
        if 0 <? payload_size then
          match receive_into o pos1 buf payload_size rest with
          | RiUB => RmUB
          | RiFail => RmNull
          | RiAll buf' rest' pos' => finish buf' rest' pos'
          end
        else finish buf rest pos1
  end.

(** bidirectional_transport.cpp:285-301 ReceiveUntilDisconnect: the messages handed on before the first nullptr,
    and whether the loop ended in undefined behaviour. *)
Fixpoint receive_many (fuel : nat) (o : nat -> recv_r) (pos : nat) (buf stream : byte_list) : list message * bool :=
  match fuel with
  | O => ([], false)
  | S fuel =>
      match receive_message o pos buf stream with
      | RmMessage m rest pos' buf' => let '(ms, ub) := receive_many fuel o pos' buf' rest in (m :: ms, ub)
      | RmNull => ([], false)
      | RmUB => ([], true)
      end
  end.

(** A number of SendMessage calls one after the other. *)
Fixpoint send_many (o : nat -> send_r) (pos : nat) (buf : byte_list) (ms : list message) : list sm_res * byte_list :=
  match ms with
  | [] => ([], [])
  | m :: ms => let '(r, out, pos', buf') := send_message o pos buf m in
               let '(rs, outs) := send_many o pos' buf' ms in (r :: rs, out ++ outs)
  end.
