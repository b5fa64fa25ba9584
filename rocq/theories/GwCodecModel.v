(** Model of the gateway's message encoding.
    score/mw/com/gateway/transport_layer/sample/messages/serialization.h, gateway_messages.{h,cpp},
    transport_message.h.

    A byte is an N; a span is the list of its bytes, so every access names a position in it.  An access
    outside a span (or a subspan() beyond its end) is the outcome SUB / DUB (undefined behaviour).  The
    machine is little endian.  Log output is left out. *)
From Verif Require Import Base.
Local Open Scope N_scope.

Definition byte_list := list N.
Definition len (l : byte_list) : N := N.of_nat (length l).
Definition u32 (n : N) : N := n mod 4294967296.

(** What serialization_tag() dispatches on (serialization.h:66-86): std::string, trivially copyable types
    of a size, std::vector, and types with GetSerializeMembers(). *)
Inductive ty := TStr | TBlob (n : N) | TVec (t : ty) | TStruct (ts : list ty).
Inductive value := VStr (s : byte_list) | VBlob (b : byte_list) | VVec (vs : list value) | VStruct (vs : list value).

Inductive sres := SOk (n : N) (buf : byte_list) | SErr (buf : byte_list) | SUB.
Inductive dres := DOk (v : value) (n : N) | DErr | DUB.

(** memcpy/memset into a span *)
Definition write_at (buf : byte_list) (off : N) (b : byte_list) : option byte_list :=
  if off + len b <=? len buf
  then Some (firstn (N.to_nat off) buf ++ b ++ skipn (N.to_nat (off + len b)) buf)
  else None.

Definition le16 (n : N) : byte_list := [n mod 256; (n / 256) mod 256].
Definition of_le16 (b : byte_list) : N := match b with [x; y] => x + 256 * y | _ => 0 end.
Definition le32 (n : N) : byte_list := [n mod 256; (n / 256) mod 256; (n / 65536) mod 256; (n / 16777216) mod 256].
Definition of_le32 (b : byte_list) : N := match b with [w; x; y; z] => w + 256 * (x + 256 * (y + 256 * z)) | _ => 0 end.

(** serialization.h:138-245 *)
Fixpoint ser (v : value) (buf : byte_list) {struct v} : sres :=
  match v with
  | VStr s =>                                                     (* 138-151 *)
      let required_size := len s + 1 in
      if len buf <? required_size then SErr buf
      else match write_at buf 0 s with
           | None => SUB
           | Some buf1 => match write_at buf1 (len s) [0] with
                          | None => SUB
                          | Some buf2 => SOk (u32 required_size) buf2
                          end
           end
  | VBlob b =>                                                    (* 157-169 *)
      if len buf <? len b then SErr buf
      else match write_at buf 0 b with None => SUB | Some buf1 => SOk (u32 (len b)) buf1 end
  | VVec vs =>                                                    (* 175-200 *)
      if 65535 <? N.of_nat (length vs) then SErr buf
      else if len buf <? 2 then SErr buf
      else match write_at buf 0 (le16 (N.of_nat (length vs))) with
           | None => SUB
           | Some buf1 =>
               (fix go (vs : list value) (copied_size : N) (buf : byte_list) : sres :=
                  match vs with
                  | [] => SOk copied_size buf
                  | v :: vs =>
                      if len buf <? copied_size then SUB          (* subspan *)
                      else match ser v (skipn (N.to_nat copied_size) buf) with
                           | SOk n b => go vs (u32 (copied_size + n)) (firstn (N.to_nat copied_size) buf ++ b)
                           | SErr b => SErr (firstn (N.to_nat copied_size) buf ++ b)
                           | SUB => SUB
                           end
                  end) vs 2 buf1
           end
  | VStruct vs =>                                                 (* 206-239 *)
      (fix go (vs : list value) (off total_written_bytes : N) (buf : byte_list) : sres :=
         match vs with
         | [] => SOk total_written_bytes buf
         | v :: vs =>
             if len buf <? off then SUB
             else match ser v (skipn (N.to_nat off) buf) with
                  | SOk n b => go vs (off + n) (u32 (total_written_bytes + n)) (firstn (N.to_nat off) buf ++ b)
                  | SErr b => SErr (firstn (N.to_nat off) buf ++ b)
                  | SUB => SUB
                  end
         end) vs 0 0 buf
  end.

(** serialization.h:247-290 *)
Fixpoint csize (v : value) : N :=
  match v with
  | VStr s => len s + 1
  | VBlob b => len b
  | VVec vs => fold_left (fun size v => size + csize v) vs 2
  | VStruct vs => fold_left (fun size v => size + csize v) vs 0
  end.

(** strnlen over a span; None: a byte outside the span was read *)
Fixpoint strnlen (src : byte_list) (maxlen : nat) : option nat :=
  match maxlen with
  | O => Some O
  | S m => match src with
           | [] => None
           | b :: src => if b =? 0 then Some O else option_map S (strnlen src m)
           end
  end.

Definition read_at (src : byte_list) (off n : N) : option byte_list :=
  if off + n <=? len src then Some (firstn (N.to_nat n) (skipn (N.to_nat off) src)) else None.

(** serialization.h:296-397 *)
Fixpoint des (t : ty) (src : byte_list) {struct t} : dres :=
  match t with
  | TStr =>                                                       (* 296-308 *)
      match strnlen src (length src) with
      | None => DUB
      | Some l =>
          if (N.of_nat l =? len src) || (N.of_nat l =? 0) then DErr
          else match read_at src 0 (N.of_nat l) with
               | None => DUB
               | Some s => DOk (VStr s) (u32 (N.of_nat l + 1))
               end
      end
  | TBlob n =>                                                    (* 314-323 *)
      if len src <? n then DErr
      else match read_at src 0 n with None => DUB | Some b => DOk (VBlob b) (u32 n) end
  | TVec t =>                                                     (* 329-354 *)
      if len src <? 2 then DErr
      else match read_at src 0 2 with
           | None => DUB
           | Some c =>
               (fix go (k : nat) (bytes_consumed : N) (acc : list value) : dres :=
                  match k with
                  | O => DOk (VVec (rev acc)) bytes_consumed
                  | S k =>
                      if len src <? bytes_consumed then DUB       (* subspan *)
                      else match des t (skipn (N.to_nat bytes_consumed) src) with
                           | DOk v n => go k (u32 (bytes_consumed + n)) (v :: acc)
                           | DErr => DErr
                           | DUB => DUB
                           end
                  end) (N.to_nat (of_le16 c)) 2 []
           end
  | TStruct ts =>                                                 (* 360-391 *)
      (fix go (ts : list ty) (off total_consumed_bytes : N) (acc : list value) : dres :=
         match ts with
         | [] => DOk (VStruct (rev acc)) total_consumed_bytes
         | t :: ts =>
             if len src <? off then DUB
             else match des t (skipn (N.to_nat off) src) with
                  | DOk v n => go ts (off + n) (u32 (total_consumed_bytes + n)) (v :: acc)
                  | DErr => DErr
                  | DUB => DUB
                  end
         end) ts 0 0 []
  end.

(** * The messages *)

(** EventInfo is trivially copyable: a string_view (length and pointer), size and alignment, 8 bytes each
    (generic_skeleton.h:32-36, data_type_meta_info.h:27-32; libstdc++ layout). *)
Definition sizeof_EventInfo : N := 32.

(** MessageType, transport_message.h:43-59 *)
Inductive mtype := KProvide | KOffer | KStopOffer | KRegister | KUnregister | KAck | KUpdate.
Definition mtype_code (t : mtype) : N :=
  match t with KProvide => 1 | KOffer => 2 | KStopOffer => 3 | KRegister => 4 | KUnregister => 5 | KAck => 128 | KUpdate => 64 end.
(** message_framer.cpp:77-99 CreateMessageForType: nullptr for anything else *)
Definition mtype_of_code (c : N) : option mtype :=
  if c =? 1 then Some KProvide else if c =? 2 then Some KOffer else if c =? 3 then Some KStopOffer else if c =? 4 then Some KRegister
  else if c =? 5 then Some KUnregister else if c =? 128 then Some KAck else if c =? 64 then Some KUpdate else None.

(** The members of the message classes, gateway_messages.h:31-315.  An element of BProvide is the object
    representation of an EventInfo. *)
Inductive body :=
| BProvide (instance_specifier : byte_list) (elements : list byte_list) (shm_control_size shm_data_size : N)
| BAck (acked_sequence : N)
| BInstance (instance_specifier : byte_list)                                (* offer, stop offer *)
| BElement (instance_specifier : byte_list) (element_type : N) (element_name : byte_list).   (* register, unregister, update *)

Record message := mkM { m_type : mtype; m_seq : N; m_body : body }.

(** GetSerializeMembers(): gateway_messages.h:33-44, 124-131, 159-166, 192-199, 210-219 *)
Definition members_ty (t : mtype) : ty :=
  match t with
  | KProvide => TStruct [TStr; TVec (TBlob sizeof_EventInfo); TBlob 4; TBlob 4]
  | KAck => TStruct [TBlob 4]
  | KOffer | KStopOffer => TStruct [TStr]
  | KRegister | KUnregister | KUpdate => TStruct [TStr; TBlob 1; TStr]
  end.
Definition members (b : body) : value :=
  match b with
  | BProvide s es c d => VStruct [VStr s; VVec (map VBlob es); VBlob (le32 c); VBlob (le32 d)]
  | BAck n => VStruct [VBlob (le32 n)]
  | BInstance s => VStruct [VStr s]
  | BElement s t n => VStruct [VStr s; VBlob [t]; VStr n]
  end.
(** assignment of the decoded members *)
Definition blob (v : value) : byte_list := match v with VBlob b => b | _ => [] end.
Definition body_of (t : mtype) (v : value) : option body :=
  match t, v with
  | KProvide, VStruct [VStr s; VVec es; VBlob c; VBlob d] => Some (BProvide s (map blob es) (of_le32 c) (of_le32 d))
  | KAck, VStruct [VBlob n] => Some (BAck (of_le32 n))
  | (KOffer | KStopOffer), VStruct [VStr s] => Some (BInstance s)
  | (KRegister | KUnregister | KUpdate), VStruct [VStr s; VBlob [t]; VStr n] => Some (BElement s t n)
  | _, _ => None
  end.
(** The members after default construction: gateway_messages.h:47,94-97,104,143,176,261-263 *)
Definition default_body (t : mtype) : body :=
  match t with
  | KProvide => BProvide [] [] 0 0
  | KAck => BAck 0
  | KOffer | KStopOffer => BInstance []
  | KRegister | KUnregister | KUpdate => BElement [] 0 []
  end.

(** TransportMessage::Serialize, gateway_messages.cpp:24-43: the number of bytes written (0: error) *)
Definition msg_serialize (b : body) (buffer : byte_list) : sres :=
  let size := csize (members b) in
  if len buffer <? size then SOk 0 buffer
  else match ser (members b) (firstn (N.to_nat size) buffer) with
       | SUB => SUB
       | SErr buf => SOk 0 (buf ++ skipn (N.to_nat size) buffer)
       | SOk _ buf => SOk size (buf ++ skipn (N.to_nat size) buffer)
       end.

(** TransportMessage::Deserialize, gateway_messages.cpp:45-52; None: false *)
Inductive mdres := MdOk (b : body) | MdFail | MdUB.
Definition msg_deserialize (t : mtype) (data : byte_list) : mdres :=
  match des (members_ty t) data with
  | DUB => MdUB
  | DErr => MdFail
  | DOk v _ => match body_of t v with Some b => MdOk b | None => MdUB end
  end.

(** MessageHeader, transport_message.h:83-110 *)
Definition kWireSize : N := 9.
Definition header_bytes (type sequence payload_size : N) : byte_list := [type] ++ le32 sequence ++ le32 payload_size.
Definition header_of (b : byte_list) : N * N * N :=
  match b with
  | t :: r => (t, of_le32 (firstn 4 r), of_le32 (skipn 4 r))
  | [] => (255, 0, 0)
  end.
