(** Where the arguments and the result of a method call lie in shared memory, and how a call
    carries them. I/ = score/mw/com/impl. Sizes, offsets and addresses are unbounded numbers:
    overflow of std::size_t is not modelled (an object is smaller than half the address space). *)
From Verif Require Import Base DeplModel.
Open Scope N_scope.

(** sizeof and alignof of a C++ type *)
Record ty := mkTy { sz : N; al : N }.

(** memory::DataTypeSizeInfo, used in I/util/type_erased_storage.h:178-195 *)
Record info := mkInfo { i_size : N; i_align : N }.

(** I/util/type_erased_storage.h:64 and 82: bytes up to the next multiple of the alignment *)
Definition padding (x a : N) : N := if x mod a =? 0 then 0 else a - x mod a.

(** I/util/type_erased_storage.h:61-67 AggregateArgType; (size, alignment) *)
Definition aggregate (st : N * N) (t : ty) : N * N :=
  let (size, alignment) := st in
  (size + (sz t + padding size (al t)), N.max alignment (al t)).

(** I/util/type_erased_storage.h:178-195 CreateDataTypeSizeInfoFromTypes *)
Definition size_info (ts : list ty) : info :=
  let (size, alignment) := fold_left aggregate ts (0, 0) in
  if negb (alignment =? 0) && negb (size mod alignment =? 0)
  then mkInfo (size + (alignment - size mod alignment)) alignment
  else mkInfo size alignment.

(** I/util/type_erased_storage.h:75-86 DeserializeArg: pointer to the argument, next offset *)
Definition deser_arg (data offset : N) (t : ty) : N * N :=
  let src := data + offset in
  let p := padding src (al t) in
  (src + p, offset + (p + sz t)).

(** I/util/type_erased_storage.h:88-100 Deserialize *)
Fixpoint deser (data offset : N) (ts : list ty) : list N :=
  match ts with
  | [] => []
  | t :: ts => let (p, o) := deser_arg data offset t in p :: deser data o ts
  end.

(** I/util/type_erased_storage.h:241-246 DeserializeArgs; the size of the span is not used *)
Definition deserialize (ts : list ty) (data : N) : list N := deser data 0 ts.

(** I/bindings/lola/methods/type_erased_call_queue.cpp:32-49 GetElement: address and size of the
    element; [data], [len] are the span of the queue's storage *)
Definition get_element (pos : N) (i : info) (data len qsize : N) : out (N * N) :=
  if negb (pos <? qsize) then Terminates
  else if negb (len =? i_size i * qsize) then Terminates
  else Done (data + i_size i * pos, i_size i).

(** I/bindings/lola/methods/type_erased_call_queue.cpp:128-156 AllocateQueue: size of a queue *)
Definition queue_len (i : info) (qsize : N) : N := i_size i * qsize.

(** * Shared memory *)

(** Byte at each offset of the shared memory region *)
Definition mem := N -> N.
Definition bytes := list N.

(** Copying a value to an offset: assignment of a trivially copyable type *)
Definition write (m : mem) (off : N) (b : bytes) : mem :=
  fun o => if (off <=? o) && (o <? off + N.of_nat (length b)) then nth (N.to_nat (o - off)) b 0 else m o.

(** The value of [n] bytes at an offset *)
Definition read (m : mem) (off n : N) : bytes :=
  map (fun k => m (off + N.of_nat k)) (seq 0 (N.to_nat n)).

(** *( in_args_ptrs.get()) = args, in order: I/methods/proxy_method_with_in_args_and_return.h:177.
    [base]: the address at which the process maps the region *)
Fixpoint store (m : mem) (base : N) (ptrs : list N) (vals : list bytes) : mem :=
  match ptrs, vals with
  | p :: ptrs, v :: vals => store (write m (p - base) v) base ptrs vals
  | _, _ => m
  end.

(** The values the handler's argument references designate: I/methods/skeleton_method.h:237-242 *)
Fixpoint load (m : mem) (base : N) (ts : list ty) (ptrs : list N) : list bytes :=
  match ts, ptrs with
  | t :: ts, p :: ptrs => read m (p - base) (sz t) :: load m base ts ptrs
  | _, _ => []
  end.

(** Signature of a method and where its queues lie: offsets in the region (kept as OffsetPtr,
    I/bindings/lola/methods/type_erased_call_queue.cpp:105-121) *)
Record method := mkMethod {
  args : list ty; ret : option ty; qsize : N;
  in_off : N; ret_off : N
}.

(** The registered handler: the result it writes for the arguments it is given *)
Definition handler := list bytes -> bytes.

(** I/bindings/lola/skeleton_method.cpp:73-95 with I/methods/skeleton_method.h:210-254: the provider
    runs the handler at a queue position. Result: what the handler was given, memory after.
    A process of the provider maps the region at [base]. *)
Definition serve (me : method) (base pos : N) (h : handler) (m : mem) : out (list bytes * mem) :=
  let given :=
    match args me with
    | [] => Done []
    | ts =>
      match get_element pos (size_info ts) (base + in_off me) (queue_len (size_info ts) (qsize me)) (qsize me) with
      | Done (e, _) => Done (load m base ts (deserialize ts e))
      | Terminates => Terminates
      | Undefined => Undefined
      end
    end in
  match given with
  | Done vs =>
    match ret me with
    | None => Done (vs, m)
    | Some r =>
      match get_element pos (size_info [r]) (base + ret_off me) (queue_len (size_info [r]) (qsize me)) (qsize me) with
      | Done (e, _) => Done (vs, store m base (deserialize [r] e) [h vs])
      | Terminates => Terminates
      | Undefined => Undefined
      end
    end
  | Terminates => Terminates
  | Undefined => Undefined
  end.

(** The copying call of the consumer, I/methods/proxy_method_with_in_args_and_return.h:158-217 (also
    proxy_method_with_in_args.h, proxy_method_with_return_type.h), once the position [pos] is chosen
    and the transport works. Result: what the handler was given, the bytes the returned pointer
    designates, memory after. The consumer maps the region at [cbase], the provider at [pbase]. *)
Definition call (me : method) (cbase pbase pos : N) (vals : list bytes) (h : handler) (m : mem)
  : out (list bytes * option bytes * mem) :=
  let m1 :=
    match args me with
    | [] => Done m
    | ts =>
      match get_element pos (size_info ts) (cbase + in_off me) (queue_len (size_info ts) (qsize me)) (qsize me) with
      | Done (e, _) => Done (store m cbase (deserialize ts e) vals)
      | Terminates => Terminates
      | Undefined => Undefined
      end
    end in
  match m1 with
  | Done m1 =>
    match serve me pbase pos h m1 with
    | Done (vs, m2) =>
      match ret me with
      | None => Done (vs, None, m2)
      | Some r =>
        match get_element pos (size_info [r]) (cbase + ret_off me) (queue_len (size_info [r]) (qsize me)) (qsize me) with
        | Done (e, _) => Done (vs, Some (read m2 (e - cbase) (sz r)), m2)
        | Terminates => Terminates
        | Undefined => Undefined
        end
      end
    | Terminates => Terminates
    | Undefined => Undefined
    end
  | Terminates => Terminates
  | Undefined => Undefined
  end.

(** * SerializeArgs *)

(** std::align: address within the space left that is aligned and has room, and the space left then *)
Definition std_align (a s p space : N) : option (N * N) :=
  let d := padding p a in
  if space <? d + s then None else Some (p + d, space - d).

(** I/util/type_erased_storage.h:122-134 AreRegionsOverlapping; the object is a parameter by value,
    so [obj] is the address of the parameter *)
Definition overlapping (data len obj s : N) : bool :=
  negb ((obj + s <? data) || (data + len <? obj)).

(** I/util/type_erased_storage.h:107-153 SerializeArgs for one argument: the address it is copied to
    and the next offset. [copy]: address of the by-value parameter of AreRegionsOverlapping *)
Definition ser_arg (data len offset : N) (t : ty) (copy : N) : out (N * N) :=
  let before := len - offset in
  match std_align (al t) (sz t) (data + offset) before with
  | None => Terminates
  | Some (p, after) =>
    if overlapping data len copy (sz t) then Terminates
    else Done (p, offset + (sz t + (before - after)))
  end.

(** I/util/type_erased_storage.h:155-160; an argument: its type and the address of the parameter copy *)
Fixpoint ser (data len offset : N) (l : list (ty * N)) : out (list N) :=
  match l with
  | [] => Done []
  | (t, c) :: l =>
    match ser_arg data len offset t c with
    | Done (p, o) =>
      match ser data len o l with
      | Done ps => Done (p :: ps)
      | r => r
      end
    | Terminates => Terminates
    | Undefined => Undefined
    end
  end.

(** I/util/type_erased_storage.h:227-232 *)
Definition serialize (data len : N) (l : list (ty * N)) : out (list N) := ser data len 0 l.
