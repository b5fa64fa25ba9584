(** Receiving samples through the Rust interface of the LoLa runtime.

    Models score/mw/com/impl/rust/com-api/com-api-runtime-lola/consumer.rs
    (subscription, [try_receive], [receive], [cancellable_receive], [to_stream],
    unsubscribing by drop), the container of
    score/mw/com/rust/score_com_concept/concept.rs 667-733 and the way they
    reach the C++ event through
    score/mw/com/impl/rust/com-api/com-api-ffi-lola/registry_bridge_macro.cpp
    252-270 and score/mw/com/impl/proxy_event.h 190-230.

    Simplifications.  One subscription; one user container, which is either in
    the hands of the user or inside a pending [receive]; sample contents are
    the number of the sample in the order of publication; a panic ends the run;
    sizes are natural numbers (the code restricts the number of subscribed
    samples to 32 bits, consumer.rs 337-400). *)
From Coq Require Import List Arith Bool.
Import ListNotations.

(** What the subscription was created with: [cap] is the [max_num_samples] of
    [subscribe] (consumer.rs 337), [ccap] the capacity of the user container
    (concept.rs 673-677). *)
Record conf := { cap : nat; ccap : nat }.

(** consumer.rs 1147-1162, 563-594, 753, 541-553: why a receive failed. *)
Inductive err := EBounds | ENative | ECancelled | EHandler.

(** Where a task stands: not polled yet (or running between two polls of a
    stream), inside [poll] between registering the waker and the native call
    (consumer.rs 757-776, 828-845), or waiting after [Poll::Pending]. *)
Inductive phase := PNew | PIn | PWait.

(** The borrower of the subscription: none, a future of [cancellable_receive]
    with its [new_samples], [max_samples] and [total_received]
    (consumer.rs 721-732), or a stream (814-817). *)
Inductive act := ANone | ARecv (p : phase) (nw mx tot : nat) | AStream (p : phase).

Record st := {
  fresh : list nat;    (** published, not yet delivered, still in the slots *)
  nxt : nat;           (** number of the next sample *)
  box : list nat;      (** the container of the user *)
  sbox : list nat;     (** the container inside the stream *)
  usr : list nat;      (** samples taken out of a container and still alive *)
  work : act;
  guard : bool;        (** [in_progress], consumer.rs 405-443 *)
  hdl : bool;          (** [async_init_status], the wake handler is installed *)
  wk : bool;           (** a waker is stored in [waker_storage] *)
  woken : bool;        (** the task was woken since its last poll began *)
  notes : nat;         (** notifications of the provider under way *)
  canc : bool;         (** the cancellation future is ready *)
  dlog : list nat;     (** ghost: everything the native side delivered *)
  rlog : list nat;     (** ghost: delivered to the current or last task *)
  ylog : list nat;     (** ghost: yielded by the current or last stream *)
  dead : bool          (** unsubscribed, panicked or terminated *)
}.

(** State after a successful [subscribe] (consumer.rs 337-400). *)
Definition init : st :=
  {| fresh := []; nxt := 0; box := []; sbox := []; usr := []; work := ANone;
     guard := false; hdl := false; wk := false; woken := false; notes := 0;
     canc := false; dlog := []; rlog := []; ylog := []; dead := false |}.

Inductive out :=
  | OOk (n : nat) | OErr (e : err) | OPending | OYield (x : nat)
  | OUnit | OPanic | OTerminate.

Inductive label :=
  | LSend                          (** the provider publishes a sample *)
  | LNotify                        (** its notification reaches the consumer *)
  | LLose                          (** the slot of the oldest new sample is reused *)
  | LTry (m : nat) (nok : bool)    (** [try_receive(container, m)] *)
  | LStart (nw mx : nat)           (** [cancellable_receive] returns a future *)
  | LCancel                        (** the cancellation future becomes ready *)
  | LPollA (iok : bool)            (** [poll], first part *)
  | LPollB (nok : bool)            (** [poll], native call and result *)
  | LDropTask                      (** the future or stream is dropped *)
  | LStream (iok : bool)           (** [to_stream] *)
  | LPop                           (** the user takes the front sample out *)
  | LRelease (x : nat)             (** the user drops a sample *)
  | LUnsub.                        (** [unsubscribe], or drop of the subscription *)

(** Samples alive on the consumer's side: what the sample reference tracker of
    the C++ event counts (proxy_event.h 204). *)
Definition held (s : st) : nat := length (box s) + length (sbox s) + length (usr s).

(** The newest [n] of the new samples, oldest first: slot_collector.cpp 43-52. *)
Definition lastn (n : nat) (l : list nat) : list nat := skipn (length l - n) l.

(** proxy_event.h 190-230: as many samples as the caller asks for and the
    tracker still allows; none allowed is an error, which the bridge reports
    as the largest 32 bit number (registry_bridge_macro.cpp 262-269).  [nok]
    is false when the binding itself fails. *)
Definition native (c : conf) (s : st) (m : nat) (nok : bool) : option (list nat) :=
  let g := Nat.min m (cap c - held s) in
  if (g =? 0) || negb nok then None else Some (lastn g (fresh s)).

(** consumer.rs 1232-1234: pop samples until there is room for one more below
    [m]. *)
Definition trim (m : nat) (b : list nat) : list nat := skipn (S (length b) - m) b.

(** consumer.rs 1211-1239: the callback, once for each sample; the assertion on
    [push_back] fails when the container is at its capacity. *)
Fixpoint push_all (cc m : nat) (b got : list nat) : option (list nat) :=
  match got with
  | [] => Some b
  | x :: r =>
      let b' := trim m b in
      if length b' <? cc then push_all cc m (b' ++ [x]) r else None
  end.

(** Result of [try_receive_samples]. *)
Inductive tr := TErr (e : err) | TPanic | TOk (got b : list nat).

(** consumer.rs 1139-1189: [m] is the [max_samples] argument, [cc] the capacity
    of the container [b]. *)
Definition try_receive_samples (c : conf) (s : st) (cc : nat) (b : list nat) (m : nat) (nok : bool) : tr :=
  if m =? 0 then TErr EBounds
  else if cap c <? m then TErr EBounds
  else match native c s m nok with
       | None => TErr ENative
       | Some got => match push_all cc m b got with
                     | None => TPanic
                     | Some b' => TOk got b'
                     end
       end.

(** consumer.rs 563-594 [validate_receive_params]. *)
Definition valid (c : conf) (nw mx : nat) : bool :=
  negb (nw =? 0) && (nw <=? mx) && (mx <=? cap c).

(** Record updates. *)
Definition upd (s : st) (fr bx sb us : list nat) (w : act) (g h k wo : bool) (n : nat)
  (dl rl yl : list nat) : st :=
  {| fresh := fr; nxt := nxt s; box := bx; sbox := sb; usr := us; work := w; guard := g;
     hdl := h; wk := k; woken := wo; notes := n; canc := canc s; dlog := dl; rlog := rl;
     ylog := yl; dead := dead s |}.

(** A panic or the termination of the process, and the end of a subscription. *)
Definition die (s : st) : st :=
  {| fresh := fresh s; nxt := nxt s; box := box s; sbox := sbox s; usr := usr s; work := work s;
     guard := guard s; hdl := hdl s; wk := wk s; woken := woken s; notes := notes s;
     canc := canc s; dlog := dlog s; rlog := rlog s; ylog := ylog s; dead := true |}.

(** The task ends; the guard of a receive is released (consumer.rs 747-755,
    783-803, and the drop of the guard, 464-470). *)
Definition finish (s : st) (bx : list nat) : st :=
  upd s (fresh s) bx (sbox s) (usr s) ANone false (hdl s) (wk s) (woken s) (notes s)
      (dlog s) (rlog s) (ylog s).

(** A native call delivered [got]: the new samples are consumed, older ones
    that did not fit are skipped for good (concept.rs 743-757). *)
Definition took (s : st) (got bx sb : list nat) (w : act) (g : bool) : st :=
  upd s [] bx sb (usr s) w g (hdl s) (wk s) (woken s) (notes s)
      (dlog s ++ got) (rlog s ++ got) (ylog s).

(** The second part of [ReceiveFuture::poll] (consumer.rs 763-806). *)
Definition poll_recv (c : conf) (s : st) (nw mx tot : nat) (nok : bool) : st * out :=
  match try_receive_samples c s (ccap c) (box s) (mx - tot) nok with
  | TErr e => (finish s (box s), OErr e)
  | TPanic => (die s, OPanic)
  | TOk got b =>
      let t := tot + length got in
      if nw <=? t then (took s got b (sbox s) ANone false, OOk t)
      else (took s got b (sbox s) (ARecv PWait nw mx t) true, OPending)
  end.

(** The second part of [SampleStream::poll_next] (consumer.rs 831-855). *)
Definition poll_stream (c : conf) (s : st) (nok : bool) : st * out :=
  if guard s then (die s, OPanic)
  else match try_receive_samples c s (cap c) (sbox s) (cap c) nok with
  | TErr e => (upd s (fresh s) (box s) (sbox s) (usr s) (AStream PNew) false (hdl s) (wk s)
                   (woken s) (notes s) (dlog s) (rlog s) (ylog s), OErr e)
  | TPanic => (die s, OPanic)
  | TOk got [] => (took s got (box s) [] (AStream PWait) false, OPending)
  | TOk got (x :: r) =>
      (upd s [] (box s) r (x :: usr s) (AStream PNew) false (hdl s) (wk s) (woken s) (notes s)
           (dlog s ++ got) (rlog s ++ got) (ylog s ++ [x]), OYield x)
  end.

(** The first part of a poll of the receive future once it is set up
    (consumer.rs 746-758): cancellation first, then the waker. *)
Definition begin_recv (s : st) (nw mx tot : nat) (h : bool) : st * out :=
  if canc s then
    (upd s (fresh s) (box s) (sbox s) (usr s) ANone false h (wk s) false (notes s)
         (dlog s) (rlog s) (ylog s), OErr ECancelled)
  else
    (upd s (fresh s) (box s) (sbox s) (usr s) (ARecv PIn nw mx tot) true h true false (notes s)
         (dlog s) (rlog s) (ylog s), OUnit).

(** The first poll of [cancellable_receive] (consumer.rs 664-684): validation,
    the guard and the wake handler; [iok] is false when the handler cannot be
    installed (541-553). *)
Definition first_recv (c : conf) (s : st) (nw mx : nat) (iok : bool) : st * out :=
  if negb (valid c nw mx) then (finish s (box s), OErr EBounds)
  else if guard s then (die s, OPanic)
  else if negb (hdl s) && negb iok then (finish s (box s), OErr EHandler)
  else begin_recv s nw mx 0 true.

(** Removing one sample from the hands of the user. *)
Fixpoint rem1 (x : nat) (l : list nat) : list nat :=
  match l with [] => [] | y :: r => if x =? y then r else y :: rem1 x r end.

Definition step (c : conf) (s : st) (l : label) : option (st * out) :=
  if dead s then None else
  match l with
  | LSend =>
      Some ({| fresh := fresh s ++ [nxt s]; nxt := S (nxt s); box := box s; sbox := sbox s;
               usr := usr s; work := work s; guard := guard s; hdl := hdl s; wk := wk s;
               woken := woken s; notes := S (notes s); canc := canc s; dlog := dlog s;
               rlog := rlog s; ylog := ylog s; dead := dead s |}, OUnit)
  | LNotify =>
      (* consumer.rs 533-536: the handler wakes the stored waker, taking it *)
      match notes s with
      | 0 => None
      | S n => let hit := hdl s && wk s in
               Some (upd s (fresh s) (box s) (sbox s) (usr s) (work s) (guard s) (hdl s)
                         (if hit then false else wk s) (if hit then true else woken s) n
                         (dlog s) (rlog s) (ylog s), OUnit)
      end
  | LLose =>
      match fresh s with
      | [] => None
      | _ :: r => Some (upd s r (box s) (sbox s) (usr s) (work s) (guard s) (hdl s) (wk s)
                            (woken s) (notes s) (dlog s) (rlog s) (ylog s), OUnit)
      end
  | LTry m nok =>
      (* consumer.rs 636-648; a stream borrows the subscription exclusively; while a
         future holds the container the call is made with another one and only its
         panic is modelled *)
      match work s with
      | ANone =>
          if guard s then Some (die s, OPanic)
          else match try_receive_samples c s (ccap c) (box s) m nok with
               | TErr e => Some (s, OErr e)
               | TPanic => Some (die s, OPanic)
               | TOk got b => Some (took s got b (sbox s) ANone false, OOk (length got))
               end
      | ARecv _ _ _ _ => if guard s then Some (die s, OPanic) else None
      | AStream _ => None
      end
  | LStart nw mx =>
      match work s with
      | ANone =>
          Some ({| fresh := fresh s; nxt := nxt s; box := box s; sbox := sbox s; usr := usr s;
                   work := ARecv PNew nw mx 0; guard := guard s; hdl := hdl s; wk := wk s;
                   woken := true; notes := notes s; canc := false; dlog := dlog s; rlog := [];
                   ylog := ylog s; dead := dead s |}, OUnit)
      | _ => None
      end
  | LCancel =>
      match work s with
      | ARecv _ _ _ _ =>
          Some ({| fresh := fresh s; nxt := nxt s; box := box s; sbox := sbox s; usr := usr s;
                   work := work s; guard := guard s; hdl := hdl s; wk := wk s;
                   woken := true; notes := notes s; canc := true; dlog := dlog s;
                   rlog := rlog s; ylog := ylog s; dead := dead s |}, OUnit)
      | _ => None
      end
  | LPollA iok =>
      match work s with
      | ARecv PNew nw mx _ => Some (first_recv c s nw mx iok)
      | ARecv PWait nw mx tot => Some (begin_recv s nw mx tot (hdl s))
      | AStream PIn | ARecv PIn _ _ _ | ANone => None
      | AStream _ =>
          (* consumer.rs 823-831 *)
          match sbox s with
          | x :: r => Some (upd s (fresh s) (box s) r (x :: usr s) (AStream PNew) (guard s) (hdl s)
                                (wk s) false (notes s) (dlog s) (rlog s) (ylog s ++ [x]), OYield x)
          | [] => Some (upd s (fresh s) (box s) [] (usr s) (AStream PIn) (guard s) (hdl s)
                            true false (notes s) (dlog s) (rlog s) (ylog s), OUnit)
          end
      end
  | LPollB nok =>
      match work s with
      | ARecv PIn nw mx tot => Some (poll_recv c s nw mx tot nok)
      | AStream PIn => Some (poll_stream c s nok)
      | _ => None
      end
  | LDropTask =>
      match work s with
      | ARecv PNew _ _ _ =>
          Some (upd s (fresh s) [] (sbox s) (usr s) ANone (guard s) (hdl s) (wk s) (woken s)
                    (notes s) (dlog s) (rlog s) (ylog s), OUnit)
      | ARecv PWait _ _ _ => Some (finish s [], OUnit)
      | AStream PNew | AStream PWait =>
          Some (upd s (fresh s) (box s) [] (usr s) ANone (guard s) (hdl s) (wk s) (woken s)
                    (notes s) (dlog s) (rlog s) (ylog s), OUnit)
      | _ => None
      end
  | LStream iok =>
      (* consumer.rs 700-714 *)
      match work s with
      | ANone =>
          if negb (hdl s) && (guard s || negb iok) then Some (die s, OPanic)
          else Some (upd s (fresh s) (box s) [] (usr s) (AStream PNew) (guard s) true (wk s)
                         (woken s) (notes s) (dlog s) [] [], OUnit)
      | _ => None
      end
  | LPop =>
      match work s, box s with
      | ARecv _ _ _ _, _ | _, [] => None
      | _, x :: r => Some (upd s (fresh s) r (sbox s) (x :: usr s) (work s) (guard s) (hdl s) (wk s)
                               (woken s) (notes s) (dlog s) (rlog s) (ylog s), OYield x)
      end
  | LRelease x =>
      if existsb (Nat.eqb x) (usr s) then
        Some (upd s (fresh s) (box s) (sbox s) (rem1 x (usr s)) (work s) (guard s) (hdl s) (wk s)
                  (woken s) (notes s) (dlog s) (rlog s) (ylog s), OUnit)
      else None
  | LUnsub =>
      (* consumer.rs 507-528 and proxy_event_base.cpp 115-152 *)
      match work s with
      | ANone => if guard s then Some (die s, OPanic)
                 else if held s =? 0 then Some (die s, OUnit) else Some (die s, OTerminate)
      | _ => None
      end
  end.
