(** Model of the provider side of one single-quality event as its application uses it: allocated
    sample pointers, Send with and without tracing, the field getter, stopping and
    restarting the offer.  One provider thread; consumers take and give back references
    between its calls.

    Paths are relative to /repo/score/mw/com/impl.  *)
From Verif Require Export SlotModel.

Definition flags := (bool * bool)%type.

Record prov := mkP {
  p_offered : bool;              (* skeleton_event_base.h:93 service_offered_flag_ *)
  p_slots : list N;              (* the slot words of the event's control *)
  p_log : list flags;            (* the skeleton's transaction log: (begin, end) per slot *)
  p_ts : N;                      (* bindings/lola/skeleton_event_common.h:174 current_timestamp_ *)
  p_vars : nat -> option nat;    (* the application's SampleAllocateePtr variables: slot owned *)
  p_traced : list nat;           (* slots held by tracing (type erased sample pointers) *)
  p_getter : option nat;         (* slot held by the SamplePtr of GetLatestSample *)
  p_crefs : nat -> N             (* references the consumers hold, per slot *)
}.

Inductive pop :=
| PAlloc (v : nat)               (* v = event.Allocate() *)
| PSwap (a b : nat)              (* swap, move construction (b null), move assignment *)
| PReset (v : nat)               (* reset, = nullptr, destructor *)
| PSend (v : nat) (traced : bool)(* event.Send(std::move(v)) *)
| PTraceDone (k : nat)           (* tracing is finished with its k-th sample *)
| PGet                           (* GetLatestSample *)
| PGetDone                       (* its SamplePtr is destroyed *)
| PConsRef (i : nat)             (* a consumer references slot i *)
| PConsDeref (i : nat)           (* a consumer releases slot i *)
| PStop                          (* PrepareStopOffer *)
| POffer (fresh : bool).         (* PrepareOffer with new (fresh) or existing shared memory *)

(** OAbort = std::terminate, OUndefined = use of a destroyed object,
    ONotPossible = the step is outside what the caller can do *)
Inductive pout := OOk | OSlot (i : nat) | OErr | OAbort | OUndefined | ONotPossible.

Definition vset (f : nat -> option nat) (v : nat) (x : option nat) : nat -> option nat :=
  fun w => if w =? v then x else f w.

(** bindings/lola/transaction_log_local_view.cpp:115-122 ReferenceTransactionBegin: None = the
    precondition at 119.  WaitForTransactionEndToBecomeFalse never waits here: no dereference is
    in progress between calls of one thread. *)
Definition tx_begin (l : list flags) (i : nat) : option (list flags) :=
  match nth_error l i with
  | Some (false, false) => Some (lset l i (true, false))
  | _ => None
  end.
(** 129-136 ReferenceTransactionCommit *)
Definition tx_commit (l : list flags) (i : nat) : option (list flags) :=
  match nth_error l i with
  | Some (true, false) => Some (lset l i (true, true))
  | _ => None
  end.
(** 157-173 DereferenceTransactionBegin .. Commit *)
Definition tx_deref (l : list flags) (i : nat) : option (list flags) :=
  match nth_error l i with
  | Some (true, true) => Some (lset l i (false, false))
  | _ => None
  end.

Definition set_vars (s : prov) (v : nat -> option nat) : prov :=
  mkP (p_offered s) (p_slots s) (p_log s) (p_ts s) v (p_traced s) (p_getter s) (p_crefs s).

(** bindings/lola/sample_allocatee_ptr.h:181-194 internal_delete of a pointer that owns [x].
    After PrepareStopOffer the EventDataControlComposite it points to is destroyed
    (skeleton_event_common.h:339): undefined. *)
Definition discard_ptr (s : prov) (x : option nat) : prov * pout :=
  match x with
  | None => (s, OOk)
  | Some i =>
      if p_offered s then
        match Discard (p_slots s) i with
        | None => (s, OAbort)
        | Some sl => (mkP true sl (p_log s) (p_ts s) (p_vars s) (p_traced s) (p_getter s) (p_crefs s), OOk)
        end
      else (s, OUndefined)
  end.

(** bindings/lola/consumer_event_data_control_local_view.cpp:154-190 ReferenceSpecificEvent;
    None = one of its preconditions *)
Definition reference_specific (sl : list N) (lg : list flags) (i : nat) : option (list N * list flags) :=
  match nth_error sl i with
  | None => None
  | Some w =>
      if is_in_writing w || is_invalid w then None
      else match tx_begin lg i with
           | None => None
           | Some lg1 =>
               if (rc_of w =? two32 - 1)%N then None
               else match tx_commit lg1 i with
                    | None => None
                    | Some lg2 => Some (lset sl i (w_inc w), lg2)
                    end
           end
  end.

(** bindings/lola/consumer_event_data_control_local_view.cpp:219-239 DereferenceEvent *)
Definition dereference (sl : list N) (lg : list flags) (i : nat) : option (list N * list flags) :=
  match nth_error sl i, tx_deref lg i with
  | Some w, Some lg' => Some (lset sl i (w_dec w), lg')
  | _, _ => None
  end.

Fixpoint dereference_all (sl : list N) (lg : list flags) (l : list nat) : option (list N * list flags) :=
  match l with
  | [] => Some (sl, lg)
  | i :: r => match dereference sl lg i with
              | Some (sl', lg') => dereference_all sl' lg' r
              | None => None
              end
  end.

Fixpoint remove_nth {A} (k : nat) (l : list A) : list A :=
  match k, l with
  | _, [] => []
  | O, _ :: r => r
  | S k', a :: r => a :: remove_nth k' r
  end.

Definition pstep (s : prov) (o : pop) : prov * pout :=
  match o with
  | PAlloc v =>
      (* skeleton_event.h:239-261, bindings/lola/skeleton_event.h:173-194; the old content of v
         is swapped into the temporary and destroyed with it *)
      if p_offered s then
        match AllocateNextSlot_quiet (p_slots s) with
        | (None, _) => (s, OErr)
        | (Some i, sl) =>
            let s1 := mkP true sl (p_log s) (p_ts s) (vset (p_vars s) v (Some i)) (p_traced s) (p_getter s) (p_crefs s) in
            match discard_ptr s1 (p_vars s v) with
            | (s2, OOk) => (s2, OSlot i)
            | r => r
            end
        end
      else (s, OErr)
  | PSwap a b =>
      (* plumbing/sample_allocatee_ptr.h:179-184, 219-225; bindings/lola/sample_allocatee_ptr.h:98-101, 123-132 *)
      (set_vars s (vset (vset (p_vars s) a (p_vars s b)) b (p_vars s a)), OOk)
  | PReset v => discard_ptr (set_vars s (vset (p_vars s) v None)) (p_vars s v)
  | PSend v traced =>
      match p_vars s v with
      | None => (s, ONotPossible)   (* an empty pointer: not modelled *)
      | Some i =>
          let s0 := set_vars s (vset (p_vars s) v None) in
          if p_offered s then
            if (p_ts s + 1 <? TIMESTAMP_MAX)%N then
              (* bindings/lola/skeleton_event_common.h:391-408; the sequence number running out
                 is treated in HistModel.v *)
              match EventReady (p_slots s) i (p_ts s + 1) with
              | None => (s, OAbort)
              | Some sl =>
                  let s1 := mkP true sl (p_log s) (p_ts s + 1)%N (p_vars s0) (p_traced s) (p_getter s) (p_crefs s) in
                  (* bindings/lola/skeleton_event.h:161-164, tracing/skeleton_event_tracing.h:105-133 *)
                  if traced then
                    match reference_specific sl (p_log s) i with
                    | None => (s1, OAbort)
                    | Some (sl', lg') =>
                        discard_ptr (mkP true sl' lg' (p_ts s + 1)%N (p_vars s0) (i :: p_traced s) (p_getter s) (p_crefs s)) (Some i)
                    end
                  else discard_ptr s1 (Some i)
              end
            else (s, ONotPossible)
          else
            (* skeleton_event.h:218-223: kNotOffered, the parameter is destroyed *)
            match discard_ptr s0 (Some i) with
            | (s1, OOk) => (s1, OErr)
            | r => r
            end
      end
  | PTraceDone k =>
      match nth_error (p_traced s) k with
      | None => (s, ONotPossible)
      | Some i =>
          match dereference (p_slots s) (p_log s) i with
          | None => (s, OAbort)
          | Some (sl, lg) => (mkP (p_offered s) sl lg (p_ts s) (p_vars s) (remove_nth k (p_traced s)) (p_getter s) (p_crefs s), OOk)
          end
      end
  | PGet =>
      (* bindings/lola/skeleton_event.h:197-230 *)
      if p_offered s then
        match p_getter s with
        | Some _ => (s, OErr)
        | None =>
            match find_newest 0 TIMESTAMP_MAX (p_slots s) 0 None with
            | None => (s, OErr)
            | Some (i, w) =>
                if (w =? two64 - 1)%N then (s, OAbort)
                else match tx_begin (p_log s) i with
                     | None => (s, OAbort)
                     | Some lg1 =>
                         match tx_commit lg1 i with
                         | None => (s, OAbort)
                         | Some lg2 =>
                             (mkP true (lset (p_slots s) i (w_inc w)) lg2 (p_ts s) (p_vars s) (p_traced s) (Some i) (p_crefs s), OSlot i)
                         end
                     end
            end
        end
      else (s, ONotPossible)
  | PGetDone =>
      match p_getter s with
      | None => (s, ONotPossible)
      | Some i =>
          match dereference (p_slots s) (p_log s) i with
          | None => (s, OAbort)
          | Some (sl, lg) => (mkP (p_offered s) sl lg (p_ts s) (p_vars s) (p_traced s) None (p_crefs s), OOk)
          end
      end
  | PConsRef i =>
      (* environment: a consumer references a published sample; fewer than 2^32 - 4 references *)
      match nth_error (p_slots s) i with
      | Some w =>
          if negb (is_in_writing w) && negb (is_invalid w) && (p_crefs s i + 3 <? two32 - 1)%N then
            (mkP (p_offered s) (lset (p_slots s) i (w_inc w)) (p_log s) (p_ts s) (p_vars s) (p_traced s) (p_getter s)
                 (fun j => if j =? i then (p_crefs s i + 1)%N else p_crefs s j), OOk)
          else (s, ONotPossible)
      | None => (s, ONotPossible)
      end
  | PConsDeref i =>
      match nth_error (p_slots s) i with
      | Some w =>
          if (0 <? p_crefs s i)%N then
            (mkP (p_offered s) (lset (p_slots s) i (w_dec w)) (p_log s) (p_ts s) (p_vars s) (p_traced s) (p_getter s)
                 (fun j => if j =? i then (p_crefs s i - 1)%N else p_crefs s j), OOk)
          else (s, ONotPossible)
      | None => (s, ONotPossible)
      end
  | PStop =>
      (* bindings/lola/skeleton_event_common.h:318-345, 459-468: the tracing pointers are released,
         then the log is unregistered (Reset asserts that it is empty) and the composite destroyed *)
      if p_offered s then
        match dereference_all (p_slots s) (p_log s) (p_traced s) with
        | None => (s, OAbort)
        | Some (sl, lg) =>
            if existsb (fun f => fst f || snd f) lg then (s, OAbort)
            else (mkP false sl lg (p_ts s) (p_vars s) [] (p_getter s) (p_crefs s), OOk)
        end
      else (s, ONotPossible)
  | POffer fresh =>
      (* bindings/lola/skeleton_event_common.h:228-316; skeleton.cpp:286-420; on reuse
         skeleton_memory_manager.cpp:375-392 cleans up allocations for writing *)
      if p_offered s then (s, ONotPossible)
      else if fresh then
        (mkP true (map (fun _ => INVALID_EVENT) (p_slots s)) (map (fun _ => (false, false)) (p_log s)) INVALID_TIMESTAMP
             (p_vars s) (p_traced s) (p_getter s) (fun _ => 0%N), OOk)
      else
        let sl := RemoveAllocationsForWriting (p_slots s) in
        (mkP true sl (p_log s) (GetLatestTimestamp sl) (p_vars s) (p_traced s) (p_getter s) (p_crefs s), OOk)
  end.

(** a program run: the operations with their outcomes; it ends at an abort or at undefined behaviour *)
Definition fatal (r : pout) : bool := match r with OAbort | OUndefined => true | _ => false end.
Fixpoint prun (s : prov) (ops : list pop) : prov * list pout :=
  match ops with
  | [] => (s, [])
  | o :: rest =>
      let '(s1, r) := pstep s o in
      if fatal r then (s1, [r])
      else let '(s2, rs) := prun s1 rest in (s2, r :: rs)
  end.

(** a newly created event with [n] slots, offered *)
Definition pinit (n : nat) : prov :=
  mkP true (repeat INVALID_EVENT n) (repeat (false, false) n) INVALID_TIMESTAMP (fun _ => None) [] None (fun _ => 0%N).
