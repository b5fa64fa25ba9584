(** Interleaving model of one event of the LoLa binding: one provider
    (SkeletonEvent) and any number of consumers (ProxyEvent) sharing the slot
    array, the sample storage and one transaction log per consumer.

    Every label executes at most one shared-memory access of one thread, so a
    list of labels is a schedule; a label that is not enabled leaves the state
    unchanged.  Paths are relative to /repo/score/mw/com/impl/bindings/lola.

    Simplifications
    - sequentially consistent memory (the code uses acquire/release/seq_cst on
      the slot words; the relaxed loads of the consumer scan at
      consumer_event_data_control_local_view.cpp:81 are re-validated by the
      compare-exchange),
    - one quality level (the ASIL-B/QM composite is CompositeModel.v),
    - the provider is one thread ("event sender has to be
      single-threaded/non-concurrent per AoU",
      provider_event_data_control_local_view.cpp:124),
    - the 10x10ms wait of transaction_log_local_view.cpp:32-47 is a blocking
      wait; the std::terminate after the timeout is not modelled (see
      [wait_has_cause] in EventProps.v for what makes the wait end),
    - the log node stays with the consumer (registration is LogSetModel.v,
      subscription counters are SubModel.v). *)
From Verif Require Export SlotModel.

(** provider_event_data_control_local_view.cpp:29 *)
Definition MAX_ALLOCATE_RETRIES : nat := 100.
(** consumer_event_data_control_local_view.cpp:30 *)
Definition MAX_REFERENCE_RETRIES : nat := 100.

(** Program counter of the provider thread. *)
Inductive ppc :=
| PIdle                                             (* between API calls *)
| PScan (retry i : nat) (best : option (nat * N))   (* FindOldestUnusedSlot, next load is slot i *)
| PCas (retry i : nat) (w : N)                      (* TryAllocateSlot *)
| PReady (i : nat) (t : N)                          (* EventReady: store pending *)
| PDisc (i : nat)                                   (* Discard: load pending *)
| PDiscSt (i : nat)                                 (* Discard: store pending *)
| PDead                                             (* process crashed *)
| PClean (i : nat)                                  (* RemoveAllocationsForWriting: load of slot i *)
| PCleanCas (i : nat)                               (* RemoveAllocationsForWriting: compare-exchange *)
| PLatest (i : nat) (acc : N).                      (* GetLatestTimestamp: load of slot i *)

(** What a consumer process currently does with one slot. *)
Inductive phase :=
| PhNone                     (* nothing *)
| PhTx                       (* reference transaction begun, slot word not incremented by us *)
| PhRef (id : nat) (t : N)   (* slot word incremented, transaction not yet committed *)
| PhBatch (id : nat) (t : N) (* committed, not yet handed to the user *)
| PhHeld (id : nat) (t : N)  (* the user owns a SamplePtr *)
| PhD1 (id : nat) (t : N)    (* SamplePtr destruction: dereference transaction begun *)
| PhD2                       (* slot word decremented, dereference transaction not yet committed *)
| PhOrph (counted : bool).   (* left behind by a crashed process *)

(** Does the phase contribute to the reference count in the slot word? *)
Definition counted (p : phase) : bool :=
  match p with
  | PhRef _ _ | PhBatch _ _ | PhHeld _ _ | PhD1 _ _ => true
  | PhOrph b => b
  | PhNone | PhTx | PhD2 => false
  end.

(** Program counter of the thread of a consumer that calls GetNewSamples;
    the destructors of SamplePtrs run on any thread (labels LDeref...). *)
Inductive cpc :=
| CIdle
| CScan (n : nat) (batch : list nat) (up : N) (retry i : nat) (cand : option (nat * N))
| CTx (n : nat) (batch : list nat) (up : N) (retry j : nat) (w : N)
| CCas (n : nat) (batch : list nat) (up : N) (retry j : nat) (w : N)
| CAbort (n : nat) (batch : list nat) (up : N) (retry j : nat)
| CCommit (n : nat) (batch : list nat) (j : nat)
| CLoad (n : nat) (batch : list nat) (j : nat)
| CNewest (todo batch : list nat) (newest : N)
| CDeliver (todo : list nat)
| CDead                          (* process crashed, log left in shared memory *)
| CFailed                        (* restart reported an error *)
| CRb (i step : nat).            (* rollback, at slot i *)

Record consumer := mkCons {
  c_pc : cpc;
  c_begin : nat -> bool;    (* transaction_log_slot.h: begin bit per slot (shared memory) *)
  c_end : nat -> bool;      (* end bit per slot (shared memory) *)
  c_ph : nat -> phase;
  c_last : N;               (* slot_collector.h last_ts_ *)
  c_cap : nat;              (* size of collected_slots_ = subscribed sample count *)
  c_deliv : list nat        (* ghost: publications handed to the user, oldest first *)
}.

Record evst := mkEv {
  slots : nat -> N;              (* state_slots_ (shared memory) *)
  data : nat -> N;               (* sample storage (shared memory) *)
  cur : N;                       (* skeleton_event_common.h current_timestamp_ *)
  pc : ppc;
  own : nat -> bool;             (* slots with a live SampleAllocateePtr (left over when dead) *)
  hist : list (N * N);           (* ghost: all publications (timestamp, value), oldest first *)
  sid : nat -> nat;              (* ghost: position in hist of the last publication in the slot *)
  cons : nat -> consumer;
  abort : bool                   (* a precondition was violated / std::terminate *)
}.

Definition set_slots s x := mkEv x (data s) (cur s) (pc s) (own s) (hist s) (sid s) (cons s) (abort s).
Definition set_data s x := mkEv (slots s) x (cur s) (pc s) (own s) (hist s) (sid s) (cons s) (abort s).
Definition set_cur s x := mkEv (slots s) (data s) x (pc s) (own s) (hist s) (sid s) (cons s) (abort s).
Definition set_pc s x := mkEv (slots s) (data s) (cur s) x (own s) (hist s) (sid s) (cons s) (abort s).
Definition set_own s x := mkEv (slots s) (data s) (cur s) (pc s) x (hist s) (sid s) (cons s) (abort s).
Definition set_pub s h x := mkEv (slots s) (data s) (cur s) (pc s) (own s) h x (cons s) (abort s).
Definition set_con s c x := mkEv (slots s) (data s) (cur s) (pc s) (own s) (hist s) (sid s) (fupd (cons s) c x) (abort s).
Definition set_abort s := mkEv (slots s) (data s) (cur s) (pc s) (own s) (hist s) (sid s) (cons s) true.

Definition c_set_pc k x := mkCons x (c_begin k) (c_end k) (c_ph k) (c_last k) (c_cap k) (c_deliv k).
Definition c_set_begin k i b := mkCons (c_pc k) (fupd (c_begin k) i b) (c_end k) (c_ph k) (c_last k) (c_cap k) (c_deliv k).
Definition c_set_end k i b := mkCons (c_pc k) (c_begin k) (fupd (c_end k) i b) (c_ph k) (c_last k) (c_cap k) (c_deliv k).
Definition c_set_ph k i p := mkCons (c_pc k) (c_begin k) (c_end k) (fupd (c_ph k) i p) (c_last k) (c_cap k) (c_deliv k).
Definition c_set_last k x := mkCons (c_pc k) (c_begin k) (c_end k) (c_ph k) x (c_cap k) (c_deliv k).
Definition c_set_deliv k x := mkCons (c_pc k) (c_begin k) (c_end k) (c_ph k) (c_last k) (c_cap k) x.

Section Machine.
Variable ns : nat.   (* number of slots *)
Variable nc : nat.   (* number of consumers *)

(** Provider: provider_event_data_control_local_view.cpp:51-66, next attempt *)
Definition p_retry (s : evst) (r : nat) : evst :=
  if S r <=? MAX_ALLOCATE_RETRIES then set_pc s (PScan (S r) 0 None) else set_pc s PIdle.

(** One access of the provider thread. *)
Definition pstep (s : evst) : evst :=
  match pc s with
  | PIdle | PDead => s
  (* FindOldestUnusedSlot, provider_event_data_control_local_view.cpp:73-107 *)
  | PScan r i best =>
      if i <? ns then
        let w := slots s i in
        if is_invalid w then set_pc s (PCas r i w)
        else set_pc s (PScan r (S i) (scan_oldest best i w))
      else match best with
           | None => p_retry s r
           | Some (j, w) => set_pc s (PCas r j w)
           end
  (* TryAllocateSlot, provider_event_data_control_local_view.cpp:146-163 *)
  | PCas r i w =>
      if (slots s i =? w)%N
      then set_pc (set_own (set_slots s (fupd (slots s) i IN_WRITING)) (fupd (own s) i true)) PIdle
      else p_retry s r
  (* EventReady, provider_event_data_control_local_view.cpp:117-126; afterwards the
     SampleAllocateePtr is destroyed, sample_allocatee_ptr.h:181-194 -> Discard *)
  | PReady i t =>
      let s1 := set_slots s (fupd (slots s) i (mk_status t 0)) in
      let s2 := set_own s1 (fupd (own s) i false) in
      let s3 := set_pub s2 (hist s ++ [(t, data s i)]) (fupd (sid s) i (length (hist s))) in
      set_pc s3 (PDisc i)
  (* Discard, provider_event_data_control_local_view.cpp:129-138 *)
  | PDisc i => if is_in_writing (slots s i) then set_pc s (PDiscSt i) else set_pc s PIdle
  | PDiscSt i =>
      set_pc (set_own (set_slots s (fupd (slots s) i INVALID_EVENT)) (fupd (own s) i false)) PIdle
  (* RemoveAllocationsForWriting, provider_event_data_control_local_view.cpp:182-209 *)
  | PClean i =>
      if i <? ns then
        if is_in_writing (slots s i) then set_pc s (PCleanCas i) else set_pc s (PClean (S i))
      else set_pc s (PLatest 0 INVALID_TIMESTAMP)
  | PCleanCas i =>
      if (slots s i =? IN_WRITING)%N
      then set_pc (set_own (set_slots s (fupd (slots s) i INVALID_EVENT)) (fupd (own s) i false)) (PClean (S i))
      else set_abort s
  (* GetLatestTimestamp, event_data_control_composite.cpp:237-260 and
     UpdateCurrentTimestamp, skeleton_event_common.h:440-445 *)
  | PLatest i acc =>
      if i <? ns then set_pc s (PLatest (S i) (latest_acc acc (slots s i)))
      else set_pc (set_cur s acc) PIdle
  end.

(** CollectSlots leaves its loop: slot_collector.cpp:40-47 *)
Definition c_finish (k : consumer) (batch : list nat) : consumer :=
  c_set_pc k (CNewest batch batch (c_last k)).

(** One access of the thread of consumer [c] that runs GetNewSamples (or the
    rollback after a restart). [spur]: compare_exchange_weak fails spuriously. *)
Definition cstep (s : evst) (c : nat) (spur : bool) : evst :=
  let k := cons s c in
  match c_pc k with
  | CIdle | CDead | CFailed => s
  (* ReferenceNextEvent, consumer_event_data_control_local_view.cpp:67-112 *)
  | CScan n batch up r i cand =>
      if i <? ns then
        set_con s c (c_set_pc k (CScan n batch up r (S i) (scan_newest (c_last k) up cand i (slots s i))))
      else match cand with
           | None => set_con s c (c_finish k batch)
           | Some (j, w) =>
               if (w =? two64 - 1)%N then set_abort s
               else set_con s c (c_set_pc k (CTx n batch up r j w))
           end
  (* ReferenceTransactionBegin, transaction_log_local_view.cpp:115-122 *)
  | CTx n batch up r j w =>
      if c_begin k j then set_abort s
      else if c_end k j then s
      else set_con s c (c_set_pc (c_set_ph (c_set_begin k j true) j PhTx) (CCas n batch up r j w))
  (* consumer_event_data_control_local_view.cpp:126 *)
  | CCas n batch up r j w =>
      if (slots s j =? w)%N && negb spur
      then set_con (set_slots s (fupd (slots s) j (w_inc w))) c
             (c_set_pc (c_set_ph k j (PhRef (sid s j) (ts_of w))) (CCommit n batch j))
      else set_con s c (c_set_pc k (CAbort n batch up r j))
  (* ReferenceTransactionAbort, transaction_log_local_view.cpp:143-150, then the
     next attempt, consumer_event_data_control_local_view.cpp:65, 135-145 *)
  | CAbort n batch up r j =>
      if negb (c_begin k j) then set_abort s
      else if c_end k j then s
      else let k1 := c_set_ph (c_set_begin k j false) j PhNone in
           if S r <? MAX_REFERENCE_RETRIES
           then set_con s c (c_set_pc k1 (CScan n batch up (S r) 0 None))
           else set_con s c (c_finish k1 batch)
  (* ReferenceTransactionCommit, transaction_log_local_view.cpp:129-136 *)
  | CCommit n batch j =>
      if negb (c_begin k j) then set_abort s
      else if c_end k j then s
      else match c_ph k j with
           | PhRef id t =>
               set_con s c (c_set_pc (c_set_ph (c_set_end k j true) j (PhBatch id t)) (CLoad n batch j))
           | _ => s
           end
  (* slot_collector.cpp:70-78 *)
  | CLoad n batch j =>
      let up := ts_of (slots s j) in
      let batch' := j :: batch in
      if (length batch' =? c_cap k) || (n <=? 1)
      then set_con s c (c_finish k batch')
      else set_con s c (c_set_pc k (CScan (n - 1) batch' up 0 0 None))
  (* slot_collector.cpp:43-50 *)
  | CNewest todo batch newest =>
      match todo with
      | j :: t => set_con s c (c_set_pc k (CNewest t batch (N.max newest (ts_of (slots s j)))))
      | [] => set_con s c (c_set_pc (c_set_last k newest) (CDeliver batch))
      end
  (* proxy_event.h GetNewSamples: SamplePtrs are handed out oldest first *)
  | CDeliver todo =>
      match todo with
      | j :: t =>
          match c_ph k j with
          | PhBatch id ts =>
              set_con s c (c_set_pc (c_set_deliv (c_set_ph k j (PhHeld id ts)) (c_deliv k ++ [id])) (CDeliver t))
          | _ => s
          end
      | [] => set_con s c (c_set_pc k CIdle)
      end
  (* RollbackIncrementTransactions, transaction_log_local_view.cpp:209-241 *)
  | CRb i step =>
      match step with
      | 0 =>
          if i <? ns then
            match c_begin k i, c_end k i with
            | true, true => set_con s c (c_set_pc (c_set_begin k i false) (CRb i 1))
            | false, false => set_con s c (c_set_pc (c_set_ph k i PhNone) (CRb (S i) 0))
            | _, _ => set_con s c (c_set_pc k CFailed)
            end
          else (* new subscription: slot_collector.cpp:24 *)
            set_con s c (c_set_pc (c_set_deliv (c_set_last k 0%N) []) CIdle)
      | 1 => set_con (set_slots s (fupd (slots s) i (w_dec (slots s i)))) c
               (c_set_pc (c_set_ph k i (PhOrph false)) (CRb i 2))
      | _ =>
          if c_begin k i || negb (c_end k i) then set_abort s
          else set_con s c (c_set_pc (c_set_ph (c_set_end k i false) i PhNone) (CRb (S i) 0))
      end
  end.

Inductive label :=
| LPAlloc                      (* SkeletonEvent::Allocate() is called *)
| LPWrite (i : nat) (v : N)    (* the user writes the allocated sample *)
| LPSend (i : nat)             (* SkeletonEvent::Send(sample) is called *)
| LPDiscard (i : nat)          (* an allocated sample is destroyed without Send *)
| LP                           (* next access of the provider thread *)
| LPCrash                      (* the provider process dies *)
| LPRestart                    (* the service is offered again on the same memory *)
| LCGet (c n : nat)            (* ProxyEvent::GetNewSamples(..., n) is called *)
| LC (c : nat) (spur : bool)   (* next access of that thread *)
| LDerefBegin (c i : nat)      (* destruction of the SamplePtr on slot i: three accesses *)
| LDerefSub (c i : nat)
| LDerefCommit (c i : nat)
| LCResub (c : nat)            (* Unsubscribe and Subscribe again *)
| LCCrash (c : nat)            (* the consumer process dies *)
| LCRestart (c : nat).         (* its proxy is created again *)

Definition step (s : evst) (l : label) : evst :=
  if abort s then s else
  match l with
  | LPAlloc => match pc s with PIdle => set_pc s (PScan 0 0 None) | _ => s end
  | LPWrite i v =>
      match pc s with
      | PIdle => if own s i then set_data s (fupd (data s) i v) else s
      | _ => s
      end
  (* skeleton_event_common.h:392-408: ++current_timestamp_ (uint32) *)
  | LPSend i =>
      match pc s with
      | PIdle => if own s i
                 then let t := ((cur s + 1) mod two32)%N in set_pc (set_cur s t) (PReady i t)
                 else s
      | _ => s
      end
  | LPDiscard i =>
      match pc s with PIdle => if own s i then set_pc s (PDisc i) else s | _ => s end
  | LP => pstep s
  | LPCrash => set_pc s PDead
  | LPRestart => match pc s with PDead => set_pc s (PClean 0) | _ => s end
  | LCGet c n =>
      if c <? nc then
        let k := cons s c in
        match c_pc k with
        | CIdle =>
            (* slot_collector.cpp:57-62 *)
            match n with
            | O => set_con s c (c_finish k [])
            | _ => set_con s c (c_set_pc k (CScan n [] TIMESTAMP_MAX 0 0 None))
            end
        | _ => s
        end
      else s
  | LC c spur => if c <? nc then cstep s c spur else s
  (* DereferenceEvent, consumer_event_data_control_local_view.cpp:220-239 with
     transaction_log_local_view.cpp:157-173 *)
  | LDerefBegin c i =>
      if (c <? nc) && (i <? ns) then
        let k := cons s c in
        match c_ph k i with
        | PhHeld id t =>
            if c_begin k i && c_end k i
            then set_con s c (c_set_ph (c_set_begin k i false) i (PhD1 id t))
            else set_abort s
        | _ => s
        end
      else s
  | LDerefSub c i =>
      if (c <? nc) && (i <? ns) then
        let k := cons s c in
        match c_ph k i with
        | PhD1 _ _ => set_con (set_slots s (fupd (slots s) i (w_dec (slots s i)))) c (c_set_ph k i PhD2)
        | _ => s
        end
      else s
  | LDerefCommit c i =>
      if (c <? nc) && (i <? ns) then
        let k := cons s c in
        match c_ph k i with
        | PhD2 =>
            if negb (c_begin k i) && c_end k i
            then set_con s c (c_set_ph (c_set_end k i false) i PhNone)
            else set_abort s
        | _ => s
        end
      else s
  (* unsubscribe with no SamplePtr alive and subscribe again: new SlotCollector *)
  | LCResub c =>
      if c <? nc then
        let k := cons s c in
        match c_pc k with
        | CIdle =>
            if forallb (fun i => match c_ph k i with PhNone => true | _ => false end) (seq 0 ns)
            then set_con s c (c_set_deliv (c_set_last k 0%N) []) else s
        | _ => s
        end
      else s
  | LCCrash c =>
      if c <? nc then
        let k := cons s c in
        set_con s c (mkCons CDead (c_begin k) (c_end k) (fun i => PhOrph (counted (c_ph k i)))
                       (c_last k) (c_cap k) (c_deliv k))
      else s
  | LCRestart c =>
      if c <? nc then
        let k := cons s c in
        match c_pc k with
        | CDead | CFailed => set_con s c (c_set_pc k (CRb 0 0))
        | _ => s
        end
      else s
  end.

Definition run (s : evst) (ls : list label) : evst := fold_left step ls s.

(** Fresh shared memory (event_data_control.cpp: all slots invalid; transaction
    logs empty); [caps c] = subscribed sample count of consumer c. *)
Definition init (caps : nat -> nat) : evst :=
  mkEv (fun _ => INVALID_EVENT) (fun _ => 0%N) INVALID_TIMESTAMP PIdle (fun _ => false) [] (fun _ => 0)
    (fun c => mkCons CIdle (fun _ => false) (fun _ => false) (fun _ => PhNone) 0%N (caps c) []) false.

End Machine.
