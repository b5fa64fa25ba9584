(** Model of the sample count limit of a subscription: SampleReferenceTracker, its guards, and the
    SamplePtr handed to the user, used by any number of threads.
    score/mw/com/impl/sample_reference_tracker.cpp, proxy_event.h, proxy_event_base.cpp,
    plumbing/sample_ptr.h, bindings/lola/{sample_ptr.h,slot_decrementer.cpp}.

    Simplifications.  size_t counters are nat (no operation ever exceeds the subscribed count, which is
    what is proved).  The binding's GetNewSamples is reduced to the number m <= guards of slots it
    references (its behaviour is EventModel.v).  Every label is one access to the atomic counter or one
    slot reference change; a user callback that itself drops or moves SamplePtrs is another thread acting
    while this one waits. *)
From Verif Require Import Base.

Fixpoint lset {A} (l : list A) (i : nat) (v : A) : list A :=
  match l, i with
  | [], _ => []
  | _ :: l, O => v :: l
  | x :: l, S i => x :: lset l i v
  end.

(** impl::SamplePtr, plumbing/sample_ptr.h:199-201: whether the variant is not blank (operator bool,
    173-176), whether its SlotDecrementer will release a slot (slot_decrementer.cpp:62-68), whether the
    guard's tracker_ is set. *)
Record sptr := mkP { p_ptr : bool; p_slot : bool; p_guard : bool }.
Definition pnull : sptr := mkP false false false.

Inductive tpc :=
| TIdle
| TLoop (n got e : nat)        (* sample_reference_tracker.cpp:144: num_samples, num_allocated_samples, num_samples_available *)
| TGot (g : nat)               (* factory returned, proxy_event.h:206 *)
| TWrap (g m : nat)            (* lola/proxy_event.h:223: g guards in the factory, m referenced slots not yet wrapped *)
| TRel (slot guard : bool)     (* ~SamplePtr: members are destroyed in reverse order, the guard first *)
| TCheck (slot : bool)         (* the assertion after fetch_add, sample_reference_tracker.cpp:184; the slot is still to be released *)
| TSlot                        (* lola::SamplePtr destructor: DereferenceEvent *)
| TAsgS (slot guard : bool)    (* defaulted move assignment: binding_sample_ptr_ first ... *)
| TAsgG (guard : bool).        (* ... then reference_guard_ *)

Record tst := mkT {
  avail : nat; tmax : nat;     (* available_samples_, max_num_samples_ *)
  subd : bool;                 (* subscription state is not kNotSubscribed *)
  ths : list tpc; ps : list sptr;
  assert_failed : bool;        (* sample_reference_tracker.cpp:184-186 *)
  unsub_fatal : bool }.        (* proxy_event_base.cpp:145-150 *)

(** proxy_event_base.cpp:48: make_unique value-initialises the tracker: both counters 0 *)
Definition tinit (nth np : nat) : tst := mkT 0 0 false (repeat TIdle nth) (repeat pnull np) false false.

Inductive tlabel :=
| KGet (t n : nat)
| KStep (t : nat) (spurious : bool) (m j : nat)
| KDrop (t i : nat)            (* destructor or Reset() of SamplePtr i *)
| KMove (i j : nat)            (* move construction of j from i *)
| KAssign (t d s : nat)        (* d = std::move(s) *)
| KSwap (i j : nat)
| KSubscribe (n : nat) (ok : bool)
| KUnsubscribe.

Definition set_th (s : tst) (t : nat) (c : tpc) : tst :=
  mkT (avail s) (tmax s) (subd s) (lset (ths s) t c) (ps s) (assert_failed s) (unsub_fatal s).
Definition set_p (s : tst) (i : nat) (p : sptr) : tst :=
  mkT (avail s) (tmax s) (subd s) (ths s) (lset (ps s) i p) (assert_failed s) (unsub_fatal s).
Definition set_avail (s : tst) (a : nat) : tst :=
  mkT a (tmax s) (subd s) (ths s) (ps s) (assert_failed s) (unsub_fatal s).

Definition th (s : tst) (t : nat) : tpc := nth t (ths s) TIdle.
Definition pt (s : tst) (i : nat) : sptr := nth i (ps s) pnull.

(** IsUsed, sample_reference_tracker.cpp:132-135 *)
Definition IsUsed (s : tst) : bool := avail s <? tmax s.

Definition in_get (c : tpc) : bool := match c with TLoop _ _ _ | TGot _ | TWrap _ _ => true | _ => false end.

(** one step of a thread *)
Definition tstep1 (s : tst) (t : nat) (spurious : bool) (m j : nat) : tst :=
  match th s t with
  | TIdle => s
  (* sample_reference_tracker.cpp:144-171; proxy_event.h:206-211 *)
  | TLoop n got e =>
      if (0 <? n) && (0 <? e) then
        let k := Nat.min e n in
        if (avail s =? e) && negb spurious
        then set_th (set_avail s (e - k)) t (TLoop (n - k) (got + k) e)
        else set_th s t (TLoop n got (avail s))
      else if got =? 0 then set_th s t TIdle else set_th s t (TGot got)
  (* lola/proxy_event.h:189-218: at most GetNumAvailableGuards() slots are referenced, none if not subscribed *)
  | TGot g => set_th s t (TWrap g (if subd s then Nat.min m g else 0))
  (* lola/proxy_event.h:223-258; TakeGuard sample_reference_tracker.cpp:103-118; the SamplePtr goes to
     the user as object j, which must be a null object.  After the loop the factory's destructor,
     sample_reference_tracker.cpp:90-96 *)
  | TWrap g (S m') =>
      match g with
      | S g' => if (j <? length (ps s)) && negb (p_ptr (pt s j)) && negb (p_guard (pt s j))
                then set_p (set_th s t (TWrap g' m')) j (mkP true true true) else s
      | O => s
      end
  | TWrap g O => if 0 <? g then set_th (set_avail s (avail s + g)) t (TCheck false) else set_th s t TIdle
  (* ~SampleReferenceGuard, sample_reference_tracker.cpp:64-76 *)
  | TRel slot guard =>
      if guard then set_th (set_avail s (avail s + 1)) t (TCheck slot)
      else set_th s t (if slot then TSlot else TIdle)
  | TCheck slot =>
      let s' := mkT (avail s) (tmax s) (subd s) (ths s) (ps s) (assert_failed s || negb (avail s <=? tmax s)) (unsub_fatal s) in
      set_th s' t (if slot then TSlot else TIdle)
  | TSlot => set_th s t TIdle
  (* plumbing/sample_ptr.h:79; sample_reference_tracker.cpp:49-62 *)
  | TAsgS slot guard => set_th s t (TAsgG guard)
  | TAsgG guard => if guard then set_th (set_avail s (avail s + 1)) t (TCheck false) else set_th s t TIdle
  end.

Definition tstep (s : tst) (l : tlabel) : tst :=
  match l with
  (* proxy_event.h:204, sample_reference_tracker.cpp:139-140 *)
  | KGet t n => if t <? length (ths s) then match th s t with TIdle => set_th s t (TLoop n 0 (avail s)) | _ => s end else s
  | KStep t sp m j => tstep1 s t sp m j
  (* plumbing/sample_ptr.h:87,187-190 *)
  | KDrop t i =>
      if t <? length (ths s) then
        match th s t with
        | TIdle => set_p (set_th s t (TRel (p_slot (pt s i)) (p_guard (pt s i)))) i pnull
        | _ => s
        end
      else s
  (* plumbing/sample_ptr.h:73-77; sample_reference_tracker.cpp:44-47 *)
  | KMove i j =>
      if (i <? length (ps s)) && (j <? length (ps s)) && negb (i =? j) && negb (p_guard (pt s j)) && negb (p_slot (pt s j))
      then set_p (set_p s j (pt s i)) i pnull else s
  (* plumbing/sample_ptr.h:79: the source keeps a moved-from lola::SamplePtr, whose managed_object_ is unchanged *)
  | KAssign t d sr =>
      if (t <? length (ths s)) && (d <? length (ps s)) && (sr <? length (ps s)) && negb (d =? sr) then
        match th s t with
        | TIdle =>
            set_p (set_p (set_th s t (TAsgS (p_slot (pt s d)) (p_guard (pt s d)))) d (pt s sr))
                  sr (mkP (p_ptr (pt s sr)) false false)
        | _ => s
        end
      else s
  (* plumbing/sample_ptr.h:178-185 *)
  | KSwap i j =>
      if (i <? length (ps s)) && (j <? length (ps s)) then set_p (set_p s j (pt s i)) i (pt s j) else s
  (* proxy_event_base.cpp:90-112; sample_reference_tracker.cpp:174-178.  Not called while GetNewSamples
     runs (the API forbids it), but SamplePtrs may be in destruction. *)
  | KSubscribe n ok =>
      if subd s || existsb in_get (ths s) then s
      else mkT n n ok (ths s) (ps s) (assert_failed s) (unsub_fatal s)
  (* proxy_event_base.cpp:138-151 *)
  | KUnsubscribe =>
      if negb (subd s) || existsb in_get (ths s) then s
      else if IsUsed s then mkT (avail s) (tmax s) (subd s) (ths s) (ps s) (assert_failed s) true
      else mkT (avail s) (tmax s) false (ths s) (ps s) (assert_failed s) (unsub_fatal s)
  end.

(** a process that terminated does nothing any more *)
Fixpoint trun (s : tst) (ls : list tlabel) : tst :=
  match ls with
  | [] => s
  | l :: ls => if assert_failed s || unsub_fatal s then s else trun (tstep s l) ls
  end.
