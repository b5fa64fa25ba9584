(** One field of an offered service: consumers' Set and Get, the provider's own
    Update, and subscribers, all at the same time.

    I/ = /repo/score/mw/com/impl/, L/ = I/bindings/lola/.  Every call of Set, Get
    or Update is made by an agent, a number; an agent makes one call after the
    other.  Any agents' calls interleave at every access to shared state.

    Simplifications: only one quality level; AllocateNextSlot's search and its
    exchange are one step (the search under interference is C03 and C05's
    subject), while Get's search is modelled load by load; `++current_timestamp_`
    is a load and a store (formally two threads doing it are a data race);
    timestamps do not overflow; a value is an integer, and is copied in one step;
    the user's set handler is a function applied in one step; tracing,
    notifications and StopOfferService (C87) are left out; an agent is answered
    what lies in its return storage when the handler returns. *)
From Verif Require Import Base.
Open Scope nat_scope.

(** L/event_slot_status.h: invalid, in writing, or ready with a timestamp *)
Inductive sstate := SInv | SWr | SRdy (t : N).

(** a slot: its status, whose reference count is split into the references of subscribers and the one of
    the Get handler; the sample in it *)
Record slot := mkSlot { sst : sstate; sext : nat; sget : bool; sval : Z }.

(** the reference count in the status word: L/event_slot_status.h GetReferenceCount *)
Definition refs (x : slot) : nat := sext x + (if sget x then 1 else 0).

(** score::Result<FieldType>: the return storage of a call *)
Inductive err := EAlloc | EBinding.
Inductive cell := COk (v : Z) | CErr (e : err).

(** I/proxy_field.h:310-345 Set and Get, I/skeleton_field.h:368-381 Update *)
Inductive op := OSet (d : Z) | OGet | OUpd (v : Z).

(** how far SkeletonEvent::Send has come: I/skeleton_event.h:184-208, L/skeleton_event.h:134-166,
    L/skeleton_event_common.h:392-408.  Next: allocate a slot; copy the value into it; load the
    timestamp; store the incremented one; EventReady with the timestamp as it is then *)
Inductive snd := NAlloc | NWrite (i : nat) | NLoad (i : nat) | NStore (i : nat) (t : N) | NReady (i : nat).

(** the candidate of a search for the newest sample: slot, timestamp and reference count as loaded *)
Definition cand := option (nat * N * nat)%type.

(** where an agent is.  Set: I/skeleton_field.h:176-201; Get: I/skeleton_field.h:471-484 with
    L/skeleton_event.h:197-230 and L/consumer_event_data_control_local_view.cpp:56-146 *)
Inductive pc :=
| PIdle
| PSetLock | PSetCopy | PSetUser | PSetValue | PSetSend (n : snd) | PSetUnlock
| PGetLock | PGetScan (k i : nat) (b : cand) | PGetCas (k : nat) (b : cand) | PGetCopy (i : nat) | PGetUnref (i : nat) | PGetUnlock
| PUpdSend (v : Z) (n : snd) | PUpdRet.

(** what can be seen: a call, an answer, and that a value was made the latest sample (by a call of
    that agent; [None]: by OfferService, the initial value) *)
Inductive ev := ECall (a : nat) (o : op) | ERet (a : nat) (r : cell) | ESent (a : option nat) (v : Z).

(** [p_slots]: number of sample slots; [p_fix]: what the user's set handler makes of a value *)
Record par := mkPar { p_slots : nat; p_fix : Z -> Z }.

(** [arg], [ret]: argument and return storage of each agent's call; a consumer's lie in shared memory it
    can write.  [mset], [mget]: set_handler_mutex_, get_handler_mutex_.  [dead]: the provider was terminated *)
Record st := mkSt {
  slots : nat -> slot; cnt : N; mset : option nat; mget : option nat;
  at_ : nat -> pc; arg : nat -> Z; ret : nat -> cell; dead : bool; log : list ev }.

Definition set_slot s i x := mkSt (fupd (slots s) i x) (cnt s) (mset s) (mget s) (at_ s) (arg s) (ret s) (dead s) (log s).
Definition set_cnt s x := mkSt (slots s) x (mset s) (mget s) (at_ s) (arg s) (ret s) (dead s) (log s).
Definition set_mset s x := mkSt (slots s) (cnt s) x (mget s) (at_ s) (arg s) (ret s) (dead s) (log s).
Definition set_mget s x := mkSt (slots s) (cnt s) (mset s) x (at_ s) (arg s) (ret s) (dead s) (log s).
Definition set_at s a x := mkSt (slots s) (cnt s) (mset s) (mget s) (fupd (at_ s) a x) (arg s) (ret s) (dead s) (log s).
Definition set_arg s a x := mkSt (slots s) (cnt s) (mset s) (mget s) (at_ s) (fupd (arg s) a x) (ret s) (dead s) (log s).
Definition set_ret s a x := mkSt (slots s) (cnt s) (mset s) (mget s) (at_ s) (arg s) (fupd (ret s) a x) (dead s) (log s).
Definition kill s := mkSt (slots s) (cnt s) (mset s) (mget s) (at_ s) (arg s) (ret s) true (log s).
Definition tell s e := mkSt (slots s) (cnt s) (mset s) (mget s) (at_ s) (arg s) (ret s) (dead s) (e :: log s).

(** L/provider_event_data_control_local_view.cpp:73-107 FindOldestUnusedSlot: the first invalid slot,
    else the unreferenced ready one with the smallest timestamp *)
Fixpoint oldest (f : nat -> slot) (l : list nat) (best : option (nat * N)) : option nat :=
  match l with
  | [] => option_map fst best
  | i :: r =>
      match sst (f i) with
      | SInv => Some i
      | SWr => oldest f r best
      | SRdy t =>
          if Nat.eqb (refs (f i)) 0 && (match best with None => true | Some (_, b) => N.ltb t b end)
          then oldest f r (Some (i, t)) else oldest f r best
      end
  end.

(** L/provider_event_data_control_local_view.cpp:46-67 AllocateNextSlot (one undisturbed round) *)
Definition alloc (p : par) (s : st) : option nat := oldest (slots s) (seq 0 (p_slots p)) None.

Inductive sres := SMore (n : snd) | SDone (ok : bool).

(** one step of Send of value [v] by [a].  L/skeleton_event.h:139-145 allocate and copy,
    L/skeleton_event_common.h:405-406 `++current_timestamp_` and EventReady, which stores the timestamp
    with reference count 0 (L/provider_event_data_control_local_view.cpp:117-126) *)
Definition send_step (p : par) (a : nat) (v : Z) (n : snd) (s : st) : st * sres :=
  match n with
  | NAlloc => match alloc p s with
              | None => (s, SDone false)
              | Some i => (set_slot s i (mkSlot SWr (sext (slots s i)) (sget (slots s i)) (sval (slots s i))), SMore (NWrite i))
              end
  | NWrite i => (set_slot s i (mkSlot (sst (slots s i)) (sext (slots s i)) (sget (slots s i)) v), SMore (NLoad i))
  | NLoad i => (s, SMore (NStore i (cnt s)))
  | NStore i t => (set_cnt s (t + 1)%N, SMore (NReady i))
  | NReady i => (tell (set_slot s i (mkSlot (SRdy (cnt s)) 0 false (sval (slots s i)))) (ESent (Some a) (sval (slots s i))), SDone true)
  end.

(** L/consumer_event_data_control_local_view.cpp:82-86: a slot becomes the candidate if it is ready with
    a timestamp above the candidate's, at first above 0 *)
Definition better (x : slot) (i : nat) (b : cand) : cand :=
  match sst x with
  | SRdy t => if N.ltb (match b with None => 0%N | Some (_, u, _) => u end) t then Some (i, t, refs x) else b
  | _ => b
  end.

(** MAX_REFERENCE_RETRIES: L/consumer_event_data_control_local_view.cpp:30 *)
Definition max_retries : nat := 100.

(** the exchange: the status is still what was loaded *)
Definition same (x : slot) (t : N) (r : nat) : bool :=
  match sst x with SRdy u => N.eqb u t && Nat.eqb (refs x) r | _ => false end.

(** one step of agent [a]; [None]: it has to wait or has nothing to do *)
Definition move (p : par) (a : nat) (s : st) : option st :=
  match at_ s a with
  | PIdle => None
  (* I/skeleton_field.h:184 lock *)
  | PSetLock => match mset s with None => Some (set_at (set_mset s (Some a)) a PSetCopy) | Some _ => None end
  (* :188 final_value = desired_value *)
  | PSetCopy => Some (set_at (set_ret s a (COk (arg s a))) a PSetUser)
  (* :191 the user's handler works on final_value.value(), in place; value() of a result without a value terminates *)
  | PSetUser => match ret s a with
                | COk v => Some (set_at (set_ret s a (COk (p_fix p v))) a PSetValue)
                | CErr _ => Some (kill s)
                end
  (* :194 final_value.value(), a reference *)
  | PSetValue => match ret s a with COk _ => Some (set_at s a (PSetSend NAlloc)) | CErr _ => Some (kill s) end
  (* :194 Send reads the value through the reference; :195-200 *)
  | PSetSend n =>
      let v := match ret s a with COk v => v | CErr _ => 0%Z end in
      match send_step p a v n s with
      | (s1, SMore n1) => Some (set_at s1 a (PSetSend n1))
      | (s1, SDone true) => Some (set_at s1 a PSetUnlock)
      | (s1, SDone false) => Some (set_at (set_ret s1 a (CErr EAlloc)) a PSetUnlock)
      end
  | PSetUnlock => Some (tell (set_at (set_mset s None) a PIdle) (ERet a (ret s a)))
  (* I/skeleton_field.h:475 lock; then GetLatestSample, whose guard is free because of the lock *)
  | PGetLock => match mget s with None => Some (set_at (set_mget s (Some a)) a (PGetScan 0 0 None)) | Some _ => None end
  | PGetScan k i b =>
      if Nat.ltb i (p_slots p) then Some (set_at s a (PGetScan k (S i) (better (slots s i) i b)))
      else match b with
           | None => Some (set_at (set_ret s a (CErr EBinding)) a PGetUnlock)
           | Some _ => Some (set_at s a (PGetCas k b))
           end
  | PGetCas k b =>
      match b with
      | None => None
      | Some (i, t, r) =>
          if same (slots s i) t r
          then Some (set_at (set_slot s i (mkSlot (sst (slots s i)) (sext (slots s i)) true (sval (slots s i)))) a (PGetCopy i))
          else if Nat.ltb (S k) max_retries then Some (set_at s a (PGetScan (S k) 0 None))
          else Some (set_at (set_ret s a (CErr EBinding)) a PGetUnlock)
      end
  (* I/skeleton_field.h:483 return_value = *sample_ptr *)
  | PGetCopy i => Some (set_at (set_ret s a (COk (sval (slots s i)))) a (PGetUnref i))
  (* :484 the SamplePtr is destroyed, then the lock *)
  | PGetUnref i => Some (set_at (set_slot s i (mkSlot (sst (slots s i)) (sext (slots s i)) false (sval (slots s i)))) a PGetUnlock)
  | PGetUnlock => Some (tell (set_at (set_mget s None) a PIdle) (ERet a (ret s a)))
  (* I/skeleton_field.h:380, 442-445: Update sends, without a lock *)
  | PUpdSend v n =>
      match send_step p a v n s with
      | (s1, SMore n1) => Some (set_at s1 a (PUpdSend v n1))
      | (s1, SDone true) => Some (set_at (set_ret s1 a (COk v)) a PUpdRet)
      | (s1, SDone false) => Some (set_at (set_ret s1 a (CErr EAlloc)) a PUpdRet)
      end
  | PUpdRet => Some (tell (set_at s a PIdle) (ERet a (ret s a)))
  end.

(** a call begins, an agent moves, a subscriber takes or gives back a reference to a sample, a consumer
    writes the return or the argument storage of its calls *)
Inductive label := LCall (a : nat) (o : op) | LMove (a : nat) | LRef (i : nat) | LUnref (i : nat)
  | LTamper (a : nat) (x : cell) | LTamperArg (a : nat) (d : Z).

(** the argument is written into the call's storage before the call: I/proxy_field.h:310-345 *)
Definition begin (a : nat) (o : op) (s : st) : st :=
  match o with
  | OSet d => tell (set_at (set_arg s a d) a PSetLock) (ECall a o)
  | OGet => tell (set_at s a PGetLock) (ECall a o)
  | OUpd v => tell (set_at s a (PUpdSend v NAlloc)) (ECall a o)
  end.

Definition step (p : par) (l : label) (s : st) : option st :=
  if dead s then None else
  match l with
  | LCall a o => match at_ s a with PIdle => Some (begin a o s) | _ => None end
  | LMove a => move p a s
  (* L/consumer_event_data_control_local_view.cpp:56-146, of a subscriber *)
  | LRef i => if Nat.ltb i (p_slots p)
              then match sst (slots s i) with
                   | SRdy t => Some (set_slot s i (mkSlot (SRdy t) (S (sext (slots s i))) (sget (slots s i)) (sval (slots s i))))
                   | _ => None
                   end
              else None
  (* DereferenceEvent, of a subscriber *)
  | LUnref i => match sext (slots s i) with
                | S k => Some (set_slot s i (mkSlot (sst (slots s i)) k (sget (slots s i)) (sval (slots s i))))
                | O => None
                end
  | LTamper a x => Some (set_ret s a x)
  | LTamperArg a d => Some (set_arg s a d)
  end.

Fixpoint run (p : par) (ls : list label) (s : st) : option st :=
  match ls with
  | [] => Some s
  | l :: r => match step p l s with Some s1 => run p r s1 | None => None end
  end.

(** the service has just been offered with initial value [v0]: I/skeleton_field_base.h:55-99,
    L/skeleton_event_common.h:220, 405 *)
Definition start (v0 : Z) : st :=
  mkSt (fupd (fun _ => mkSlot SInv 0 false 0%Z) 0 (mkSlot (SRdy 1) 0 false v0)) 1 None None
       (fun _ => PIdle) (fun _ => 0%Z) (fun _ => CErr EBinding) false [ESent None v0].
