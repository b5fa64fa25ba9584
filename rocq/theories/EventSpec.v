(** What the theorems about the event machine talk about: observable facts of a
    state, in terms of the API objects (SampleAllocateePtr, SamplePtr, Send,
    GetNewSamples).  Nothing here depends on the invariant. *)
From Verif Require Export EventModel.
From Coq Require Import Sorting.Sorted.

(** All states the system can be in after any schedule of the provider and
    [nc] consumers on fresh shared memory. *)
Definition reach (ns nc : nat) (caps : nat -> nat) (ls : list label) : evst :=
  run ns nc (init caps) ls.

(** Number of Send calls in a schedule. *)
Definition is_send_label (l : label) : bool := match l with LPSend _ => true | _ => false end.
Definition send_calls (ls : list label) : nat := length (filter is_send_label ls).

(** The range in which the 32-bit counters cannot wrap: fewer than 2^32 - 1
    consumers, fewer than 2^32 - 1 Send calls. *)
Definition in_range (nc : nat) (ls : list label) : Prop :=
  (N.of_nat nc < two32 - 1)%N /\ (N.of_nat (send_calls ls) < two32 - 1)%N.

(** The provider's user owns an allocated sample (SampleAllocateePtr) on slot i. *)
Definition allocated (s : evst) (i : nat) : Prop := own s i = true.

(** The user of consumer c owns a SamplePtr on slot i, obtained from publication id. *)
Definition holds (s : evst) (c i id : nat) : Prop :=
  exists t, c_ph (cons s c) i = PhHeld id t.

(** Consumer c, or what its crashed process left behind, counts as a reader of slot i. *)
Definition reader (s : evst) (c i : nat) : bool := counted (c_ph (cons s c) i).

(** Number of readers of slot i among consumers 0..nc-1. *)
Fixpoint readers (nc : nat) (s : evst) (i : nat) : nat :=
  match nc with
  | O => O
  | S n => (if reader s n i then 1 else 0) + readers n s i
  end.

(** The user lets consumer c touch slot i in no way at all. *)
Definition untouched (s : evst) (c i : nat) : Prop := c_ph (cons s c) i = PhNone.

(** A sample is available in slot i: neither invalid nor being written. *)
Definition available (s : evst) (i : nat) : Prop :=
  slots s i <> INVALID_EVENT /\ slots s i <> IN_WRITING.

(** The step completes an Allocate() call that returns slot i. *)
Definition alloc_returns (s : evst) (l : label) (i : nat) : Prop :=
  abort s = false /\ l = LP /\ exists r w, pc s = PCas r i w /\ slots s i = w.

(** The step makes the sample of slot i visible (the release store of Send). *)
Definition send_stores (s : evst) (l : label) (i : nat) (t v : N) : Prop :=
  abort s = false /\ l = LP /\ pc s = PReady i t /\ v = data s i.

(** The consumer process runs normally (has not crashed, is not rolling back). *)
Definition running (s : evst) (c : nat) : bool :=
  match c_pc (cons s c) with CDead | CFailed | CRb _ _ => false | _ => true end.

(** The provider process runs normally. *)
Definition provider_up (s : evst) : bool :=
  match pc s with PDead | PClean _ | PCleanCas _ | PLatest _ _ => false | _ => true end.

(** The provider is down or restarting before every step of the schedule. *)
Fixpoint stays_down (ns nc : nat) (s : evst) (ls : list label) : Prop :=
  match ls with
  | [] => True
  | l :: r => provider_up s = false /\ stays_down ns nc (step ns nc s l) r
  end.

(** How often the schedule lets consumer c's recovery thread run, and whether it crashes again. *)
Definition is_own (c : nat) (l : label) : bool := match l with LC d _ => Nat.eqb d c | _ => false end.
Definition own_steps (c : nat) (ls : list label) : nat := length (filter (is_own c) ls).
Definition crashes (c : nat) (l : label) : bool := match l with LCCrash d => Nat.eqb d c | _ => false end.
