(** Waiting for the background thread of message passing without allocation.
    Models score/message_passing/non_allocating_future/non_allocating_future.h (NonAllocatingFuture) as it is used by
    ClientConnection::SendWaitReply (score/message_passing/client_connection.cpp 148-230) and by
    QnxDispatchEngine::CleanUpOwner (score/message_passing/qnx_dispatch/qnx_dispatch_engine.cpp 440-464): the future is a
    local variable of the waiting function; many of them share one mutex and one condition variable, which live longer.
    A step is one access to shared memory or one operation of the mutex or of the condition variable.
    Not modelled: who marks a future and when (any thread, at any time), the value beyond a number, exceptions. *)

From Coq Require Import List Bool Arith.
Import ListNotations.

(** The thread that waits: [WNone] no such future yet; [WNew] the future exists; [WLock] it wants the mutex (first in
    Wait, line 68, or woken up inside cv_.wait); [WCheck] it holds the mutex and evaluates the predicate (69-71);
    [WBlocked] it is blocked in cv_.wait, the mutex released; [WRead] Wait returned, the value is to be read (54-57);
    [WDone] the value was read; [WGone] the future is destroyed (37); [WLeft] it is destroyed without a wait: SendWaitReply
    returns when its message could not be queued (client_connection.cpp 199-202) or sent (212-224). *)
Inductive wpc := WNone | WNew | WLock | WCheck | WBlocked | WRead | WDone | WGone | WLeft.

(** The thread that marks: [MNone] not begun; [MValue v] about to write the value (39-48); [MLock] wants the mutex (61);
    [MReady] holds it, about to set ready_ (62); [MNotify] about to notify (63); [MUnlock] about to unlock (64); [MDone]. *)
Inductive mpc := MNone | MValue (v : nat) | MLock | MReady | MNotify | MUnlock | MDone.

(** A future: its memory is valid ([alive]), the members ready_ and value_ (75-78; mutex_ and cv_ are references to the
    shared ones), and the two threads. Ghosts: the value given to the last mark, and what the waiting thread read. *)
Record fut := mkF { alive : bool; ready : bool; value : nat; wp : wpc; mp : mpc; given : option nat; got : option nat }.

(** Who holds the shared mutex. *)
Inductive holder := Waiter (i : nat) | Marker (i : nat).

(** All futures, the mutex, and whether the memory of a destroyed future was accessed. *)
Record st := mkS { futs : nat -> fut; mutex : option holder; ub : bool }.

Definition init : st := mkS (fun _ => mkF false false 0 WNone MNone None None) None false.

Definition upd (f : nat -> fut) (i : nat) (x : fut) : nat -> fut := fun j => if Nat.eqb i j then x else f j.
Definition put (s : st) (i : nat) (x : fut) : st := mkS (upd (futs s) i x) (mutex s) (ub s).
Definition set_wp p x := mkF (alive x) (ready x) (value x) p (mp x) (given x) (got x).
Definition set_mp p x := mkF (alive x) (ready x) (value x) (wp x) p (given x) (got x).
Definition set_mutex m s := mkS (futs s) m (ub s).
Definition bad (s : st) : st := mkS (futs s) (mutex s) true.

(** notify_all: line 63. Every thread blocked on the shared condition variable wakes up and wants the mutex again. *)
Definition wake (x : fut) : fut := match wp x with WBlocked => set_wp WLock x | _ => x end.
Definition notify_all (s : st) : st := mkS (fun i => wake (futs s i)) (mutex s) (ub s).

(** An access by the marking thread to the future [i]: undefined behaviour once it is destroyed. *)
Definition access (s : st) (i : nat) (next : st) : st := if alive (futs s i) then next else bad s.

(** The steps: a future is constructed ([LNew], 27-30); the waiting thread goes on ([LW]); a thread begins
    UpdateValueMarkReady ([LMark]); it goes on ([LM]); a spurious wake-up ([LSpurious]); the waiting function returns and
    the future is destroyed ([LDrop]); the function returns without a wait ([LGiveUp]). A step that is not enabled changes nothing. *)
Inductive lbl := LNew (i : nat) | LW (i : nat) | LMark (i v : nat) | LM (i : nat) | LSpurious (i : nat) | LDrop (i : nat)
| LGiveUp (i : nat).

(** Wait and GetValue: lines 66-72, 54-57. *)
Definition step_w (s : st) (i : nat) : st :=
  let x := futs s i in
  match wp x with
  | WNew => put s i (set_wp WLock x)
  | WLock => match mutex s with
             | None => set_mutex (Some (Waiter i)) (put s i (set_wp WCheck x))
             | Some _ => s
             end
  | WCheck => set_mutex None (put s i (set_wp (if ready x then WRead else WBlocked) x))
  | WRead => put s i (mkF (alive x) (ready x) (value x) WDone (mp x) (given x) (Some (value x)))
  | WNone | WBlocked | WDone | WGone | WLeft => s
  end.

(** UpdateValueMarkReady and MarkReady: lines 39-48, 59-64. The guard keeps its own reference to the mutex, so that the
    unlock does not access the future. *)
Definition step_m (s : st) (i : nat) : st :=
  let x := futs s i in
  match mp x with
  | MValue v => access s i (put s i (mkF (alive x) (ready x) v (wp x) MLock (given x) (got x)))
  | MLock => match mutex s with
             | None => access s i (set_mutex (Some (Marker i)) (put s i (set_mp MReady x)))
             | Some _ => s
             end
  | MReady => access s i (put s i (mkF (alive x) true (value x) (wp x) MNotify (given x) (got x)))
  | MNotify => access s i (notify_all (put s i (set_mp MUnlock x)))
  | MUnlock => set_mutex None (put s i (set_mp MDone x))
  | MNone | MDone => s
  end.

Definition step (s : st) (l : lbl) : st :=
  match l with
  | LNew i => match wp (futs s i) with
              | WNone => put s i (mkF true false 0 WNew MNone None None)
              | _ => s
              end
  | LW i => step_w s i
  | LMark i v =>
      let x := futs s i in
      match wp x, mp x with
      | WNone, _ => s
      | _, MNone | _, MDone => put s i (mkF (alive x) (ready x) (value x) (wp x) (MValue v) (Some v) (got x))
      | _, _ => s
      end
  | LM i => step_m s i
  | LSpurious i => put s i (wake (futs s i))
  | LDrop i =>
      let x := futs s i in
      match wp x with
      | WDone => put s i (mkF false (ready x) (value x) WGone (mp x) (given x) (got x))
      | _ => s
      end
  | LGiveUp i =>
      let x := futs s i in
      match wp x with
      | WNew => put s i (mkF false (ready x) (value x) WLeft (mp x) (given x) (got x))
      | _ => s
      end
  end.

Definition run (s : st) (ls : list lbl) : st := fold_left step ls s.
