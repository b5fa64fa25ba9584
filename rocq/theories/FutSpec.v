(** Vocabulary for the futures of message passing. *)
From Coq Require Import List Bool Arith.
From Verif Require Import FutModel.
Import ListNotations.

(** The condition on one step: a future is marked at most once (a reply callback is called once, a clean-up command runs
    once), and a function that returns without a wait does so before anybody marks its future; nobody does later. *)
Definition orderly (s : st) (l : lbl) : Prop :=
  match l with
  | LMark i _ => mp (futs s i) = MNone /\ wp (futs s i) <> WLeft
  | LGiveUp i => mp (futs s i) = MNone
  | _ => True
  end.

Fixpoint once (s : st) (ls : list lbl) : Prop :=
  match ls with
  | [] => True
  | l :: r => orderly s l /\ once (step s l) r
  end.

(** Wait was called for [i] and has not returned. *)
Definition waiting (s : st) (i : nat) : Prop :=
  match wp (futs s i) with WLock | WCheck | WBlocked => True | _ => False end.

(** A thread has begun to mark [i]. *)
Definition marked (s : st) (i : nat) : Prop := mp (futs s i) <> MNone.

(** Wait returned for [i] and the value was read. *)
Definition returned (s : st) (i : nat) : Prop := wp (futs s i) = WDone \/ wp (futs s i) = WGone.

(** Steps of the threads themselves: no spurious wake-up, no new future and no new mark. *)
Definition own_step (l : lbl) : Prop := match l with LW _ | LM _ => True | _ => False end.
