(** C119: vocabulary for the objects of the user. *)
From Coq Require Import List.
From Verif Require Import GuardModel GuardSpec HandleModel.
Import ListNotations.

(** Nobody asks an event for a sample once its destructor has begun. *)
Definition hpolite (ls : list hlbl) : Prop := forall p t q, ls = p ++ HAlloc t :: q -> ~ In (HCheck t) p.

(** Objects give up the guard only when they have no slot any more, as reset() does. *)
Definition slot_first (ls : list hlbl) : Prop :=
  forall p i q, ls = p ++ HGuard i :: q -> slot (held (hrun hinit p) i) = None.

(** What the user does, one whole operation after the other. *)
Inductive op := Allocate (t : nat) | MoveNew (j : nat) | MoveAssign (i j : nat) | Reset (i : nat) | Destroy (i : nat) | DestroyEvent (t : nat).
Definition steps (o : op) : list hlbl :=
  match o with
  | Allocate t => [HAlloc t] | MoveNew j => [HMove j] | MoveAssign i j => [HAssign i j]
  | Reset i => reset i | Destroy i => destroy i | DestroyEvent t => [HCheck t; HGone t]
  end.
Definition history (os : list op) : list hlbl := flat_map steps os.

(** How many objects hold a slot of the event [t]. *)
Definition slots_held (s : hst) (t : nat) : nat := outstanding t (map slot (hs s)).
