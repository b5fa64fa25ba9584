(** C119: vocabulary. *)
From Coq Require Import List Bool Arith.
From Verif Require Import GuardModel.
Import ListNotations.

(** [1] if the guard [g] (the tracker it points to, or none) stands for a sample of the event [t]. *)
Definition hit (t : nat) (g : option nat) : nat := match g with Some u => if Nat.eqb u t then 1 else 0 | None => 0 end.

(** How many of the guards stand for a sample of the event [t]. *)
Fixpoint outstanding (t : nat) (l : list (option nat)) : nat :=
  match l with [] => 0 | g :: r => hit t g + outstanding t r end.

(** Nobody asks an event for a sample once its destructor has begun. *)
Definition polite (ls : list lbl) : Prop := forall p t q, ls = p ++ LAllocate t :: q -> ~ In (LCheck t) p.
