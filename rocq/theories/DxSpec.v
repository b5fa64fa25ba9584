(** Vocabulary for asynchronous discovery through the Rust interface. *)
From Coq Require Import List Arith Bool.
From Verif Require Import DxModel.
Import ListNotations.

(** All states one call can lead to, whatever providers, executor and the C++
    discovery do. *)
Inductive reach : st -> Prop :=
  | r_init : reach init
  | r_step s l s' o : reach s -> step s l = Some (s', o) -> reach s'.

Fixpoint run (s : st) (o : out) (ls : list label) : option (st * out) :=
  match ls with
  | [] => Some (s, o)
  | l :: r => match step s l with Some (s', o') => run s' o' r | None => None end
  end.

(** The same instances. *)
Definition same_instances (a b : list nat) : Prop := forall i, In i a <-> In i b.

(** The future has been polled and has neither resolved nor been dropped. *)
Definition polled (s : st) : Prop := task s = FIn \/ task s = FWait.

(** The search has reported everything. *)
Definition up_to_date (s : st) : Prop := same_instances (prev s) (offered s).
