(** Vocabulary for the properties of receiving through the Rust interface. *)
From Coq Require Import List Arith Bool Sorting.Sorted.
From Verif Require Import RxModel.
Import ListNotations.

(** States a subscription can get into, whatever the provider, the executor and
    the user do. *)
Inductive reach (c : conf) : st -> Prop :=
  | r_init : reach c init
  | r_step s l s' o : reach c s -> step c s l = Some (s', o) -> reach c s'.

(** Samples carry their number in the order of publication: in order of
    publication and without repetition. *)
Definition in_order (l : list nat) : Prop := StronglySorted lt l.

(** [suf] is the end of [l]. *)
Definition ends_with (l suf : list nat) : Prop := exists pre, l = pre ++ suf.

(** [l] consists of the [n] newest of [all]. *)
Definition newest (n : nat) (all l : list nat) : Prop := ends_with all l /\ length l = n.

(** A task whose last poll returned [Pending]. *)
Definition waiting (s : st) : Prop :=
  match work s with ARecv PWait _ _ _ => True | AStream PWait => True | _ => False end.

(** A receive that has been polled and has not ended. *)
Definition receive_under_way (s : st) : Prop :=
  match work s with ARecv PIn _ _ _ | ARecv PWait _ _ _ => True | _ => False end.

(** The arguments the documentation allows. *)
Definition allowed (c : conf) (nw mx : nat) : Prop := 1 <= nw /\ nw <= mx /\ mx <= cap c.

(** All samples alive on the side of the consumer. *)
Definition alive (s : st) : list nat := box s ++ sbox s ++ usr s.

(** Running a list of steps from the start, with the last output. *)
Fixpoint run (c : conf) (s : st) (o : out) (ls : list label) : option (st * out) :=
  match ls with
  | [] => Some (s, o)
  | l :: r => match step c s l with Some (s', o') => run c s' o' r | None => None end
  end.
