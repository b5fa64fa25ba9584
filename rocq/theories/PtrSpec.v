(** Vocabulary for pointers to arguments and results. *)
From Verif Require Import Base PtrModel.

(** The user's object [id] is a live pointer (not moved from, not destroyed) to element [k] *)
Definition holds (s : st) (id : nat) (k : elt) : Prop := nth_error (objs s) id = Some (mkObj k true false).

(** Some live pointer refers to slot [p] of method [m] *)
Definition in_use (s : st) (m p : nat) : Prop := exists id e, holds s id (m, p, e).

(** Programs that use pointers as intended: pointers exist; those given to a call are live pointers to
    the arguments of the called method object, each at its place, of one Allocate *)
Definition proper (c : cfg) (s : st) (o : op) : Prop :=
  match o with
  | Allocate m _ => nargs c m <> 0
  | Write id _ => exists k, holds s id k
  | Move id | Drop id => exists ob, nth_error (objs s) id = Some ob /\ o_dead ob = false
  | Call m ids _ =>
    nargs c m <> 0 /\ length ids = nargs c m /\
    exists p, forall i id, nth_error ids i = Some id -> holds s id (m, p, Some i)
  | CallCopy m vs _ _ => nargs c m <> 0 /\ length vs = nargs c m
  | Call0 m _ => nargs c m = 0 /\ hasret c m = true
  end.

(** States reached by such programs *)
Inductive reach (c : cfg) : st -> Prop :=
| reach_init : reach c init
| reach_step s o : reach c s -> proper c s o -> reach c (fst (step c s o)).

(** The operation uses the object [id] *)
Definition names (o : op) (id : nat) : Prop :=
  match o with
  | Write i _ | Move i | Drop i => i = id
  | Call _ ids _ => In id ids
  | _ => False
  end.

(** Runs from a state in which no operation uses the object [id] *)
Inductive undisturbed (c : cfg) (id : nat) : st -> st -> Prop :=
| und_nil s : undisturbed c id s s
| und_step s s' o : undisturbed c id s s' -> proper c s' o -> ~ names o id ->
    undisturbed c id s (fst (step c s' o)).
