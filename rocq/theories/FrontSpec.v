(** Vocabulary for C112. *)
From Verif Require Import Base FrontModel.

(** Executions: any interleaving of the worker thread and any number of application threads. *)
Inductive reach (ok : st -> nat -> action -> Prop) : st -> Prop :=
| r_init : reach ok init
| r_step s t a s' : reach ok s -> ok s t a -> step s t a = Some s' -> reach ok s'.

Definition anything (s : st) (t : nat) (a : action) : Prop := True.

(** A thread is destroying a handler from within its call of StopFindService. *)
Definition destroying_in_stop (s : st) (t : nat) : Prop :=
  exists h h' i b r, stk s t = FDtor h :: FStop3 h' i b :: r.
(** What a handler has captured does not call service discovery when StopFindService destroys it. *)
Definition quiet_destruction (s : st) (t : nat) (a : action) : Prop :=
  destroying_in_stop s t -> match a with AStart _ | AStop _ => False | _ => True end.

(** The mutex a thread is about to take. *)
Definition wants (s : st) (t : nat) : option mutex :=
  match stk s t with
  | FStart1 _ _ :: _ | FStop1 _ _ :: _ => Some Cont
  | FStart4 _ :: _ | FStop4 _ _ :: _ | FLoop :: _ => Some Work
  | _ => None
  end.
Definition owner (s : st) (m : mutex) : option nat :=
  match m with Cont => option_map fst (mc s) | Work => option_map fst (mw s) end.
(** t cannot go on before t' has released a mutex. *)
Definition waits_for (s : st) (t t' : nat) : Prop :=
  t <> t' /\ exists m, wants s t = Some m /\ owner s m = Some t'.
Inductive waits_chain (s : st) : nat -> nat -> Prop :=
| wc_one t t' : waits_for s t t' -> waits_chain s t t'
| wc_more t t' t'' : waits_for s t t' -> waits_chain s t' t'' -> waits_chain s t t''.
(** Some threads wait for each other in a circle: none of them ever goes on. *)
Definition deadlock (s : st) : Prop := exists t, waits_chain s t t.
Definition can_go_on (s : st) (t : nat) : Prop := exists a s', step s t a = Some s'.

(** Thread t is executing the handler of search h, or the destructor of that handler. *)
Definition in_handler (s : st) (t h : nat) : Prop := In (FHandler h) (stk s t).
Definition in_destructor (s : st) (t h : nat) : Prop := In (FDtor h) (stk s t).
(** Thread t is in plain application code. *)
Definition outside (s : st) (t : nat) : Prop := stk s t = [FUser].
Definition calls (s : st) (h : nat) : nat := count_occ Nat.eq_dec (called s) h.
(** The handler of search h has been destroyed completely. *)
Definition destroyed (s : st) (h : nat) : Prop := In h (gone s) /\ forall t, ~ in_destructor s t h.
(** Thread t, called from plain application code, is at the end of the call of StopFindService that took search h out. *)
Definition finishing_stop (s : st) (t h : nat) : Prop := stk s t = [FStop6 h false; FUser].
(** Thread t, called from plain application code, is at the end of a call of StopFindService for a search that was no longer there. *)
Definition finishing_late_stop (s : st) (t h : nat) : Prop := stk s t = [FStop3 h false false; FUser].
(** StartFindService has returned the handle h, or has passed it to the handler. *)
Definition handed_out (s : st) (h : nat) : Prop := In h (known s).
Definition was_stopped (s : st) (h : nat) : Prop := In h (stops s).
Definition start_failed (s : st) (h : nat) : Prop := In h (failed s).
(** The instance specifier given to StartFindService is not configured. *)
Definition unknown_specifier (s : st) (h : nat) : Prop := In h (unres s).
