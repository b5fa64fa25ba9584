(** Vocabulary for C113. *)
From Verif Require Import PxModel.
Local Open Scope Z_scope.

Inductive reach (ok : st -> label -> Prop) : st -> Prop :=
| r_init : reach ok init
| r_step s l s' : reach ok s -> ok s l -> step s l = Some s' -> reach ok s'.
Definition anything (s : st) (l : label) : Prop := True.

(** The address p lies in the memory of resource r. *)
Definition lies_in (s : st) (r : nat) (p : Z) : Prop := obase (objs s r) <= p < obase (objs s r) + osize (objs s r).
(** The block of an allocation lies in the memory of resource r. *)
Definition block_in (s : st) (r : nat) (e : event) : Prop :=
  obase (objs s r) <= e_addr e /\ e_addr e + e_n e * e_sz e <= obase (objs s r) + osize (objs s r).
(** Thread t is in a call of allocate through the proxy at p. *)
Definition calling (s : st) (t : nat) (p : Z) : Prop :=
  match thr s t with Idle => False | PAt p' _ _ _ | PUse p' _ _ _ _ => p' = p end.

(** No other process changes a proxy while a thread allocates through it. *)
Definition calm_proxy (s : st) (l : label) : Prop :=
  match l with LTamper p _ => forall t, ~ calling s t p | _ => True end.
(** Memory is not given up while a thread allocates through a proxy in it. *)
Definition kept (s : st) (l : label) : Prop :=
  match l with LUnreg r => forall t p, calling s t p -> ~ lies_in s r p | _ => True end.
Definition no_simulation (s : st) (l : label) : Prop := match l with LMap _ _ _ _ sim => sim = false | _ => True end.
(** The proxy is not at the address at which the memory of some resource ends. *)
Definition apart (s : st) (l : label) : Prop :=
  match l with
  | LCall _ p _ _ _ => forall r, live s r = true -> p <> obase (objs s r) + osize (objs s r)
  | _ => True
  end.
Definition orderly (s : st) (l : label) : Prop :=
  calm_proxy s l /\ kept s l /\ no_simulation s l /\ apart s l.

(** What malloc promises: nothing, or memory aligned for every standard type (16 bytes on the supported targets). *)
Definition malloc_answer (m : Z) : Prop := m = 0 \/ (0 < m /\ m mod 16 = 0).
(** What an allocator owes its container: memory, aligned for the element type. *)
Definition usable (a q : Z) : Prop := q <> 0 /\ q mod a = 0.
