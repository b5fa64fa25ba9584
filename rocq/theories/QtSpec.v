(** Vocabulary for the timer of the QNX engine. *)
From Coq Require Import List Bool Arith NArith.
From Verif Require Import QtModel.
Import ListNotations.

(** The thread waits in dispatch_block and no timer pulse is in the channel: it executes nothing before the timer of the
    kernel runs out or somebody sends a pulse. *)
Definition asleep (s : st) : Prop := thread s = TIdle /\ pulses s = 0.

(** No pulse is lost: MsgSendPulse succeeds. *)
Definition sends (l : lbl) : Prop :=
  match l with
  | LReg _ _ ok | LCleanUp _ ok | LStop ok => ok = true
  | _ => True
  end.

(** Due times are values of std::chrono::steady_clock (signed, 64 bits). *)
Definition fits (l : lbl) : Prop :=
  match l with LReg due _ _ => (due < 2 ^ 63)%N | _ => True end.

(** When the timer is set, the time to set has not yet passed: what ran since ProcessQueue read the clock was short. *)
Definition in_time (s : st) (l : lbl) : Prop :=
  match l with
  | LArm => forall nxt, thread s = TArm nxt -> (clock s <= nxt)%N
  | _ => True
  end.

(** Every step of the history [ls] from [s] has the property. *)
Fixpoint along (P : st -> lbl -> Prop) (s : st) (ls : list lbl) : Prop :=
  match ls with
  | [] => True
  | l :: r => P s l /\ along P (step s l) r
  end.

Definition timely (s : st) (l : lbl) : Prop := sends l /\ fits l /\ in_time s l.
Definition sound (s : st) (l : lbl) : Prop := sends l /\ fits l.

(** The earlier due time; of the same due time the earlier registration. *)
Definition before (a b : entry) : Prop :=
  (e_due a < e_due b)%N \/ (e_due a = e_due b /\ e_id a < e_id b).
