(** What a user of the message server may rely on, said with the events they see. *)
From Verif Require Import Base OffsetPtrModel ServModel.
Open Scope nat_scope.

(** ** the life of a connection
    The connect callback is called once; if it rejects, the connection is gone.
    If it accepts, messages come and go until the disconnect callback is called
    once; until that returns things can still be sent; then the connection is gone. *)
Inductive phase := PNone | PProv | PRej | PAcc | PDisc | PGone | PErr.

Definition mine (c : nat) (e : event) : bool :=
  match e with
  | VConnect c' _ _ | VAccept c' | VReject c' | VMsg c' _ | VOut c' _ | VDisc c' | VGone c' => Nat.eqb c' c
  | VStopped _ => false
  end.

Definition next (ph : phase) (e : event) : phase :=
  match ph, e with
  | PNone, VConnect _ _ _ => PProv
  | PProv, VAccept _ => PAcc
  | PProv, VReject _ => PRej
  | PRej, VGone _ => PGone
  | PAcc, VMsg _ _ => PAcc
  | PAcc, VOut _ _ => PAcc
  | PAcc, VDisc _ => PDisc
  | PDisc, VOut _ _ => PDisc
  | PDisc, VGone _ => PGone
  | _, _ => PErr
  end.

(** [l]: newest event first *)
Fixpoint life (c : nat) (l : list event) : phase :=
  match l with
  | [] => PNone
  | e :: r => if mine c e then next (life c r) e else life c r
  end.

(** the messages handed to the user on connection [c], oldest first *)
Fixpoint msgs (c : nat) (l : list event) : list item :=
  match l with
  | [] => []
  | VMsg c' it :: r => if Nat.eqb c' c then msgs c r ++ [it] else msgs c r
  | _ :: r => msgs c r
  end.

(** what was sent on connection [c], oldest first *)
Fixpoint outs (c : nat) (l : list event) : list nat :=
  match l with
  | [] => []
  | VOut c' m :: r => if Nat.eqb c' c then outs c r ++ [m] else outs c r
  | _ :: r => outs c r
  end.

(** ** what user and system have to keep to
    - accept does not fail; a new descriptor is not one that is open;
    - a connection is used only between its acceptance and the return of its
      disconnect callback;
    - RequestDisconnect is called only on the engine's thread, that is in a callback;
    - a message callback whose connection has been disconnected meanwhile does
      not return an error.
    Each is shown to be needed in ServProps, except the choice of descriptors,
    which is the kernel's, and the use after the end, which is documented. *)
Definition usable (s : st) (c : nat) : Prop := life c (log s) = PAcc \/ life c (log s) = PDisc.

Definition legal (s : st) (l : label) : Prop :=
  match l with
  | LGo AFail => False
  | LGo (AOk fd) => os s fd = None
  | LAct (AOut c _) | LAct (ADisc c) | LThread (AOut c _) => usable s c
  | LThread (ADisc _) => False
  | LRet false => match stack s with FMsg c :: _ => usable s c | _ => True end
  | _ => True
  end.

Fixpoint legal_run (s : st) (ls : list label) : Prop :=
  match ls with
  | [] => True
  | l :: r => legal s l /\ forall s1, step s l = Ok s1 -> legal_run s1 r
  end.
