(** What a user of a field relies on, said with the calls, the answers and the values sent. *)
From Verif Require Import Base FieldModel.
Open Scope nat_scope.

(** All lists of events are newest first. *)

(** the field's value: the latest one sent *)
Fixpoint current (l : list ev) : Z :=
  match l with
  | [] => 0%Z
  | ESent _ v :: _ => v
  | _ :: r => current r
  end.

Definition calls (a : nat) (e : ev) : bool := match e with ECall b _ => Nat.eqb b a | _ => false end.

(** what happened since the last call of [a] began, and before it *)
Fixpoint since (a : nat) (l : list ev) : list ev :=
  match l with [] => [] | e :: r => if calls a e then [] else e :: since a r end.
Fixpoint before (a : nat) (l : list ev) : list ev :=
  match l with [] => [] | e :: r => if calls a e then r else before a r end.

(** the last call of [a] *)
Fixpoint asked (a : nat) (l : list ev) : option op :=
  match l with
  | [] => None
  | ECall b o :: r => if Nat.eqb b a then Some o else asked a r
  | _ :: r => asked a r
  end.

Fixpoint sent (l : list ev) : list Z :=
  match l with [] => [] | ESent _ v :: r => v :: sent r | _ :: r => sent r end.

(** the values the field had while the last call of [a] was in progress *)
Definition values_during (a : nat) (l : list ev) : list Z := sent (since a l) ++ [current (before a l)].

(** a value the provider has let into the field *)
Definition admitted (p : par) (v0 : Z) (l : list ev) (v : Z) : Prop :=
  v = v0 \/ (exists a, In (ECall a (OUpd v)) l) \/ (exists a d, In (ECall a (OSet d)) l /\ v = p_fix p d).

(** ** the environment *)

(** only the agents [bad] write into their calls' storage during a call *)
Definition fair (bad : nat -> bool) (l : label) : Prop :=
  match l with LTamper a _ | LTamperArg a _ => bad a = true | _ => True end.

Definition nobody : nat -> bool := fun _ => false.

(** a value is being sent: from the allocation of its slot until it is ready *)
Definition sending (x : pc) : bool :=
  match x with PSetSend NAlloc | PUpdSend _ NAlloc => false | PSetSend _ | PUpdSend _ _ => true | _ => false end.

(** a Get is looking for the latest sample *)
Definition searching (x : pc) : bool :=
  match x with PGetScan _ _ _ | PGetCas _ _ => true | _ => false end.

(** its next step begins to send a value *)
Definition begins (x : pc) : bool :=
  match x with PSetSend NAlloc | PUpdSend _ NAlloc => true | _ => false end.

(** number of slots to which subscribers hold references *)
Definition held (p : par) (s : st) : nat := countb (fun i => Nat.ltb 0 (sext (slots s i))) (p_slots p).

(** values are sent one after the other *)
Definition one_sender (s : st) (l : label) : Prop :=
  forall a, l = LMove a -> begins (at_ s a) = true -> forall b, sending (at_ s b) = false.

(** no value begins to be sent while a Get looks for the latest *)
Definition calm (s : st) (l : label) : Prop :=
  forall a, l = LMove a -> begins (at_ s a) = true -> forall b, searching (at_ s b) = false.

(** there is a slot besides those held by subscribers, one for Get, and the latest *)
Definition room (p : par) (s : st) (l : label) : Prop :=
  forall a, l = LMove a -> begins (at_ s a) = true -> held p s + 3 <= p_slots p.

(** every step of a run meets a condition *)
Fixpoint always (p : par) (P : st -> label -> Prop) (ls : list label) (s : st) : Prop :=
  match ls with
  | [] => True
  | l :: r => P s l /\ match step p l s with Some s1 => always p P r s1 | None => True end
  end.
