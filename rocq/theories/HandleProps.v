(** C119 for the sample objects of the user. *)
From Coq Require Import List Bool Arith Lia.
From Verif Require Import GuardModel GuardSpec GuardProof HandleModel HandleSpec HandleProof.
Import ListNotations.

Lemma whole_maps : forall l, (forall h, In h l -> grd h = slot h) -> map grd l = map slot l.
Proof. intros l H. now apply map_ext_in. Qed.

(** After every history of whole operations the count of an event is the number of objects that hold one of its slots, and
    no object refers to a destroyed event; the only abnormal end is the intended termination. *)
Theorem C119_objects_counted : forall os, hpolite (history os) -> let s := hrun hinit (history os) in
  (hout s = Running \/ hout s = Terminated) /\
  forall t, hcnt s t = slots_held s t /\ (hgone s t = true -> slots_held s t = 0).
Proof.
  intros os P s. destruct (whole_run os P) as [[I1 I2 I3 I4 I5] B]. fold s in I1, I2, I4, I5, B. split; [exact I1|]. intros t.
  unfold slots_held. rewrite <- (whole_maps _ B), <- I2. split; auto.
Qed.

(** If objects are given up with reset, this is safe in every interleaving of the threads' steps with the destructors of the
    events. *)
Theorem C119_reset_safe : forall ls i t, hpolite ls -> slot_first ls -> let s := hrun hinit ls in
  (hout s = Running \/ hout s = Terminated) /\ (slot (held s i) = Some t -> hgone s t = false).
Proof.
  intros ls i t P Q s. pose proof (hrun_inv ls P Q) as I0. fold s in I0. split; [apply I0|]. intros H.
  apply held_own in H; [|exact I0]. now apply (held_counted s i t I0 H).
Qed.

(** The destructor of a sample object releases its guard before its slot. An event that another thread destroys in between
    passes its check, and the object then discards its slot in a destroyed event. *)
Theorem C119_destructor_order_refuted :
  exists p q, let ls := [HAlloc 0; HGuard 0] ++ p ++ [HSlot 0] in
    p = [HCheck 0; HGone 0] /\ q = [HAlloc 0] ++ destroy 0 /\ hpolite ls /\
    hout (hrun hinit ls) = Dangling /\ hout (hrun hinit q) = Running.
Proof.
  exists [HCheck 0; HGone 0], ([HAlloc 0] ++ destroy 0). cbn zeta. repeat split.
  intros p t q H F. destruct p as [|a [|b [|c [|d [|e [|f p]]]]]]; cbn in H; inversion H; subst; cbn in F; intuition (try discriminate).
Qed.

(** Assigning over a sample object does not release the sample that it held: the objects are swapped, and the event counts the
    overwritten sample as outstanding, and terminates the process when it is destroyed, as long as the source object lives. *)
Theorem C119_assignment_releases_refuted :
  exists os, hpolite (history os) /\ let s := hrun hinit (history os) in
    hcnt s 0 = 2 /\ hcnt (hrun s (steps (MoveAssign 0 1))) 0 = 2 /\
    slot (held (hrun s (steps (MoveAssign 0 1))) 1) = Some 0 /\
    hout (hrun s (steps (MoveAssign 0 1) ++ steps (Destroy 0) ++ steps (DestroyEvent 0))) = Terminated.
Proof.
  exists [Allocate 0; Allocate 0]. split; [|vm_compute; repeat split].
  intros p t q H F. assert (In (HCheck t) (history [Allocate 0; Allocate 0])) as G by (rewrite H; apply in_or_app; now left).
  cbn in G. intuition discriminate.
Qed.

(** Two events, moves, a reset and a destructor, then one event is destroyed. *)
Example C119_objects :
  let os := [Allocate 0; Allocate 1; MoveNew 0; MoveAssign 1 2; Reset 1; DestroyEvent 0] in
  hpolite (history os) /\ hout (hrun hinit (history os)) = Running /\ hgone (hrun hinit (history os)) 0 = true /\
  hcnt (hrun hinit (history os)) 1 = 1 /\ slot (held (hrun hinit (history os)) 2) = Some 1.
Proof.
  intros os. split; [|vm_compute; repeat split]. intros p t q H F. unfold os in H. cbn in H.
  destruct p as [|a [|b [|c [|d [|e [|f [|g [|h [|k p]]]]]]]]]; cbn in H; inversion H; subst; cbn in F; intuition (try discriminate).
Qed.

(** An interleaving that meets the hypotheses of C119_reset_safe, with the event checked in the middle of a reset. *)
Example C119_reset_interleaved :
  let ls := [HAlloc 0; HSlot 0; HCheck 1; HGuard 0; HCheck 0; HGone 0] in
  hpolite ls /\ slot_first ls /\ hout (hrun hinit ls) = Running /\ hgone (hrun hinit ls) 0 = true.
Proof.
  intros ls. split; [|split; [|vm_compute; repeat split]]; intros p t q H; unfold ls in H;
  destruct p as [|a [|b [|c [|d [|e [|f [|g p]]]]]]]; cbn in H; inversion H; subst; cbn; intuition (try discriminate).
Qed.

Print Assumptions C119_objects_counted.
Print Assumptions C119_reset_safe.
Print Assumptions C119_destructor_order_refuted.
Print Assumptions C119_assignment_releases_refuted.
