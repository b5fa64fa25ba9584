(** C119: a sending event knows exactly how many of its samples are outstanding. *)
From Coq Require Import List Bool Arith Lia.
From Verif Require Import GuardModel GuardSpec GuardProof.
Import ListNotations.

(** ** Theorems *)

(** The count of the event is exactly the number of its outstanding samples, after every history of allocations, moves,
    assignments (also of a sample to itself) and destructions. *)
Theorem C119_exact_count : forall ls t, polite ls -> cnt (run init ls) t = outstanding t (guards (run init ls)).
Proof. intros ls t P. apply (run_inv ls P). Qed.

(** No history releases a sample twice (the assertion of Deallocate never fails) or lets a sample touch an event that is
    destroyed; the only abnormal end is the intended one. *)
Theorem C119_no_double_release : forall ls, polite ls -> out (run init ls) = Running \/ out (run init ls) = Terminated.
Proof. intros ls P. apply (run_inv ls P). Qed.

(** A sample that exists belongs to an event that exists. *)
Theorem C119_event_outlives_samples : forall ls i t, polite ls -> guard (run init ls) i = Some t -> gone (run init ls) t = false.
Proof.
  intros ls i t P H. pose proof (run_inv ls P) as [_ I2 I3 I4]. destruct (gone (run init ls) t) eqn:E; auto.
  apply I4, I3 in E. rewrite I2 in E. pose proof (hit_out t _ i E) as F. unfold guard in H. rewrite H, hit_self in F. discriminate.
Qed.

(** Destroying an event terminates the process exactly if one of its samples is outstanding. *)
Theorem C119_destruction_checked : forall ls t, polite ls -> let s := run init ls in out s = Running -> ~ In (LCheck t) ls ->
  (out (step s (LCheck t)) = Terminated <-> exists i, guard s i = Some t).
Proof.
  intros ls t P s O N. pose proof (run_inv ls P) as [_ I2 _ _]. fold s in I2.
  assert (checked s t = false) as A by (destruct (checked s t) eqn:E; auto; now elim N; apply run_checked). clear N. unfold step. rewrite O, A. destruct (cnt s t) eqn:C; cbn; split; try discriminate; auto.
  - intros [i Hi]. rewrite I2 in C. pose proof (hit_out t _ i C) as F. unfold guard in Hi. rewrite Hi, hit_self in F. discriminate.
  - intros _. rewrite I2 in C. clear - C. unfold guard. revert C. generalize (guards s). intros l. revert n. induction l as [|g r IH]; intros n C; [discriminate|].
    cbn in C. destruct g as [u|]; cbn in C.
    + destruct (Nat.eqb_spec u t) as [->|]; [exists 0; reflexivity|]. destruct (IH n C) as [i Hi]. exists (S i). exact Hi.
    + destruct (IH n C) as [i Hi]. exists (S i). exact Hi.
Qed.

(** Moving a sample changes no count; assigning over a sample releases exactly the one that is overwritten; assigning a
    sample to itself changes nothing. *)
Theorem C119_moves_neutral : forall ls t, polite ls -> let s := run init ls in out s = Running ->
  (forall j, cnt (step s (LMove j)) t = cnt s t /\ guard (step s (LMove j)) (length (guards s)) = guard s j) /\
  (forall i, step s (LAssign i i) = s) /\
  (forall i j, i <> j -> i < length (guards s) -> cnt (step s (LAssign i j)) t = cnt s t - hit t (guard s i) /\
               guard (step s (LAssign i j)) i = guard s j) /\
  (forall i, cnt (step s (LDestroy i)) t = cnt s t - hit t (guard s i) /\ guard (step s (LDestroy i)) i = None).
Proof.
  intros ls t P s O. pose proof (run_inv ls P) as I0. fold s in I0. unfold step. rewrite O. repeat split.
  - unfold guard at 1. cbn. rewrite app_nth2; rewrite set_length; [|lia]. now rewrite Nat.sub_diag.
  - intros i. rewrite Nat.eqb_refl. destruct (Nat.ltb i (length (guards s))); reflexivity.
  - destruct (Nat.ltb_spec i (length (guards s))); [|lia]. destruct (Nat.eqb_spec i j); [congruence|]. cbn. now apply deallocate_spec.
  - destruct (Nat.ltb_spec i (length (guards s))); [|lia]. destruct (Nat.eqb_spec i j); [congruence|]. destruct (deallocate_spec s i I0) as (_ & G & _).
    cbv zeta. unfold guard. cbn. rewrite nth_set_other by auto. rewrite nth_set_same by (rewrite G, set_length; auto). rewrite G. now apply nth_set_other.
  - now apply deallocate_spec.
  - destruct (deallocate_spec s i I0) as (_ & G & _). unfold guard. rewrite G. destruct (Nat.lt_ge_cases i (length (guards s))) as [L|L]; [now apply nth_set_same|].
    rewrite nth_overflow; [reflexivity|]. now rewrite set_length.
Qed.

(** An Allocate that another thread begins before the destructor of the event has ended, but after it has read the count, is
    not noticed: the process goes on and the sample later touches the destroyed event. *)
Theorem C119_allocate_during_destruction_refuted :
  exists ls, out (run init ls) = Running /\ gone (run init ls) 0 = true /\ guard (run init ls) 0 = Some 0 /\
    out (run init (ls ++ [LDestroy 0])) = Dangling.
Proof. exists [LCheck 0; LAllocate 0; LGone 0]. vm_compute. repeat split. Qed.

(** ** Concrete histories *)

(** Two events; a sample of the first is moved, assigned over by a sample of the second, and everything is released. *)
Example C119_history :
  let ls := [LAllocate 0; LAllocate 0; LAllocate 1; LMove 0; LAssign 1 2; LDestroy 0] in
  polite ls /\
  out (run init ls) = Running /\ guards (run init ls) = [None; Some 1; None; Some 0] /\ cnt (run init ls) 0 = 1 /\ cnt (run init ls) 1 = 1 /\
  out (run init (ls ++ [LCheck 0])) = Terminated /\
  out (run init (ls ++ [LDestroy 3; LCheck 0; LDestroy 1; LGone 0; LCheck 1; LGone 1])) = Running /\
  gone (run init (ls ++ [LDestroy 3; LCheck 0; LGone 0])) 0 = true.
Proof.
  intros ls. split; [|vm_compute; repeat split]. intros p t q H F.
  assert (In (LCheck t) ls) as G by (rewrite H; apply in_or_app; now left). cbn in G.
  repeat (destruct G as [G|G]; [discriminate|]). exact G.
Qed.

(** A history in which one event is destroyed properly while the other goes on allocating. *)
Example C119_polite_destruction :
  let ls := [LAllocate 0; LDestroy 0; LCheck 0; LAllocate 1; LGone 0] in
  polite ls /\ out (run init ls) = Running /\ gone (run init ls) 0 = true /\ cnt (run init ls) 1 = 1.
Proof.
  intros ls. split; [|vm_compute; repeat split]. intros p t q H F. unfold ls in H.
  destruct p as [|a [|b [|c [|d [|e [|f p]]]]]]; cbn in H; inversion H; subst; cbn in F; intuition (try discriminate).
Qed.

(** The abnormal ends of the model are real ends: without the invariant they would be taken. *)
Example C119_faults :
  out (tracker_deallocate init 0) = Underflow /\
  out (tracker_deallocate (mkS (fun _ => 1) (fun _ => true) (fun _ => true) [] Running) 0) = Dangling.
Proof. vm_compute. repeat split. Qed.

Print Assumptions C119_exact_count.
Print Assumptions C119_no_double_release.
Print Assumptions C119_event_outlives_samples.
Print Assumptions C119_destruction_checked.
Print Assumptions C119_moves_neutral.
Print Assumptions C119_allocate_during_destruction_refuted.
