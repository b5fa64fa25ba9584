(** C118: threads that wait for the background thread of message passing. *)
From Coq Require Import List Bool Arith Lia.
From Verif Require Import FutModel FutSpec FutProof.
Import ListNotations.

Lemma once_inv : forall ls, once init ls -> inv (run init ls).
Proof. intros ls H. apply run_inv; [apply inv_init|exact H]. Qed.

(** The memory of a future is never accessed after the waiting function returned, although the future is a local variable
    of that function and another thread marks it. *)
Theorem C118_no_access_after_return : forall ls, once init ls -> ub (run init ls) = false.
Proof. intros ls H. apply (once_inv ls H). Qed.

(** A wait returns only when the mark of that same future is complete, and yields the value given to that mark, even
    though all futures share one condition variable. *)
Theorem C118_returns_own_value : forall ls i, once init ls -> let s := run init ls in returned s i ->
  exists v, got (futs s i) = Some v /\ In (LMark i v) ls /\ mp (futs s i) = MDone.
Proof.
  intros ls i H s R. destruct (once_inv ls H) as [_ O]. fold s in O. destruct (O i) as [O1 O2 O3 O4 O5 OL O6 O7 O8 O9 O10 O11].
  assert (mp (futs s i) = MDone) as P by (apply O4; destruct R as [R|R]; rewrite R; reflexivity).
  assert (got (futs s i) = given (futs s i)) as G by (destruct R as [R|R]; rewrite R in O11; exact O11).
  rewrite P in O8. specialize (O8 eq_refl). exists (value (futs s i)). rewrite G. split; [exact O8|]. split; [|exact P].
  now apply given_marked.
Qed.

(** No wait returns before its future is marked, whatever other futures are marked and however often the thread wakes up
    spuriously. *)
Theorem C118_not_before_mark : forall ls i, once init ls -> (forall v, ~ In (LMark i v) ls) -> ~ returned (run init ls) i.
Proof. intros ls i H N R. destruct (C118_returns_own_value ls i H R) as (v & _ & M & _). exact (N v M). Qed.

(** No wake-up is lost: once the mark is complete the waiting thread is not blocked any more. *)
Theorem C118_no_lost_wakeup : forall ls i, once init ls -> let s := run init ls in
  mp (futs s i) = MDone -> wp (futs s i) <> WBlocked.
Proof.
  intros ls i H s P W. destruct (once_inv ls H) as [_ O]. fold s in O. destruct (o_block _ _ _ (O i) W) as [F|F].
  - rewrite (o_ready _ _ _ (O i)), P in F. discriminate.
  - congruence.
Qed.

(** At any time, at most one thread is inside the mutex, and the one recorded as its holder. *)
Theorem C118_mutual_exclusion : forall ls i j, once init ls -> let s := run init ls in
  (wp (futs s i) = WCheck -> wp (futs s j) = WCheck -> i = j) /\
  (wp (futs s i) = WCheck -> forall p, In p [MReady; MNotify; MUnlock] -> mp (futs s j) <> p) /\
  (forall p q, In p [MReady; MNotify; MUnlock] -> In q [MReady; MNotify; MUnlock] -> mp (futs s i) = p -> mp (futs s j) = q -> i = j).
Proof.
  intros ls i j H s. destruct (once_inv ls H) as [_ O]. fold s in O.
  assert (forall k p, In p [MReady; MNotify; MUnlock] -> mp (futs s k) = p -> mutex s = Some (Marker k)) as HM.
  { intros k p Hp E. apply (o_m _ _ _ (O k)). rewrite E. cbn in Hp. destruct Hp as [<-|[<-|[<-|[]]]]; reflexivity. }
  assert (forall k, wp (futs s k) = WCheck -> mutex s = Some (Waiter k)) as HW by (intros k E; now apply (o_w _ _ _ (O k))).
  split; [|split].
  - intros A B. apply HW in A. apply HW in B. congruence.
  - intros A p Hp B. apply HW in A. apply (HM _ _ Hp) in B. congruence.
  - intros p q Hp Hq A B. apply (HM _ _ Hp) in A. apply (HM _ _ Hq) in B. congruence.
Qed.

(** Every wait for a marked future can come to its end by steps of the threads alone, from every state that any history
    leads to: no deadlock among any number of waiting and marking threads. *)
Theorem C118_marked_wait_can_return : forall ls i, once init ls -> let s := run init ls in
  waiting s i -> marked s i -> exists ls', Forall own_step ls' /\ returned (run s ls') i /\ ub (run s ls') = false.
Proof.
  intros ls i H s W M. pose proof (once_inv ls H) as I1. fold s in I1.
  assert (started s i) as S1 by (unfold waiting in W; unfold started; destruct (wp (futs s i)); try tauto; repeat split; discriminate).
  destruct (all_end s i I1 S1 M) as (ls' & F & R). exists ls'. split; [exact F|]. split; [exact R|].
  destruct (keeps ls' s i I1 F S1 M) as [[U _] _]. exact U.
Qed.

(** Finding: nothing in the class keeps a future from being marked again. A second mark after the wait returned writes into
    the stack of a function that is gone; the safety of the callers rests on each callback being called once. *)
Theorem C118_marked_twice_refuted : ~ (forall ls, ub (run init ls) = false).
Proof.
  intros F. specialize (F [LNew 0; LW 0; LMark 0 7; LM 0; LM 0; LM 0; LM 0; LM 0; LW 0; LW 0; LW 0; LDrop 0; LMark 0 8; LM 0]).
  vm_compute in F. discriminate.
Qed.

(** Finding: a function that returns without a wait while its future is being marked has the same effect, although each
    future is marked once. SendWaitReply does so when the transmission fails while the connection is being torn down (see
    C47). *)
Theorem C118_left_while_marked_refuted :
  ~ (forall ls, (forall l1 i v l2, ls = l1 ++ LMark i v :: l2 -> mp (futs (run init l1) i) = MNone) -> ub (run init ls) = false).
Proof.
  intros F. assert (ub (run init [LNew 0; LMark 0 7; LGiveUp 0; LM 0]) = true) as X by (vm_compute; reflexivity).
  rewrite F in X; [discriminate|]. clear F X. intros l1 i v l2 E.
  destruct l1 as [|a [|b [|c [|d [|e l1]]]]]; cbn in E; try discriminate; injection E; intros; subst; try discriminate; try reflexivity.
Qed.

(** *** The hypotheses are met *)

(** Two waiting threads, both blocked; future 1 is marked: both wake up, only its own wait returns, with its value, while
    the other blocks again; later that one is marked and returns, too. *)
Definition two_waits : list lbl :=
  [LNew 0; LNew 1; LW 0; LW 0; LW 0; LW 1; LW 1; LW 1; LMark 1 42; LM 1; LM 1; LM 1; LM 1; LW 0; LM 1; LW 0; LW 0; LW 1; LW 1; LW 1; LDrop 1].
Definition second_mark : list lbl := [LMark 0 17; LM 0; LM 0; LM 0; LM 0; LM 0; LW 0; LW 0; LW 0].

Example C118_two_waits :
  once init (two_waits ++ second_mark) /\
  let s := run init two_waits in
  got (futs s 1) = Some 42 /\ wp (futs s 1) = WGone /\ wp (futs s 0) = WBlocked /\ got (futs s 0) = None /\
  waiting s 0 /\ ~ marked s 0 /\
  got (futs (run init (two_waits ++ second_mark)) 0) = Some 17.
Proof. split; [vm_compute; repeat split; discriminate|]. vm_compute. repeat split. intros F. apply F. reflexivity. Qed.

(** A mark in progress: the waiting thread is blocked, the mutex is held by the marking thread, and the wait can return. *)
Example C118_mark_in_progress :
  let ls := [LNew 0; LW 0; LW 0; LW 0; LMark 0 5; LM 0; LM 0; LM 0] in
  once init ls /\ waiting (run init ls) 0 /\ marked (run init ls) 0 /\ mutex (run init ls) = Some (Marker 0) /\
  wp (futs (run init ls) 0) = WBlocked.
Proof. vm_compute. repeat split; discriminate. Qed.

(** A function that could not send and returns without a wait, nobody marking its future, beside one that waits. *)
Example C118_gave_up :
  once init [LNew 0; LNew 1; LW 1; LGiveUp 0; LMark 1 3; LM 1] /\
  wp (futs (run init [LNew 0; LNew 1; LW 1; LGiveUp 0; LMark 1 3; LM 1]) 0) = WLeft /\
  alive (futs (run init [LNew 0; LNew 1; LW 1; LGiveUp 0; LMark 1 3; LM 1]) 0) = false.
Proof. vm_compute. repeat split; discriminate. Qed.

(** A spurious wake-up does not let the wait return. *)
Example C118_spurious :
  wp (futs (run init [LNew 0; LW 0; LW 0; LW 0; LSpurious 0; LW 0; LW 0; LW 0]) 0) = WBlocked.
Proof. reflexivity. Qed.

Print Assumptions C118_no_access_after_return.
Print Assumptions C118_returns_own_value.
Print Assumptions C118_not_before_mark.
Print Assumptions C118_no_lost_wakeup.
Print Assumptions C118_mutual_exclusion.
Print Assumptions C118_marked_wait_can_return.
Print Assumptions C118_marked_twice_refuted.
Print Assumptions C118_left_while_marked_refuted.
