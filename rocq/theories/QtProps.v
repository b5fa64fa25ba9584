(** C117: the timer of the QNX engine wakes its thread for every queued command. *)
From Coq Require Import List Bool Arith NArith ZArith Lia Permutation Sorted.
From Verif Require Import QtModel QtSpec QtProof.
Import ListNotations.

(** *** What holds of every history *)

(** No command runs before it is due. *)
Theorem C117_never_early : forall t ls e c, In (e, c) (ran (run (init t) ls)) -> (e_due e <= c)%N.
Proof. intros t ls e c. apply (b_ran _ (base_run ls t)). Qed.

(** Every registered entry is in exactly one place: still queued, taken once for execution, or removed once. *)
Theorem C117_each_once : forall t ls, let s := run (init t) ls in
  Permutation (map e_id (queue s) ++ map (fun p => e_id (fst p)) (ran s) ++ map e_id (removed s)) (seq 0 (next s)).
Proof. intros t ls. exact (b_ids _ (base_run ls t)). Qed.

(** The entry taken for execution has the earliest due time of all that are queued, and among equal due times the
    earliest registration. *)
Theorem C117_earliest_first : forall t ls e c, let s := run (init t) ls in
  ran (step s LRun) = (e, c) :: ran s -> In e (queue s) /\ forall x, In x (queue s) -> x = e \/ before e x.
Proof.
  intros t ls e c s H. pose proof (b_sorted _ (base_run ls t)) as S1. fold s in S1.
  assert (forall A (x : A) l, l = x :: l -> False) as NL by (intros A x l F; apply (f_equal (@length A)) in F; cbn in F; lia).
  cbn [step] in H. destruct (thread s); try (now apply NL in H).
  destruct (queue s) as [|a q] eqn:Q; [now apply NL in H|].
  destruct (N.ltb now (e_due a)); [now apply NL in H|].
  assert (a = e) as -> by (destruct (e_kind a); cbn in H; injection H; auto).
  split; [now left|]. inversion S1 as [|x y S2 S3]; subst. rewrite Forall_forall in S3. intros x [Hx|Hx]; [left|right]; auto.
Qed.

(** Once a CleanUpOwner call was served, no entry of that owner that was registered before the call is queued, and none
    runs any more. *)
Theorem C117_cleaned_owner_is_quiet : forall t ls l2 l1 c tc, let s := run (init t) ls in
  ran s = l2 ++ (c, tc) :: l1 -> e_kind c = CleanUp ->
  (forall e, In e (queue s) -> e_owner e = e_owner c -> e_id c < e_id e) /\
  (forall e te, In (e, te) l2 -> e_owner e = e_owner c -> e_id c < e_id e).
Proof.
  intros t ls l2 l1 c tc s H K. pose proof (base_run ls t) as B. fold s in B. split.
  - intros e He Ho. apply (b_clean _ B c tc e); auto. rewrite H. apply in_or_app. right. now left.
  - intros e te He Ho. eapply (b_order _ B); eauto.
Qed.

(** A CleanUpOwner call returns only after it was served. *)
Theorem C117_cleanup_returns_when_served : forall t ls i, In i (returned (run (init t) ls)) ->
  exists c tc, In (c, tc) (ran (run (init t) ls)) /\ e_id c = i /\ e_kind c = CleanUp.
Proof. intros t ls i. apply (b_ret _ (base_run ls t)). Qed.

(** After Stop returned nothing runs. *)
Theorem C117_nothing_after_stop : forall t ls1 ls2, stopped (run (init t) ls1) = true ->
  ran (run (init t) (ls1 ++ ls2)) = ran (run (init t) ls1) /\ stopped (run (init t) (ls1 ++ ls2)) = true.
Proof.
  intros t ls1 ls2 H. rewrite run_app. pose proof (base_run ls1 t) as B. revert H B. generalize (run (init t) ls1). clear.
  induction ls2 as [|l r IH]; intros s H B; [now split|]. rewrite run_cons.
  assert (ran (step s l) = ran s /\ stopped (step s l) = true) as [E1 E2].
  { pose proof (b_stop s B H) as T. destruct l; cbn [step]; rewrite ?H, ?T; cbn [orb]; auto.
    - unfold pass. destruct (timer s); [destruct (N.leb _ _)|]; auto.
    - destruct (joining s); auto. }
  destruct (IH (step s l) E2 (base_step s l B)) as [F1 F2]. split; [congruence|exact F2].
Qed.

(** *** Wake-ups *)

(** Two commands, due at 10 and at 20; the first runs for [long] nanoseconds. *)
Definition two_commands (long : N) : list lbl :=
  [LReg 10 1 true; LReg 20 1 true; LTake; LRun; LArm; LTake; LRun; LArm; LPass 6; LTake; LRun; LPass long; LRun; LArm]%N.

(** Full property: while the thread sleeps no queued command is overdue. Finding: ProcessTimerQueue reads the clock once
    for ProcessQueue and again to set the timer; when the time of the next command passes in between (a command before it
    ran long enough, or the thread was not scheduled), the distance is negative and becomes about 2^64 nanoseconds, or is
    0 and disarms the timer. The command stays queued until an unrelated registration or clean-up sends a pulse. *)
Theorem C117_overdue_command_sleeps_refuted :
  ~ (forall t ls, along sound (init t) ls -> let s := run (init t) ls in
     asleep s -> forall e, In e (queue s) -> (clock s <= e_due e)%N).
Proof.
  intros F. specialize (F 5%N (two_commands 15)). cbv zeta in F.
  assert (along sound (init 5) (two_commands 15)) as A by (cbn [along two_commands]; unfold sound; cbn; repeat split).
  assert (asleep (run (init 5) (two_commands 15))) as S1 by (vm_compute; auto).
  specialize (F A S1 (mkE 1 20 1 Command)).
  assert (In (mkE 1 20 1 Command) (queue (run (init 5) (two_commands 15)))) as I1 by (vm_compute; auto).
  specialize (F I1). vm_compute in F. exact (F eq_refl).
Qed.

(** Finding, continued: no passing of time helps. One nanosecond late the timer is disarmed for good; later it is armed for
    a time more than 292 years ahead. *)
Theorem C117_overslept_for_centuries_refuted :
  (forall d, let s := run (init 5) (two_commands 10 ++ [LPass d]) in asleep s /\ In (mkE 1 20 1 Command) (queue s)) /\
  (forall d, (d < 2 ^ 63)%N -> let s := run (init 5) (two_commands 15 ++ [LPass d]) in asleep s /\ In (mkE 1 20 1 Command) (queue s)).
Proof.
  split; intros d; [|intros Hd]; cbv zeta; rewrite run_app, run_cons; cbn [run fold_left step].
  - remember (run (init 5) (two_commands 10)) as s eqn:E. vm_compute in E. subst s. unfold pass, asleep. cbn. auto.
  - remember (run (init 5) (two_commands 15)) as s eqn:E. vm_compute in E. subst s. unfold pass. cbv zeta. cbn [timer clock].
    match goal with |- context [N.leb ?a ?b] => destruct (N.leb_spec a b) as [L|L] end; [exfalso|].
    + change (2 ^ 63)%N with 9223372036854775808%N in Hd. lia.
    + unfold asleep. cbn. auto.
Qed.

(** Missing from the full property: histories in which the next due time passes before the timer is set, and lost pulses.
    When every timer is set in time and every pulse is sent, a sleeping thread has no overdue command, and the timer of the
    kernel runs out at the latest one nanosecond after each due time. *)
Theorem C117_no_command_overslept_partial : forall t ls, along timely (init t) ls -> let s := run (init t) ls in
  asleep s -> forall e, In e (queue s) ->
  (clock s <= e_due e)%N /\ exists w, timer s = Some w /\ (clock s < w <= e_due e + 1)%N.
Proof.
  intros t ls A s S1 e He. pose proof (base_run ls t) as B. pose proof (cover_run ls (init t) (base_init t) (cover_init t) A) as C.
  fold s in B, C. destruct (c_idle s C S1 e He) as [w [W1 W2]]. pose proof (b_timer s B w W1). split; [lia|]. exists w. split; [auto|lia].
Qed.

(** So a queued command is executed without any further event: once its time has passed, the pulse of the timer is there,
    and the rounds of the thread that follow execute the command (or a clean-up of its owner that was queued before it
    removes it). *)
Theorem C117_due_command_executed_partial : forall t ls e d, along timely (init t) ls -> let s := run (init t) ls in
  asleep s -> In e (queue s) -> (e_due e < clock s + d)%N ->
  exists k, let s' := run s (LPass d :: LTake :: repeat LRun k) in In e (map fst (ran s')) \/ In e (removed s').
Proof.
  intros t ls e d A s S1 He Hd. destruct (C117_no_command_overslept_partial t ls A S1 e He) as [_ [w [W1 W2]]]. fold s in W1, W2.
  pose proof (base_run ls t) as B. fold s in B. destruct S1 as [T P]. fold s in T, P.
  assert (step (step s (LPass d)) LTake = set_thread (TLoop (clock s + d)) (set_pulses 0 (set_pulses 1 (set_timer None (set_clock (clock s + d) s))))) as E.
  { cbn [step]. unfold pass. rewrite W1. destruct (N.leb_spec w (clock s + d)); [|lia]. cbn [thread pulses set_pulses set_timer set_clock]. now rewrite T, P. }
  assert (base (step (step s (LPass d)) LTake)) as B' by (apply base_step; now apply base_step).
  rewrite E in B'.
  destruct (loop_runs _ _ (clock s + d)%N e (le_n _) B' eq_refl He) as [k Hk]; [lia|]. exists k. cbv zeta. rewrite !run_cons, E. exact Hk.
Qed.

(** In every history, timely or not: as soon as any pulse arrives, every command that is due by then is executed (or removed
    by a clean-up), in that one round of the thread. An overslept command thus waits for the next pulse, not for ever. *)
Theorem C117_any_pulse_recovers : forall t ls e, let s := run (init t) ls in
  thread s = TIdle -> 0 < pulses s -> In e (queue s) -> (e_due e <= clock s)%N ->
  exists k, let s' := run s (LTake :: repeat LRun k) in In e (map fst (ran s')) \/ In e (removed s').
Proof.
  intros t ls e s T P He Hd. pose proof (base_run ls t) as B. fold s in B.
  pose proof (base_step s LTake B) as B'. destruct (pulses s) as [|p] eqn:E; [lia|].
  assert (step s LTake = set_thread (TLoop (clock s)) (set_pulses p s)) as Q by (cbn [step]; now rewrite T, E).
  rewrite Q in B'. destruct (loop_runs _ _ (clock s) e (le_n _) B' eq_refl He Hd) as [k Hk]. exists k. cbv zeta. rewrite run_cons, Q. exact Hk.
Qed.

(** The overslept command of the findings above runs with the pulse of an unrelated registration. *)
Example C117_recovered :
  map (fun p => e_id (fst p)) (ran (run (init 5) (two_commands 15 ++ [LPass 1000; LReg 5000 2 true; LTake; LRun]%N))) = [1; 0].
Proof. vm_compute. reflexivity. Qed.

(** With the same provisos a waiting CleanUpOwner call never finds the thread asleep. *)
Theorem C117_cleanup_not_overslept_partial : forall t ls e, (0 < t)%N -> along timely (init t) ls -> let s := run (init t) ls in
  In e (queue s) -> e_kind e = CleanUp -> ~ asleep s.
Proof.
  intros t ls e Ht A s He K S1. destruct (C117_no_command_overslept_partial t ls A S1 e He) as [H _]. fold s in H.
  rewrite (b_zero _ (base_run ls t) e He K) in H.
  assert (0 < clock s)%N; [|lia].
  unfold s. apply (invariant (fun s => 0 < clock s)%N); [|exact Ht]. clear. intros s l H.
  destruct l; cbn [step].
  - destruct (stopped s); auto. destruct ok; auto.
  - destruct (stopped s || Nat.eqb owner 0); auto. destruct ok; auto.
  - destruct (thread s); auto. destruct (Nat.eqb owner 0); auto.
  - unfold pass. destruct (timer s); [destruct (N.leb _ _)|]; cbn; lia.
  - destruct (thread s); auto. destruct (pulses s); auto.
  - destruct (thread s); auto. destruct (queue s); auto. destruct (N.ltb _ _); auto. destruct (e_kind e); auto.
  - destruct (thread s); auto.
  - destruct (thread s); auto. destruct (qpulse s); auto.
  - destruct (stopped s || joining s); auto. destruct ok; auto.
  - destruct (thread s); auto. destruct (joining s); auto.
Qed.

(** Finding: the result of MsgSendPulse is ignored. When the pulse of a registration is not sent (the pulse pool is
    exhausted), the command sleeps although every timer is set in time. *)
Theorem C117_lost_pulse_refuted :
  ~ (forall t ls, along (fun s l => fits l /\ in_time s l) (init t) ls -> let s := run (init t) ls in
     asleep s -> forall e, In e (queue s) -> (clock s <= e_due e)%N).
Proof.
  intros F. specialize (F 5%N [LReg 10 1 false; LPass 100]%N). cbv zeta in F.
  assert (along (fun s l => fits l /\ in_time s l) (init 5) [LReg 10 1 false; LPass 100]%N) as A by (cbn; repeat split).
  assert (asleep (run (init 5) [LReg 10 1 false; LPass 100]%N)) as S1 by (vm_compute; auto).
  specialize (F A S1 (mkE 0 10 1 Command)). assert (In (mkE 0 10 1 Command) (queue (run (init 5) [LReg 10 1 false; LPass 100]%N))) as I1 by (vm_compute; auto).
  specialize (F I1). vm_compute in F. exact (F eq_refl).
Qed.

(** *** CleanUpOwner *)

(** Finding: CleanUpOwner of another thread waits for an entry that carries the owner itself. Another clean-up of the same
    owner that is served first (from a second thread, or from a command) removes that entry with the commands of the owner;
    nobody marks the future, and the call never returns, whatever happens later. *)
Theorem C117_cleanup_returns_refuted :
  exists ls i, along timely (init 5) ls /\ In i (map e_id (removed (run (init 5) ls))) /\
    (exists e, In e (removed (run (init 5) ls)) /\ e_id e = i /\ e_kind e = CleanUp) /\
    forall ls', ~ In i (returned (run (init 5) (ls ++ ls'))).
Proof.
  exists [LCleanUp 1 true; LCleanUp 1 true; LTake; LRun], 1.
  assert (In (mkE 1 0 1 CleanUp) (removed (run (init 5) [LCleanUp 1 true; LCleanUp 1 true; LTake; LRun]))) as R by (vm_compute; auto).
  split; [cbn [along]; unfold timely; cbn; repeat split; discriminate|].
  split; [apply in_map_iff; exists (mkE 1 0 1 CleanUp); auto|]. split; [exists (mkE 1 0 1 CleanUp); auto|].
  intros ls' F. pose proof (base_run ([LCleanUp 1 true; LCleanUp 1 true; LTake; LRun] ++ ls') 5) as B.
  destruct (b_ret _ B 1 F) as (c & tc & C1 & C2 & _).
  assert (In (mkE 1 0 1 CleanUp) (removed (run (init 5) ([LCleanUp 1 true; LCleanUp 1 true; LTake; LRun] ++ ls')))) as R'.
  { rewrite run_app. revert R. apply (invariant (fun s => In (mkE 1 0 1 CleanUp) (removed s))). clear. intros s l H.
    destruct l; cbn [step].
    - destruct (stopped s); auto. destruct ok; auto.
    - destruct (stopped s || Nat.eqb owner 0); auto. destruct ok; auto.
    - destruct (thread s); auto. destruct (Nat.eqb owner 0); auto. cbn. apply in_or_app. now right.
    - unfold pass. destruct (timer s); [destruct (N.leb _ _)|]; auto.
    - destruct (thread s); auto. destruct (pulses s); auto.
    - destruct (thread s); auto. destruct (queue s); auto. destruct (N.ltb _ _); auto. destruct (e_kind e); auto. cbn. apply in_or_app. now right.
    - destruct (thread s); auto.
    - destruct (thread s); auto. destruct (qpulse s); auto.
    - destruct (stopped s || joining s); auto. destruct ok; auto.
    - destruct (thread s); auto. destruct (joining s); auto. }
  pose proof (b_ids _ B) as P. unfold ids in P.
  assert (NoDup (map e_id (queue (run (init 5) ([LCleanUp 1 true; LCleanUp 1 true; LTake; LRun] ++ ls'))) ++
          map (fun p => e_id (fst p)) (ran (run (init 5) ([LCleanUp 1 true; LCleanUp 1 true; LTake; LRun] ++ ls'))) ++
          map e_id (removed (run (init 5) ([LCleanUp 1 true; LCleanUp 1 true; LTake; LRun] ++ ls'))))) as N1.
  { eapply Permutation_NoDup; [apply Permutation_sym; exact P|apply seq_NoDup]. }
  revert N1 C1 R'. generalize (run (init 5) ([LCleanUp 1 true; LCleanUp 1 true; LTake; LRun] ++ ls')). intros s N1 C1 R'.
  assert (NoDup (map (fun p => e_id (fst p)) (ran s) ++ map e_id (removed s))) as N2.
  { clear - N1. induction (map e_id (queue s)); [exact N1|]. inversion N1; auto. }
  apply (in_map e_id) in R'. apply (in_map (fun p => e_id (fst p))) in C1. cbn in R', C1. rewrite C2 in C1.
  clear - N2 C1 R'. induction (map (fun p => e_id (fst p)) (ran s)) as [|a r IH]; [destruct C1|]. cbn in N2. inversion N2; subst.
  destruct C1 as [->|C1]; [|now apply IH]. apply H1. apply in_or_app. now right.
Qed.

(** *** Stop *)

Lemma finish : forall s, joining s = true -> (forall now, thread s <> TLoop now) ->
  (thread s = TEnded \/ qpulse s = true) -> stopped (run s [LArm; LTakeQuit; LJoined]) = true.
Proof.
  intros [q th c tm p qp qt j d n r m rt]. cbn [joining thread qpulse quit]. intros -> T Q.
  destruct th as [|now|nx|]; [| now elim (T now) | |]; destruct qp; destruct qt; cbn;
    try (destruct (arm c (relative nx c))); auto; destruct Q as [Q|Q]; discriminate.
Qed.

(** With its pulse sent, Stop returns as soon as the thread has finished what it is doing: the due commands of the round in
    progress, then the quit pulse. *)
Theorem C117_stop_returns_partial : forall t ls ok, along (fun _ l => sends l) (init t) (ls ++ [LStop ok]) ->
  let s := run (init t) (ls ++ [LStop ok]) in
  stopped s = true \/ exists k, stopped (run s (repeat LRun k ++ [LArm; LTakeQuit; LJoined])) = true.
Proof.
  intros t ls ok A s.
  assert (stopped s = true \/ (joining s = true /\ (thread s = TEnded \/ qpulse s = true)) \/ stopped s = false /\ joining s = false) as Q.
  { unfold s. revert A. generalize (ls ++ [LStop ok]). clear. intros ls A.
    assert (forall ls s, along (fun _ l => sends l) s ls ->
       (joining s = true -> thread s = TEnded \/ qpulse s = true) ->
       (joining (run s ls) = true -> thread (run s ls) = TEnded \/ qpulse (run s ls) = true)) as I1.
    { clear. induction ls as [|l r IH]; intros s A H; [exact H|]. destruct A as [A1 A2]. rewrite run_cons. apply IH; [exact A2|]. clear IH A2.
      destruct l; cbn [step sends] in *; subst.
      - destruct (stopped s); auto.
      - destruct (stopped s || Nat.eqb owner 0); auto.
      - destruct (thread s) eqn:T; rewrite ?T; try exact H. destruct (Nat.eqb owner 0); cbn; rewrite T; exact H.
      - unfold pass. destruct (timer s); [destruct (N.leb _ _)|]; auto.
      - destruct (thread s) eqn:T; rewrite ?T; try exact H. destruct (pulses s); cbn; rewrite ?T; try exact H. intros J. destruct (H J) as [F|F]; [discriminate|auto].
      - destruct (thread s) eqn:T; rewrite ?T; try exact H. destruct (queue s).
        + cbn. intros J. destruct (H J) as [F|F]; [discriminate|auto].
        + destruct (N.ltb _ _); cbn.
          * intros J. destruct (H J) as [F|F]; [discriminate|auto].
          * destruct (e_kind e); cbn; rewrite T; exact H.
      - destruct (thread s) eqn:T; rewrite ?T; try exact H. cbn. intros J. destruct (H J) as [F|F]; [discriminate|auto].
      - destruct (thread s) eqn:T; rewrite ?T; try exact H. destruct (qpulse s) eqn:E; cbn; auto. rewrite T, E. exact H.
      - destruct (stopped s || joining s) eqn:E; auto.
      - destruct (thread s) eqn:T; rewrite ?T; try exact H. destruct (joining s) eqn:E; [cbn; discriminate|]. rewrite E. discriminate. }
    specialize (I1 ls (init t) A). cbn in I1. destruct (stopped (run (init t) ls)); auto. destruct (joining (run (init t) ls)) eqn:E; auto.
    right. left. split; [reflexivity|]. apply I1; solve [discriminate|reflexivity|auto]. }
  destruct Q as [Q|[[J Q]|[Q1 Q2]]]; [now left| |].
  2:{ exfalso. unfold s in Q1, Q2. rewrite run_app in Q1, Q2. cbn [run fold_left step] in Q1, Q2.
      fold (run (init t) ls) in *. destruct (stopped (run (init t) ls)) eqn:E1; cbn [orb] in *; [congruence|].
      destruct (joining (run (init t) ls)) eqn:E2; [congruence|]. cbn in Q2. discriminate. }
  right. assert (forall n s, length (queue s) <= n -> joining s = true -> (thread s = TEnded \/ qpulse s = true) ->
    exists k, stopped (run s (repeat LRun k ++ [LArm; LTakeQuit; LJoined])) = true) as G; [|exact (G _ s (le_n _) J Q)].
  clear. induction n as [|n IH]; intros s L J Q.
  - destruct (queue s) as [|e q] eqn:E; [|cbn in L; lia]. destruct (thread s) eqn:T.
    1,3,4: exists 0; apply finish; [auto|rewrite T; discriminate|rewrite T; auto].
    exists 1. cbn [repeat app]. rewrite run_cons. cbn [step]. rewrite T, E. apply finish; cbn; auto.
    + destruct (quit s); discriminate.
    + destruct Q as [Q|Q]; auto; discriminate.
  - destruct (thread s) eqn:T.
    1,3,4: exists 0; apply finish; [auto|rewrite T; discriminate|rewrite T; auto].
    destruct (queue s) as [|e q] eqn:E.
    + destruct (IH s) as [k Hk]; [rewrite E; cbn; lia|auto|rewrite T; auto|]. exists k. exact Hk.
    + destruct (N.ltb_spec now (e_due e)) as [D|D].
      * exists 1. cbn [repeat app]. rewrite run_cons. cbn [step]; rewrite ?T, ?E. destruct (N.ltb_spec now (e_due e)) as [_|D']; [|lia].
        apply finish; cbn; auto; [discriminate|]. destruct Q as [Q|Q]; auto; discriminate.
      * assert (length (queue (step s LRun)) <= n /\ joining (step s LRun) = true /\
          (thread (step s LRun) = TEnded \/ qpulse (step s LRun) = true)) as (L' & J' & Q').
        { cbn [step]. rewrite T, E. destruct (N.ltb_spec now (e_due e)) as [D'|_]; [lia|]. cbn in L. destruct (e_kind e); cbn; rewrite ?T.
          - repeat split; auto. lia.
          - repeat split; auto. pose proof (filter_len (fun e0 => negb (owned (e_owner e) e0)) q). lia. }
        destruct (IH _ L' J' Q') as [k Hk]. exists (S k). cbn [repeat app]. rewrite run_cons. exact Hk.
Qed.

(** Finding: Stop ignores the result of MsgSendPulse too. When the quit pulse is not sent, the thread never ends and Stop
    (the destructor of the engine) never returns, whatever happens later. *)
Theorem C117_stop_hangs_refuted : forall ls, stopped (run (init 5) (LStop false :: ls)) = false.
Proof.
  intros ls. rewrite run_cons.
  apply (invariant (fun s => stopped s = false /\ joining s = true /\ thread s <> TEnded /\ qpulse s = false /\ quit s = false)).
  2:{ vm_compute. repeat split. discriminate. }
  clear. intros s l (H1 & H2 & H3 & H4 & H5). destruct l; cbn [step].
  - rewrite H1. destruct ok; auto.
  - rewrite H1. cbn [orb]. destruct (Nat.eqb owner 0); auto. destruct ok; auto.
  - destruct (thread s) eqn:T; rewrite ?T; auto; try congruence. destruct (Nat.eqb owner 0); cbn; rewrite ?T; auto.
  - unfold pass. destruct (timer s); [destruct (N.leb _ _)|]; auto.
  - destruct (thread s) eqn:T; rewrite ?T; auto; try congruence. destruct (pulses s); cbn; rewrite ?T; repeat split; auto; congruence.
  - destruct (thread s) eqn:T; rewrite ?T; auto; try congruence. destruct (queue s).
    + cbn. rewrite H5. repeat split; auto. congruence.
    + destruct (N.ltb _ _); cbn; [repeat split; auto; congruence|]. destruct (e_kind e); cbn; rewrite ?T; auto.
  - destruct (thread s) eqn:T; rewrite ?T; auto; try congruence. cbn. rewrite H5. repeat split; auto. congruence.
  - destruct (thread s) eqn:T; rewrite ?T; auto; try congruence. rewrite H4, T. auto.
  - rewrite H1, H2. auto.
  - destruct (thread s) eqn:T; rewrite ?T; auto; try congruence.
Qed.

(** Finding: a command that was due before Stop was called may never run, although the thread was free: the thread may take
    the quit pulse before the pulse of the registration. *)
Theorem C117_due_before_stop_refuted :
  exists ls e, along timely (init 5) (ls ++ [LStop true]) /\ In e (queue (run (init 5) ls)) /\ (e_due e < clock (run (init 5) ls))%N /\
    forall ls', stopped (run (init 5) (ls ++ [LStop true; LTakeQuit; LJoined] ++ ls')) = true /\
                ~ In e (map fst (ran (run (init 5) (ls ++ [LStop true; LTakeQuit; LJoined] ++ ls')))).
Proof.
  exists [LReg 6 1 true; LPass 5]%N, (mkE 0 6 1 Command). split; [cbn [along app]; unfold timely; cbn; repeat split|].
  split; [vm_compute; auto|]. split; [vm_compute; reflexivity|]. intros ls'. rewrite app_assoc.
  destruct (C117_nothing_after_stop 5 ([LReg 6 1 true; LPass 5]%N ++ [LStop true; LTakeQuit; LJoined]) ls') as [E1 E2]; [vm_compute; reflexivity|].
  split; [exact E2|]. rewrite E1. vm_compute. tauto.
Qed.

(** *** The hypotheses are met *)

(** The same two commands with a first command that runs for 8 nanoseconds: a timely history; the second command is queued,
    the thread sleeps, and the timer is set to 21. *)
Example C117_timely_history :
  along timely (init 5) (two_commands 8) /\ asleep (run (init 5) (two_commands 8)) /\
  queue (run (init 5) (two_commands 8)) = [mkE 1 20 1 Command] /\ timer (run (init 5) (two_commands 8)) = Some 21%N /\
  ran (run (init 5) (two_commands 8)) = [(mkE 0 10 1 Command, 11%N)].
Proof.
  split; [|vm_compute; auto]. cbn [along two_commands]. unfold timely. repeat split; try exact I; try reflexivity;
  intros nxt H; vm_compute in H; injection H; intros; subst; vm_compute; discriminate.
Qed.

(** The second command runs after its time, too, and a later command with an earlier due time goes first. *)
Example C117_both_run :
  map (fun p => e_id (fst p)) (ran (run (init 5) (two_commands 8 ++ [LReg 19 2 true; LTake; LRun; LPass 5; LRun; LArm; LTake; LRun; LRun; LRun]%N))) = [1; 2; 0].
Proof. vm_compute. reflexivity. Qed.

(** A clean-up from another thread is served at once, removes the command of its owner and leaves the other. *)
Example C117_cleanup_served :
  let s := run (init 5) [LReg 10 1 true; LReg 10 2 true; LCleanUp 1 true; LTake; LRun]%N in
  returned s = [2] /\ map e_id (removed s) = [0] /\ map e_id (queue s) = [1].
Proof. vm_compute. auto. Qed.

(** An owner of 0 (nullptr) is ignored, and a command may clean up its owner itself. *)
Example C117_cleanup_inside :
  let s := run (init 5) [LReg 10 1 true; LReg 4 1 true; LReg 10 0 true; LCleanUp 0 true; LTake; LRun; LCleanUpHere 0; LCleanUpHere 1]%N in
  map e_id (removed s) = [0] /\ map e_id (queue s) = [2] /\ map (fun p => e_id (fst p)) (ran s) = [1] /\ returned s = [].
Proof. vm_compute. auto. Qed.

(** The exact value of the timer when the distance is -5: 2^64 - 5 nanoseconds after 26. *)
Example C117_wrapped_timer :
  clock (run (init 5) (two_commands 15)) = 26%N /\ timer (run (init 5) (two_commands 15)) = Some (26 + (2 ^ 64 - 5))%N /\
  timer (run (init 5) (two_commands 10)) = None.
Proof. vm_compute. auto. Qed.

Example C117_stop_works :
  stopped (run (init 5) [LReg 10 1 true; LTake; LStop true; LRun; LArm; LTakeQuit; LJoined]%N) = true.
Proof. vm_compute. reflexivity. Qed.

Print Assumptions C117_never_early.
Print Assumptions C117_each_once.
Print Assumptions C117_earliest_first.
Print Assumptions C117_cleaned_owner_is_quiet.
Print Assumptions C117_cleanup_returns_when_served.
Print Assumptions C117_nothing_after_stop.
Print Assumptions C117_overdue_command_sleeps_refuted.
Print Assumptions C117_overslept_for_centuries_refuted.
Print Assumptions C117_no_command_overslept_partial.
Print Assumptions C117_due_command_executed_partial.
Print Assumptions C117_cleanup_not_overslept_partial.
Print Assumptions C117_lost_pulse_refuted.
Print Assumptions C117_cleanup_returns_refuted.
Print Assumptions C117_stop_returns_partial.
Print Assumptions C117_stop_hangs_refuted.
Print Assumptions C117_due_before_stop_refuted.
Print Assumptions C117_any_pulse_recovers.
