(** C116: asynchronous discovery through the Rust interface. *)
From Coq Require Import List Arith Bool Lia.
From Verif Require Import DxModel DxSpec DxProof.
Import ListNotations.

(** ** Results *)

(** The future resolves with the instances of the latest report of the search;
    these are the instances on offer, unless a change is still to be
    reported. *)
Theorem C116_resolves_with_latest_report : forall s s' l, reach s ->
  step s LPollB = Some (s', OReady l) ->
  (exists older, reports s = l :: older) /\ (up_to_date s -> same_instances l (offered s)).
Proof.
  intros s s' l R H. pose proof (reach_inv _ R) as IV. cbn in H.
  destruct (task s) eqn:T; try discriminate.
  destruct (hs s) as [q|] eqn:Q; [|discriminate]. destruct (cb s); [discriminate|].
  injection H; intros <- _.
  assert (S: search s = true) by (pose proof (i_active _ IV) as A; rewrite T in A; tauto).
  destruct (i_rep _ IV S) as [R1 R2]. rewrite Q in R1.
  destruct (reports s) as [|x r]; [discriminate|]. cbn in R1, R2. injection R1; intros <-.
  split; [eauto|]. intros U. unfold up_to_date in U. now rewrite R2 in U.
Qed.

(** The first report of a search names at least one instance: an empty result
    means that instances were found and went away again. *)
Theorem C116_empty_result_after_withdrawal : forall s s', reach s ->
  step s LPollB = Some (s', OReady []) -> exists l, l <> [] /\ In l (reports s) /\ length (reports s) >= 2.
Proof.
  intros s s' R H. destruct (C116_resolves_with_latest_report _ _ _ R H) as ([older E] & _).
  pose proof (i_first _ (reach_inv _ R)) as F.
  destruct (exists_last (l := reports s)) as (r & l & E2); [rewrite E; discriminate|].
  exists l. split; [exact (F _ _ E2)|]. split; [rewrite E2; apply in_or_app; right; left; reflexivity|].
  rewrite E2, app_length. cbn. destruct r; cbn; [|lia].
  exfalso. cbn in E2. rewrite E in E2. injection E2; intros _ <-. exact (F [] [] ltac:(rewrite E; cbn; congruence) eq_refl).
Qed.

(** A failed start is reported as an error, and nothing is left running. *)
Theorem C116_failed_start_is_an_error : forall s a b s1 o, reach s -> step s (LCall a b) = Some (s1, o) ->
  a && b = false -> search s1 = false /\ exists s2, step s1 LPollA = Some (s2, OError) /\ search s2 = false /\ stops s2 = 0.
Proof.
  intros s a b s1 o R H E. cbn in H. destruct (task s); try discriminate. injection H; intros _ <-.
  unfold call. rewrite E. cbn. split; [reflexivity|]. eexists. split; [reflexivity|]. cbn. auto.
Qed.

(** ** Waking *)

(** A waiting future with a result has been woken, or the handler call that
    brought the result is about to wake it. *)
Theorem C116_no_lost_wake_up : forall s, reach s -> task s = FWait -> hs s <> None ->
  woken s = true \/ cb s = true.
Proof.
  intros s R T H. pose proof (i_wk _ (reach_inv _ R)) as W. rewrite T in W. tauto.
Qed.

Theorem C116_handler_wakes : forall s s' o, reach s -> task s = FWait ->
  step s LWake = Some (s', o) -> woken s' = true /\ task s' = FWait.
Proof.
  intros s s' o R T H. pose proof (i_wk _ (reach_inv _ R)) as W. rewrite T in W. cbn in H.
  destruct (cb s); [|discriminate]. injection H; intros _ <-. cbn. split; [|exact T].
  destruct W as [[-> | ->] _]; [apply orb_true_r|reflexivity].
Qed.

(** When an instance is on offer, a waiting future that has no result yet gets
    one: the search has something to report, the report wakes the future, and
    the next poll resolves with the instances on offer. *)
Theorem C116_found_instance_resolves : forall s, reach s -> task s = FWait -> hs s = None -> offered s <> [] ->
  exists s1 s2 s3 s4, step s LStore = Some (s1, OUnit) /\ step s1 LWake = Some (s2, OUnit) /\
    woken s2 = true /\ step s2 LPollA = Some (s3, OUnit) /\ step s3 LPollB = Some (s4, OReady (offered s)) /\
    search s4 = false.
Proof.
  intros s R T H O. pose proof (reach_inv _ R) as IV.
  assert (S: search s = true) by (pose proof (i_active _ IV) as A; rewrite T in A; tauto).
  destruct (i_rep _ IV S) as [R1 R2]. rewrite H in R1.
  destruct (reports s) as [|x r] eqn:E; [|discriminate]. cbn in R2.
  assert (CB: cb s = false).
  { destruct (cb s) eqn:CB; [|reflexivity]. exfalso. exact (i_cb _ IV CB E). }
  assert (SM: same (prev s) (offered s) = false).
  { apply not_true_is_false. intros K. apply same_spec in K. rewrite R2 in K.
    destruct (offered s) as [|y q]; [contradiction|]. destruct (K y) as [_ K2]. exact (K2 (or_introl eq_refl)). }
  pose proof (i_wk _ IV) as W. rewrite T in W.
  exists (store s), (wake (store s)), (register (wake (store s))),
         (finish (register (wake (store s))) true).
  repeat split.
  - cbn. rewrite S, CB, SM. reflexivity.
  - cbn. destruct W as [[-> | ->] _]; [apply orb_true_r|reflexivity].
  - cbn. rewrite T. reflexivity.
Qed.

(** ** The end of the search *)

(** A future that was polled ends its search when it resolves or is dropped;
    no search is ended twice. *)
Theorem C116_polled_future_ends_search_partial : forall s l s' o, reach s -> polled s ->
  step s l = Some (s', o) -> task s' = FEnd -> search s' = false /\ stops s' = 1.
Proof.
  intros s l s' o R P H E. pose proof (i_active _ (reach_inv _ R)) as A.
  assert (A0: stops s = 0) by (destruct P as [P|P]; rewrite P in A; tauto).
  destruct l; cbn in H; destruct P as [T|T]; rewrite ?T in H; try discriminate;
    try (destruct (mem i (offered s)); try discriminate; injection H; intros _ <-; cbn in E; congruence);
    try (destruct (search s && negb (cb s) && negb (same (prev s) (offered s))); [|discriminate];
         injection H; intros _ <-; cbn in E; congruence);
    try (destruct (cb s); [|discriminate]; injection H; intros _ <-; cbn in E; congruence);
    try (injection H; intros _ <-; cbn in E; congruence).
  - destruct (hs s); [destruct (cb s); [discriminate|]|]; injection H; intros _ <-; cbn in *; [|congruence]. auto.
  - destruct (cb s); [discriminate|]. injection H; intros _ <-; cbn. auto.
Qed.

Theorem C116_search_ended_at_most_once : forall s, reach s -> stops s <= 1 /\ (stops s = 1 -> task s = FEnd).
Proof.
  intros s R. pose proof (i_active _ (reach_inv _ R)) as A.
  destruct (task s); split; intros; try lia; try reflexivity; destruct A as (? & A); try (destruct A as (? & ? & ? & ?)); lia.
Qed.

(** A search that goes on after its future cannot harm memory: the callback it
    calls still exists. *)
Theorem C116_callback_outlives_search : forall s, reach s -> search s = true -> closure s = true.
Proof.
  intros s R S. pose proof (reach_inv _ R) as IV. apply (i_clo _ IV). intros T.
  pose proof (i_active _ IV) as A. rewrite T in A. destruct A as [A _]. congruence.
Qed.

(** FALSE of the code: when the future is gone, the search has ended (the
    comments at consumer.rs 868-872 and 990-992 say that StopFindService is
    always called).  The search starts when the function is called, but the
    object that stops it is made in the first poll.  A future that is dropped
    before it is polled, for instance as the losing branch of a select, leaves
    the search and its inotify watches running for the life of the process. *)
Theorem C116_search_ends_with_future_refuted :
  ~ (forall s, reach s -> task s = FEnd -> search s = false).
Proof.
  intros H.
  destruct (run init OUnit [LCall true true; LDrop]) as [[s o]|] eqn:E; [|vm_compute in E; discriminate].
  assert (R: reach s) by (eapply run_reach; [apply r_init|exact E]).
  vm_compute in E. injection E; intros _ Es. subst s. specialize (H _ R eq_refl). discriminate.
Qed.

(** FALSE of the code, and of the documentation (concept.rs 585-586): the
    future resolves, with an empty result when no instance is available.  A
    search that finds nothing does not call its handler, so the future stays
    pending until the first instance is offered. *)
Theorem C116_resolves_without_instances_refuted :
  ~ (forall s, reach s -> task s = FIn -> up_to_date s -> cb s = false ->
     exists s' l, step s LPollB = Some (s', OReady l)).
Proof.
  intros H.
  destruct (run init OUnit [LCall true true; LPollA]) as [[s o]|] eqn:E; [|vm_compute in E; discriminate].
  assert (R: reach s) by (eapply run_reach; [apply r_init|exact E]).
  vm_compute in E. injection E; intros _ Es. subst s.
  destruct (H _ R eq_refl) as (s' & l & K); [intros i; reflexivity|reflexivity|]. vm_compute in K. discriminate.
Qed.

(** FALSE of the code: the memory of a call is given back when its future and
    its search are over.  The boxed callback, and with it the shared result
    and the waker, is never freed: the C++ side ignores its disposal
    (registry_bridge_macro.h 188), and the Rust side has given it away. *)
Theorem C116_memory_returned_refuted :
  ~ (forall s, reach s -> task s = FEnd -> search s = false -> cb s = false -> closure s = false).
Proof.
  intros H.
  destruct (run init OUnit [LOffer 1; LCall true true; LPollA; LPollB]) as [[s o]|] eqn:E; [|vm_compute in E; discriminate].
  assert (R: reach s) by (eapply run_reach; [apply r_init|exact E]).
  vm_compute in E. injection E; intros _ Es. subst s. specialize (H _ R eq_refl eq_refl eq_refl). discriminate.
Qed.

(** Every call leaks: also the one with an invalid specifier. *)
Theorem C116_every_call_leaks : forall s, reach s -> task s <> FNone -> closure s = true.
Proof. intros s R. exact (i_clo _ (reach_inv _ R)). Qed.

(** ** The hypotheses are met *)
Example C116_waits_and_resolves : exists s,
  run init OUnit [LCall true true; LPollA; LPollB; LOffer 7; LStore; LWake; LPollA; LPollB] = Some (s, OReady [7]) /\
  search s = false /\ stops s = 1.
Proof. eexists. split; [vm_compute; reflexivity|]. auto. Qed.

Example C116_waiting_state : exists s o,
  run init OUnit [LCall true true; LPollA; LPollB; LOffer 7] = Some (s, o) /\ task s = FWait /\ hs s = None /\ offered s <> [].
Proof. do 2 eexists. split; [vm_compute; reflexivity|]. cbn. split; [auto|split; [auto|discriminate]]. Qed.

Example C116_result_before_poll : exists s o,
  run init OUnit [LCall true true; LPollA; LPollB; LOffer 7; LStore] = Some (s, o) /\
  task s = FWait /\ hs s = Some [7] /\ woken s = false /\ cb s = true.
Proof. do 2 eexists. split; [vm_compute; reflexivity|]. cbn. auto. Qed.

Example C116_empty_result : exists s,
  run init OUnit [LOffer 1; LCall true true; LWithdraw 1; LStore; LWake; LPollA; LPollB] = Some (s, OReady []).
Proof. eexists. vm_compute; reflexivity. Qed.

Example C116_invalid_specifier : exists s,
  run init OUnit [LCall false true; LPollA] = Some (s, OError) /\ closure s = true.
Proof. eexists. split; [vm_compute; reflexivity|reflexivity]. Qed.

Print Assumptions C116_resolves_with_latest_report.
Print Assumptions C116_empty_result_after_withdrawal.
Print Assumptions C116_failed_start_is_an_error.
Print Assumptions C116_no_lost_wake_up.
Print Assumptions C116_handler_wakes.
Print Assumptions C116_found_instance_resolves.
Print Assumptions C116_polled_future_ends_search_partial.
Print Assumptions C116_search_ended_at_most_once.
Print Assumptions C116_callback_outlives_search.
Print Assumptions C116_search_ends_with_future_refuted.
Print Assumptions C116_resolves_without_instances_refuted.
Print Assumptions C116_memory_returned_refuted.
Print Assumptions C116_every_call_leaks.
