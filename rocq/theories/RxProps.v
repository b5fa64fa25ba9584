(** C115: receiving samples through the Rust interface. *)
From Coq Require Import List Arith Bool Lia Sorting.Sorted.
From Verif Require Import RxModel RxSpec RxProof.
Import ListNotations.

(** ** The samples a consumer holds *)

(** The consumer never has more samples alive than it subscribed for, and the
    container never holds more than its capacity. *)
Theorem C115_held_within_subscription : forall c s, reach c s ->
  length (alive s) <= cap c /\ length (box s) <= ccap c.
Proof.
  intros c s R. apply reach_inv in R. destruct R. split; [|assumption].
  unfold alive. rewrite !app_length. unfold held in *. lia.
Qed.

(** No sample is handed out twice, every sample alive was delivered, and the
    samples delivered, those in the container, and those yielded by a stream
    are in the order of publication. *)
Theorem C115_samples_once_and_in_order : forall c s, reach c s ->
  in_order (dlog s) /\ in_order (box s) /\ NoDup (alive s) /\ incl (alive s) (dlog s).
Proof.
  intros c s R. apply reach_inv in R.
  destruct R as [A1 A2 A3 A4 A5 A6 A7 A8 A9 A10 A11 A12 A13 A14].
  split; [now apply ss_app_l in A1|]. split; [now apply ss_app_l in A3|]. split.
  - apply (NoDup_count_occ Nat.eq_dec). intros x. specialize (A5 x).
    change (cnt (alive s) x <= 1). unfold alive. rewrite !cnt_app. lia.
  - intros x I. apply A6. unfold alive in I. rewrite !in_app_iff in I. exact I.
Qed.

(** ** [try_receive] *)

(** A successful [try_receive]: the new samples are the newest published ones,
    they are at the end of the container in order of publication, what stays
    of the old content is its newest part, and the container holds at most
    [max_samples] unless nothing was added. *)
Theorem C115_try_receive_result : forall c s m nok s' n, reach c s ->
  step c s (LTry m nok) = Some (s', OOk n) ->
  exists old got, box s' = old ++ got /\ newest n (fresh s) got /\ ends_with (box s) old /\
    n <= m /\ m <= cap c /\ (n = 0 -> old = box s) /\ (0 < n -> length (box s') <= m) /\
    (length (box s) + n <= m -> old = box s) /\ fresh s' = [] /\ dlog s' = dlog s ++ got.
Proof.
  intros c s m nok s' n R H. unfold step in H. destruct (dead s); [discriminate|].
  destruct (work s); [|destruct (guard s); discriminate|discriminate].
  destruct (guard s); [discriminate|].
  destruct (try_receive_samples c s (ccap c) (box s) m nok) as [e| |got b] eqn:T; try discriminate.
  injection H; intros <- <-; clear H.
  pose proof (try_facts _ _ _ _ _ _ _ _ T) as (M1 & M2 & _ & GE & HC & PA & L1 & L2 & E0 & E1).
  assert (NW: newest (length got) (fresh s) got).
  { split; [|reflexivity]. rewrite GE. apply skipn_suffix. }
  destruct got as [|x r].
  - exists (box s), []. cbn. rewrite app_nil_r.
    rewrite E0 by reflexivity.
    split; [reflexivity|]. split; [exact NW|].
    repeat split; auto; try lia; try (exists []; reflexivity).
  - exists (skipn (length (box s) + length (x :: r) - m) (box s)), (x :: r).
    assert (BE: b = skipn (length (box s) + length (x :: r) - m) (box s) ++ x :: r).
    { rewrite E1 by discriminate. unfold lastn. rewrite app_length, skipn_app.
      replace (length (box s) + length (x :: r) - m - length (box s)) with 0 by lia. reflexivity. }
    split; [exact BE|]. split; [exact NW|]. split; [apply skipn_suffix|].
    split; [exact L1|]. split; [exact M2|]. split; [cbn; lia|].
    split; [intros _; change (length b <= m); rewrite E1 by discriminate; rewrite lastn_len; lia|].
    split; [|split; reflexivity].
    intros Q. replace (length (box s) + length (x :: r) - m) with 0 by lia. reflexivity.
Qed.

(** When there is room, [try_receive] takes as many samples as there are new
    ones, up to the request and to the samples the subscription still allows. *)
Theorem C115_try_receive_progress : forall c s m, reach c s -> dead s = false -> work s = ANone ->
  1 <= m -> m <= cap c -> m <= ccap c -> length (alive s) < cap c ->
  exists s', step c s (LTry m true) =
    Some (s', OOk (Nat.min (Nat.min m (cap c - length (alive s))) (length (fresh s)))).
Proof.
  intros c s m R D W M1 M2 M3 H.
  assert (HA: length (alive s) = held s) by (unfold alive, held; rewrite !app_length; lia).
  rewrite HA in *.
  pose proof (i_guard _ _ (reach_inv _ _ R)) as G. unfold receive_under_way in G. rewrite W in G.
  unfold step. rewrite D, W. destruct (guard s); [exfalso; tauto|].
  unfold try_receive_samples, native.
  destruct (m =? 0) eqn:Z; [apply Nat.eqb_eq in Z; lia|].
  destruct (cap c <? m) eqn:Z2; [apply Nat.ltb_lt in Z2; lia|].
  destruct (Nat.min m (cap c - held s) =? 0) eqn:Z3; [apply Nat.eqb_eq in Z3; lia|].
  cbn [orb negb].
  destruct (push_all_ok (ccap c) m M1 M3 (lastn (Nat.min m (cap c - held s)) (fresh s)) (box s)) as [b ->].
  rewrite lastn_len. eauto.
Qed.

(** A consumer that holds as many samples as it subscribed for gets none: the
    call fails and nothing changes, however many new samples there are. *)
Theorem C115_full_holding_always_fails : forall c s m nok s' o, reach c s ->
  length (alive s) = cap c -> work s = ANone -> step c s (LTry m nok) = Some (s', o) ->
  s' = s /\ exists e, o = OErr e.
Proof.
  intros c s m nok s' o R H W E.
  assert (HA: length (alive s) = held s) by (unfold alive, held; rewrite !app_length; lia).
  pose proof (i_guard _ _ (reach_inv _ _ R)) as G. unfold receive_under_way in G. rewrite W in G.
  unfold step in E. destruct (dead s); [discriminate|]. rewrite W in E.
  destruct (guard s); [exfalso; tauto|].
  unfold try_receive_samples, native in E.
  replace (Nat.min m (cap c - held s)) with 0 in E by lia. cbn [Nat.eqb orb] in E.
  destruct (m =? 0); [injection E; intros; subst; eauto|].
  destruct (cap c <? m); injection E; intros; subst; eauto.
Qed.

(** ** [receive] and [cancellable_receive] *)

(** A receive resolves with a number of samples between [new_samples] and
    [max_samples]; it is the number of samples the event delivered to it, and
    the samples of the poll that resolved it are at the end of the container. *)
Theorem C115_receive_resolves_with_counts : forall c s nok s' n nw mx tot, reach c s ->
  work s = ARecv PIn nw mx tot -> step c s (LPollB nok) = Some (s', OOk n) ->
  nw <= n /\ n <= mx /\ n = length (rlog s') /\ in_order (rlog s') /\
  work s' = ANone /\ guard s' = false /\
  exists got, rlog s' = rlog s ++ got /\ newest (n - length (rlog s)) (fresh s) got /\
              ends_with (box s') got.
Proof.
  intros c s nok s' n nw mx tot R W H.
  pose proof (reach_inv _ _ (r_step c s (LPollB nok) s' _ R H)) as IV'.
  pose proof (reach_inv _ _ R) as IV.
  pose proof (i_recv _ _ IV) as RV. rewrite W in RV. destruct RV as (V & TN & TL).
  unfold step in H. destruct (dead s); [discriminate|]. rewrite W in H. injection H as H.
  unfold poll_recv in H.
  destruct (try_receive_samples c s (ccap c) (box s) (mx - tot) nok) as [e| |got b] eqn:T; try discriminate.
  destruct (nw <=? tot + length got) eqn:Q; [|discriminate]. apply Nat.leb_le in Q.
  injection H; intros <- <-; clear H.
  pose proof (try_facts _ _ _ _ _ _ _ _ T) as (M1 & M2 & _ & GE & HC & PA & L1 & L2 & E0 & E1).
  destruct (try_shape _ _ _ _ _ _ _ _ T) as [k SH].
  cbn. rewrite app_length. split; [exact Q|]. split; [lia|]. split; [lia|].
  split; [pose proof (i_ord _ _ IV') as O; cbn in O; now apply ss_app_l in O|].
  split; [reflexivity|]. split; [reflexivity|].
  exists got. split; [reflexivity|]. split.
  - split; [rewrite GE; apply skipn_suffix|]. lia.
  - exists (skipn k (box s)). exact SH.
Qed.

(** The samples a receive reports are in the container when all of them came
    with the poll that resolved it.  Missing for the full property: samples
    that came with an earlier poll of the same receive; see
    [C115_receive_reported_samples_present_refuted]. *)
Theorem C115_receive_reported_samples_present_partial : forall c s nok s' n nw mx tot, reach c s ->
  work s = ARecv PIn nw mx tot -> rlog s = [] -> step c s (LPollB nok) = Some (s', OOk n) ->
  length (rlog s') = n /\ ends_with (box s') (rlog s') /\ newest n (fresh s) (rlog s').
Proof.
  intros c s nok s' n nw mx tot R W E H.
  destruct (C115_receive_resolves_with_counts _ _ _ _ _ _ _ _ R W H) as (A & B & L & O & _ & _ & got & G1 & G2 & G3).
  rewrite E in *. cbn in *. rewrite G1 in *. rewrite Nat.sub_0_r in G2. auto.
Qed.

(** What the last poll of a receive adds. *)
Lemma C115_resolves_aux : forall c s nok s' n nw mx tot, reach c s ->
  work s = ARecv PIn nw mx tot -> step c s (LPollB nok) = Some (s', OOk n) ->
  exists got, rlog s' = rlog s ++ got /\ n = length (rlog s) + length got /\
    length (rlog s) < nw /\ nw <= n /\ n <= mx /\
    (got <> [] -> box s' = lastn (mx - length (rlog s)) (box s ++ got)).
Proof.
  intros c s nok s' n nw mx tot R W H.
  pose proof (i_recv _ _ (reach_inv _ _ R)) as RV. rewrite W in RV. destruct RV as (V & TN & TL).
  unfold step in H. destruct (dead s); [discriminate|]. rewrite W in H. injection H as H.
  unfold poll_recv in H.
  destruct (try_receive_samples c s (ccap c) (box s) (mx - tot) nok) as [e| |got b] eqn:T; try discriminate.
  destruct (nw <=? tot + length got) eqn:Q; [|discriminate]. apply Nat.leb_le in Q.
  injection H; intros <- <-; clear H.
  pose proof (try_facts _ _ _ _ _ _ _ _ T) as (M1 & M2 & _ & GE & HC & PA & L1 & L2 & E0 & E1).
  exists got. cbn. rewrite <- TL. repeat split; auto; lia.
Qed.

(** How much is lost: when [new_samples] equals [max_samples], a receive leaves
    in the container exactly the samples of the poll that resolved it; nothing
    of earlier polls, and nothing of what the container held, remains. *)
Theorem C115_exact_receive_keeps_last_batch_only : forall c s nok s' n mx tot, reach c s ->
  work s = ARecv PIn mx mx tot -> step c s (LPollB nok) = Some (s', OOk n) ->
  n = mx /\ length (box s') = mx - length (rlog s) /\ rlog s' = rlog s ++ box s'.
Proof.
  intros c s nok s' n mx tot R W H.
  destruct (C115_resolves_aux c s nok s' n mx mx tot R W H) as (got & G1 & G2 & G3 & G5 & G6 & G4).
  assert (NE: got <> []).
  { intros ->. cbn in *. lia. }
  specialize (G4 NE). assert (BE: box s' = got).
  { rewrite G4. unfold lastn. rewrite app_length, skipn_app.
    replace (length (box s) + length got - (mx - length (rlog s)) - length (box s)) with 0 by lia.
    rewrite skipn_all2 by lia. reflexivity. }
  rewrite BE. repeat split; auto; lia.
Qed.

(** FALSE of the code: a receive that resolves with [n] has put [n] new samples
    into the container.  Every poll passes the number of samples still missing
    as the size limit of the whole container (consumer.rs 771), and the
    callback first drops samples until the container is below that limit
    (1232-1234).  So the second poll of one [receive] throws away what the
    first one received: a receive of two samples that arrive one after the
    other returns [Ok(2)] and a container with one sample.  The first sample
    was never seen by the user. *)
Theorem C115_receive_reported_samples_present_refuted :
  ~ (forall c s nok s' n nw mx tot, reach c s ->
     work s = ARecv PIn nw mx tot -> step c s (LPollB nok) = Some (s', OOk n) ->
     ends_with (box s') (rlog s')).
Proof.
  intros H.
  pose (c := {| cap := 2; ccap := 2 |}).
  pose (ls := [LStart 2 2; LSend; LNotify; LPollA true; LPollB true; LSend; LNotify; LPollA true]).
  destruct (run c init OUnit ls) as [[s o]|] eqn:E; [|vm_compute in E; discriminate].
  assert (R: reach c s) by (eapply run_reach; [apply r_init|exact E]).
  vm_compute in E. injection E; intros Eo Es; clear E.
  destruct (step c s (LPollB true)) as [[s' o']|] eqn:E2; [|rewrite <- Es in E2; vm_compute in E2; discriminate].
  pose proof E2 as E3. rewrite <- Es in E3. vm_compute in E3. injection E3; intros Eo' Es'; clear E3.
  assert (W: work s = ARecv PIn 2 2 1) by (rewrite <- Es; reflexivity).
  rewrite <- Eo' in E2.
  destruct (H c s true s' 2 2 2 1 R W E2) as [p P]. rewrite <- Es' in P. cbn in P.
  apply (f_equal (@length nat)) in P. rewrite app_length in P. cbn in P. lia.
Qed.

(** FALSE of the code: a receive with allowed arguments that gets new samples
    does not fail while enough samples are published.  The samples kept in
    the container count against the subscription, but are dropped only when a
    sample arrives.  With one old sample in the container and a subscription
    of two, a receive of two takes one sample, then holds two, and its next
    poll ends with an error although a further sample was published. *)
Theorem C115_receive_of_published_samples_succeeds_refuted :
  ~ (forall c s s' e nw mx tot, reach c s -> allowed c nw mx -> cap c <= ccap c ->
     usr s = [] -> work s = ARecv PIn nw mx tot -> nw <= tot + length (fresh s) ->
     step c s (LPollB true) <> Some (s', OErr e)).
Proof.
  intros H.
  pose (c := {| cap := 2; ccap := 2 |}).
  pose (ls := [LSend; LTry 1 true; LStart 2 2; LSend; LPollA true; LPollB true; LSend; LPollA true]).
  destruct (run c init OUnit ls) as [[s o]|] eqn:E; [|vm_compute in E; discriminate].
  assert (R: reach c s) by (eapply run_reach; [apply r_init|exact E]).
  vm_compute in E. injection E; intros Eo Es; clear E.
  refine (H c s _ ENative 2 2 1 R _ _ _ _ _ _).
  - unfold allowed; cbn; lia.
  - cbn; lia.
  - rewrite <- Es; reflexivity.
  - rewrite <- Es; reflexivity.
  - rewrite <- Es; cbn; lia.
  - rewrite <- Es. vm_compute. reflexivity.
Qed.

(** FALSE of the code, and of the documentation of [try_receive]: a container
    with more than [max_samples] samples has [max_samples] samples after the
    call, even if no new samples were added (concept.rs 792-794).  The
    container is shortened only by an arriving sample. *)
Theorem C115_container_shortened_to_max_refuted :
  ~ (forall c s m s' n, reach c s -> m <= length (box s) ->
     step c s (LTry m true) = Some (s', OOk n) -> length (box s') = m).
Proof.
  intros H.
  pose (c := {| cap := 3; ccap := 3 |}).
  pose (ls := [LSend; LSend; LTry 2 true]).
  destruct (run c init OUnit ls) as [[s o]|] eqn:E; [|vm_compute in E; discriminate].
  assert (R: reach c s) by (eapply run_reach; [apply r_init|exact E]).
  vm_compute in E. injection E; intros Eo Es; clear E.
  assert (K: exists s', step c s (LTry 1 true) = Some (s', OOk 0) /\ length (box s') = 2).
  { rewrite <- Es. eexists. split; vm_compute; reflexivity. }
  destruct K as (s' & K & L).
  assert (length (box s') = 1); [|lia].
  refine (H c s 1 s' 0 R _ K). rewrite <- Es; cbn; lia.
Qed.

(** FALSE of the code: when new samples exist, a call of [try_receive] puts the
    newest sample into the container, dropping the oldest to make room (the
    comment at consumer.rs 1228-1229).  A container that holds as many samples
    as were subscribed is never renewed: the call fails before any sample is
    dropped, again and again, until the user takes a sample out. *)
Theorem C115_full_container_slides_refuted :
  ~ (forall c s m s' o, reach c s -> 1 <= m -> m <= cap c -> cap c <= ccap c -> usr s = [] ->
     work s = ANone -> fresh s <> [] -> step c s (LTry m true) = Some (s', o) ->
     exists x, In x (fresh s) /\ In x (box s')).
Proof.
  intros H.
  pose (c := {| cap := 2; ccap := 2 |}).
  pose (ls := [LSend; LSend; LTry 2 true; LSend]).
  destruct (run c init OUnit ls) as [[s o]|] eqn:E; [|vm_compute in E; discriminate].
  assert (R: reach c s) by (eapply run_reach; [apply r_init|exact E]).
  vm_compute in E. injection E; intros Eo Es; clear E.
  assert (K: step c s (LTry 2 true) = Some (s, OErr ENative)).
  { rewrite <- Es. vm_compute. reflexivity. }
  destruct (H c s 2 s (OErr ENative) R) as (x & X1 & X2); try (rewrite <- Es; cbn; (lia || reflexivity || discriminate)); auto.
  rewrite <- Es in X1, X2. cbn in X1, X2. destruct X1 as [<-|[]]. destruct X2 as [X|[X|[]]]; discriminate.
Qed.

(** FALSE of the code: a failed or cancelled receive returns the container as
    the user passed it (concept.rs 838-839).  Samples received before the
    cancellation stay in the container, in place of older ones, and no count
    tells the user about them. *)
Theorem C115_cancelled_container_unchanged_refuted :
  ~ (forall c ls s1 s2 nw mx, reach c s1 -> step c s1 (LStart nw mx) <> None ->
     run c s1 OUnit (LStart nw mx :: ls) = Some (s2, OErr ECancelled) ->
     Forall (fun l => match l with LSend | LNotify | LPollA _ | LPollB _ | LCancel => True | _ => False end) ls ->
     box s2 = box s1).
Proof.
  intros H.
  pose (c := {| cap := 2; ccap := 2 |}).
  pose (ls := [LSend; LPollA true; LPollB true; LCancel; LPollA true]).
  assert (K: exists s2, run c init OUnit (LStart 2 2 :: ls) = Some (s2, OErr ECancelled) /\ box s2 = [0]).
  { eexists. split; vm_compute; reflexivity. }
  destruct K as (s2 & K & B).
  assert (X: box s2 = box init); [|rewrite B in X; discriminate].
  refine (H c ls init s2 2 2 (r_init c) _ K _); [cbn; discriminate|].
  unfold ls. repeat constructor.
Qed.

(** Arguments that are not allowed are refused on the first poll; the container
    comes back unchanged and the subscription is free again. *)
Theorem C115_invalid_arguments_refused : forall c s nw mx t iok s' o, reach c s ->
  work s = ARecv PNew nw mx t -> ~ allowed c nw mx -> step c s (LPollA iok) = Some (s', o) ->
  o = OErr EBounds /\ box s' = box s /\ fresh s' = fresh s /\ work s' = ANone /\ guard s' = false.
Proof.
  intros c s nw mx t iok s' o R W N H. unfold step in H. destruct (dead s); [discriminate|].
  rewrite W in H. injection H as H. unfold first_recv in H.
  assert (V: valid c nw mx = false).
  { unfold valid. apply not_true_is_false. intros V. apply N. unfold allowed.
    apply andb_true_iff in V as [V V3]. apply andb_true_iff in V as [V V2].
    apply negb_true_iff, Nat.eqb_neq in V. apply Nat.leb_le in V2, V3. lia. }
  rewrite V in H. cbn in H. injection H; intros <- <-. auto.
Qed.

(** Allowed arguments are accepted: the first poll of a receive that is not
    cancelled gets to the event, provided the wake handler can be installed. *)
Theorem C115_allowed_arguments_accepted : forall c s nw mx t, reach c s -> dead s = false ->
  work s = ARecv PNew nw mx t -> allowed c nw mx -> canc s = false ->
  exists s', step c s (LPollA true) = Some (s', OUnit) /\ work s' = ARecv PIn nw mx 0 /\
             hdl s' = true /\ wk s' = true.
Proof.
  intros c s nw mx t R D W (A1 & A2 & A3) C.
  pose proof (i_guard _ _ (reach_inv _ _ R)) as G. unfold receive_under_way in G. rewrite W in G.
  assert (V: valid c nw mx = true).
  { unfold valid. rewrite !andb_true_iff, negb_true_iff, Nat.eqb_neq, !Nat.leb_le. lia. }
  unfold step. rewrite D, W. unfold first_recv, begin_recv. rewrite V, C.
  destruct (guard s); [exfalso; tauto|]. rewrite andb_false_r. cbn. eauto.
Qed.

(** Cancelling works: the next poll of a waiting receive ends it, and the
    subscription can be used again. *)
Theorem C115_cancel_ends_receive : forall c s nw mx t iok, reach c s -> dead s = false ->
  work s = ARecv PWait nw mx t -> canc s = true ->
  exists s', step c s (LPollA iok) = Some (s', OErr ECancelled) /\ work s' = ANone /\
             guard s' = false /\ box s' = box s /\ fresh s' = fresh s.
Proof.
  intros c s nw mx t iok R D W C. unfold step. rewrite D, W. unfold begin_recv. rewrite C.
  eexists. split; [reflexivity|]. cbn. auto.
Qed.

(** Whenever no receive is under way the subscription is free: a receive that
    ended, was cancelled or whose future was dropped does not block later
    ones. *)
Theorem C115_subscription_free_after_receive : forall c s, reach c s ->
  (guard s = true <-> receive_under_way s).
Proof. intros c s R. exact (i_guard _ _ (reach_inv _ _ R)). Qed.

(** ** Waking *)

(** No sample is slept on: when a task waits and there are new samples, then it
    has been woken already or the notification of the provider is under way,
    and that notification wakes it. *)
Theorem C115_no_sleep_on_new_samples : forall c s, reach c s -> waiting s -> fresh s <> [] ->
  woken s = true \/ 0 < notes s.
Proof.
  intros c s R W F. pose proof (i_wake _ _ (reach_inv _ _ R)) as K. unfold waiting in W.
  destruct (work s) as [|[] ? ? ?|[]]; try contradiction; tauto.
Qed.

Theorem C115_notification_wakes : forall c s s' o, reach c s -> waiting s ->
  step c s LNotify = Some (s', o) -> woken s' = true /\ waiting s'.
Proof.
  intros c s s' o R W H. pose proof (i_wake _ _ (reach_inv _ _ R)) as K. unfold waiting in W.
  unfold step in H. destruct (dead s); [discriminate|]. destruct (notes s); [discriminate|].
  injection H; intros _ <-. unfold waiting; cbn.
  destruct (work s) as [|[] ? ? ?|[]]; try contradiction; destruct K as (-> & K & _); cbn;
    (destruct (wk s); [auto|]; destruct K as [K|K]; [discriminate|auto]).
Qed.

(** A poll that is woken gets the samples: with room in the subscription and
    in the container, a poll of a receive takes new samples and resolves as
    soon as there are enough. *)
Theorem C115_poll_makes_progress : forall c s nw mx tot, reach c s -> dead s = false ->
  work s = ARecv PIn nw mx tot -> mx <= ccap c -> nw - tot <= length (fresh s) ->
  nw - tot <= cap c - length (alive s) -> 
  exists s' n, step c s (LPollB true) = Some (s', OOk n).
Proof.
  intros c s nw mx tot R D W CC F H.
  assert (HA: length (alive s) = held s) by (unfold alive, held; rewrite !app_length; lia).
  pose proof (i_recv _ _ (reach_inv _ _ R)) as RV. rewrite W in RV. destruct RV as (V & TN & _).
  unfold valid in V. rewrite !andb_true_iff, negb_true_iff, Nat.eqb_neq, !Nat.leb_le in V.
  unfold step. rewrite D, W. unfold poll_recv, try_receive_samples, native.
  destruct (mx - tot =? 0) eqn:Z; [apply Nat.eqb_eq in Z; lia|].
  destruct (cap c <? mx - tot) eqn:Z2; [apply Nat.ltb_lt in Z2; lia|].
  destruct (Nat.min (mx - tot) (cap c - held s) =? 0) eqn:Z3; [apply Nat.eqb_eq in Z3; lia|].
  cbn [orb negb].
  destruct (push_all_ok (ccap c) (mx - tot) ltac:(lia) ltac:(lia)
     (lastn (Nat.min (mx - tot) (cap c - held s)) (fresh s)) (box s)) as [b ->].
  rewrite lastn_len.
  destruct (nw <=? tot + Nat.min (Nat.min (mx - tot) (cap c - held s)) (length (fresh s))) eqn:Q; [eauto|].
  apply Nat.leb_gt in Q. lia.
Qed.

(** ** Streams *)

(** A stream yields every sample the event delivered to it, in the order of
    publication; what it has not yielded yet is in its buffer. *)
Theorem C115_stream_yields_all_in_order : forall c s p, reach c s -> work s = AStream p ->
  rlog s = ylog s ++ sbox s /\ in_order (ylog s).
Proof.
  intros c s p R W. pose proof (reach_inv _ _ R) as IV.
  pose proof (i_str _ _ IV) as S. pose proof (i_ord _ _ IV) as O. rewrite W in S.
  assert (K: rlog s = ylog s ++ sbox s).
  { destruct p; [exact S| |]; destruct S as [-> ->]; now rewrite app_nil_r. }
  split; [exact K|]. rewrite K in O. apply ss_app_l in O. now apply ss_app_l in O.
Qed.

(** A poll of a stream hands out the oldest sample of its buffer without
    asking the event. *)
Theorem C115_stream_yields_buffer_first : forall c s p x r iok, reach c s -> dead s = false ->
  work s = AStream p -> sbox s = x :: r ->
  exists s', step c s (LPollA iok) = Some (s', OYield x) /\ sbox s' = r /\ In x (usr s') /\ fresh s' = fresh s.
Proof.
  intros c s p x r iok R D W B. pose proof (i_str _ _ (reach_inv _ _ R)) as S. rewrite W in S.
  unfold step. rewrite D, W. destruct p; try (destruct S; congruence).
  rewrite B. eexists. split; [reflexivity|]. cbn. auto.
Qed.

(** ** Panics and the end of the subscription *)

(** With a container of at least the subscribed size, the interface panics only
    for a [try_receive] while a receive is under way, and for a stream whose
    wake handler cannot be installed. *)
Theorem C115_orderly_use_never_panics : forall c s l s', reach c s -> cap c <= ccap c ->
  step c s l = Some (s', OPanic) ->
  (exists m nok, l = LTry m nok /\ receive_under_way s) \/ l = LStream false.
Proof.
  intros c s l s' R C H. pose proof (reach_inv _ _ R) as IV.
  pose proof (i_guard _ _ IV) as G.
  assert (TP: forall cc b m nok, cap c <= cc -> try_receive_samples c s cc b m nok <> TPanic).
  { intros cc b m nok CC. unfold try_receive_samples.
    destruct (m =? 0) eqn:Z; [discriminate|]. apply Nat.eqb_neq in Z.
    destruct (cap c <? m) eqn:Z2; [discriminate|]. apply Nat.ltb_ge in Z2.
    destruct (native c s m nok) as [got|]; [|discriminate].
    destruct (push_all_ok cc m ltac:(lia) ltac:(lia) got b) as [b' ->]. discriminate. }
  unfold step in H. destruct (dead s); [discriminate|].
  destruct l.
  - discriminate.
  - destruct (notes s); discriminate.
  - destruct (fresh s); discriminate.
  - left. exists m, nok. split; [reflexivity|]. apply G.
    destruct (work s); [| |discriminate]; destruct (guard s); auto; try discriminate.
    exfalso. specialize (TP (ccap c) (box s) m nok C).
    destruct (try_receive_samples c s (ccap c) (box s) m nok); congruence.
  - destruct (work s); discriminate.
  - destruct (work s); discriminate.
  - exfalso. unfold receive_under_way in G. destruct (work s) as [|[] nw mx t|[]] eqn:W; try discriminate.
    + injection H as H. unfold first_recv, begin_recv in H.
      destruct (negb (valid c nw mx)); [discriminate|]. destruct (guard s); [tauto|].
      destruct (negb (hdl s) && negb iok); [discriminate|]. destruct (canc s); discriminate.
    + injection H as H. unfold begin_recv in H. destruct (canc s); discriminate.
    + destruct (sbox s); discriminate.
    + destruct (sbox s); discriminate.
  - exfalso. unfold receive_under_way in G. destruct (work s) as [|[] nw mx t|[]] eqn:W; try discriminate.
    + injection H as H. unfold poll_recv in H. specialize (TP (ccap c) (box s) (mx - t) nok C).
      destruct (try_receive_samples c s (ccap c) (box s) (mx - t) nok); try congruence; try discriminate.
      destruct (nw <=? t + length got); discriminate.
    + injection H as H. unfold poll_stream in H. destruct (guard s); [tauto|].
      specialize (TP (cap c) (sbox s) (cap c) nok (le_n _)).
      destruct (try_receive_samples c s (cap c) (sbox s) (cap c) nok) as [| |got [|]]; try congruence; discriminate.
  - destruct (work s) as [|[] ? ? ?|[]]; discriminate.
  - right. unfold receive_under_way in G. destruct (work s) eqn:W; try discriminate.
    destruct (guard s) eqn:GG; [exfalso; tauto|].
    destruct (hdl s), iok; try discriminate; reflexivity.
  - destruct (work s), (box s); discriminate.
  - destruct (existsb (Nat.eqb x) (usr s)); discriminate.
  - exfalso. unfold receive_under_way in G. destruct (work s); try discriminate.
    destruct (guard s); [tauto|]. destruct (held s =? 0); discriminate.
Qed.

(** FALSE of the code: a receive into an empty container never panics.  The
    capacity of the container is not compared with [max_samples]; when more
    samples arrive than fit, the assertion on [push_back] fails (consumer.rs
    1235-1238), inside a callback from C++. *)
Theorem C115_small_container_never_panics_refuted :
  ~ (forall c s m s', reach c s -> box s = [] -> work s = ANone -> 1 <= ccap c ->
     step c s (LTry m true) <> Some (s', OPanic)).
Proof.
  intros H.
  pose (c := {| cap := 2; ccap := 1 |}).
  destruct (run c init OUnit [LSend; LSend]) as [[s o]|] eqn:E; [|vm_compute in E; discriminate].
  assert (R: reach c s) by (eapply run_reach; [apply r_init|exact E]).
  vm_compute in E. injection E; intros Eo Es; clear E.
  refine (H c s 2 (die s) R _ _ _ _).
  - rewrite <- Es; reflexivity.
  - rewrite <- Es; reflexivity.
  - cbn; lia.
  - rewrite <- Es. vm_compute. reflexivity.
Qed.

(** Ending the subscription is safe exactly when no sample is alive. *)
Theorem C115_unsubscribe_safe_iff_no_samples : forall c s s' o, reach c s ->
  step c s LUnsub = Some (s', o) -> (o = OUnit <-> alive s = []) /\ (o = OTerminate <-> alive s <> []).
Proof.
  intros c s s' o R H. pose proof (i_guard _ _ (reach_inv _ _ R)) as G. unfold receive_under_way in G.
  assert (HA: length (alive s) = held s) by (unfold alive, held; rewrite !app_length; lia).
  unfold step in H. destruct (dead s); [discriminate|]. destruct (work s); try discriminate.
  destruct (guard s); [exfalso; tauto|].
  destruct (held s =? 0) eqn:Z; injection H; intros <- _.
  - apply Nat.eqb_eq in Z. assert (N: alive s = []) by (apply length_zero_iff_nil; lia).
    rewrite N. split; split; auto; try discriminate; intros X; exfalso; auto.
  - apply Nat.eqb_neq in Z. assert (N: alive s <> []) by (intros N; rewrite N in HA; cbn in HA; lia).
    split; split; auto; try discriminate; intros X; exfalso; auto.
Qed.

(** After a panic, the termination of the process or the end of the
    subscription nothing more is received. *)
Theorem C115_nothing_after_the_end : forall c s l s' o l', step c s l = Some (s', o) ->
  o = OPanic \/ o = OTerminate \/ l = LUnsub -> step c s' l' = None.
Proof.
  intros c s l s' o l' H E. assert (D: dead s' = true); [|unfold step; now rewrite D].
  unfold step in H. destruct (dead s); [discriminate|].
  unfold first_recv, begin_recv, poll_recv, poll_stream, finish in H.
  destruct l; cbn in H;
    repeat match type of H with
           | context [match ?x with _ => _ end] => destruct x eqn:?; try discriminate
           end;
    injection H; intros; subst; try reflexivity; exfalso;
    destruct E as [E|[E|E]]; discriminate.
Qed.

(** FALSE of the code: samples cannot outlive the subscription (concept.rs
    932-933 and the comment at consumer.rs 602-624).  The sample type of the
    LoLa runtime ignores the lifetime of the borrow (consumer.rs 600), so with
    that concrete type nothing stops safe code from dropping the subscription
    while it keeps a sample.  The C++ side then terminates the process
    (proxy_event_base.cpp 145-150). *)
Theorem C115_samples_end_before_subscription_refuted :
  ~ (forall c s s', reach c s -> step c s LUnsub <> Some (s', OTerminate)).
Proof.
  intros H.
  pose (c := {| cap := 2; ccap := 2 |}).
  destruct (run c init OUnit [LSend; LTry 1 true; LPop]) as [[s o]|] eqn:E; [|vm_compute in E; discriminate].
  assert (R: reach c s) by (eapply run_reach; [apply r_init|exact E]).
  vm_compute in E. injection E; intros Eo Es; clear E.
  apply (H c s (die s) R). rewrite <- Es. vm_compute. reflexivity.
Qed.

(** ** The hypotheses are met *)

Definition demo := {| cap := 3; ccap := 3 |}.

(** A receive of two samples that waits, is woken and resolves. *)
Example C115_receive_runs :
  exists s, run demo init OUnit [LStart 2 3; LPollA true; LPollB true; LSend; LSend; LNotify;
                                 LPollA true; LPollB true] = Some (s, OOk 2) /\ box s = [0; 1] /\ rlog s = [0; 1].
Proof. eexists. split; [vm_compute; reflexivity|]. auto. Qed.

(** A task that waits with a new sample whose notification is under way. *)
Example C115_waiting_with_sample :
  exists s o, run demo init OUnit [LStart 2 3; LPollA true; LPollB true; LSend] = Some (s, o) /\
              waiting s /\ fresh s = [0] /\ woken s = false /\ notes s = 1.
Proof. do 2 eexists. split; [vm_compute; reflexivity|]. cbn. auto. Qed.

(** A stream with a filled buffer. *)
Example C115_stream_runs :
  exists s, run demo init OUnit [LStream true; LSend; LSend; LPollA true; LPollB true] = Some (s, OYield 0) /\
            sbox s = [1] /\ ylog s = [0] /\ work s = AStream PNew.
Proof. eexists. split; [vm_compute; reflexivity|]. cbn. auto. Qed.

(** A container whose oldest sample makes room for a new one. *)
Example C115_window_slides :
  exists s, run demo init OUnit [LSend; LSend; LTry 2 true; LSend; LTry 2 true] = Some (s, OOk 1) /\ box s = [1; 2].
Proof. eexists. split; [vm_compute; reflexivity|]. reflexivity. Qed.

(** A cancelled receive, after which the subscription is used again. *)
Example C115_cancel_runs :
  exists s, run demo init OUnit [LStart 2 3; LPollA true; LPollB true; LCancel; LPollA true; LSend; LTry 1 true]
            = Some (s, OOk 1).
Proof. eexists. vm_compute; reflexivity. Qed.

(** A consumer that holds all it may. *)
Example C115_full_runs :
  exists s, run demo init OUnit [LSend; LSend; LSend; LTry 3 true] = Some (s, OOk 3) /\ length (alive s) = cap demo.
Proof. eexists. split; [vm_compute; reflexivity|]. reflexivity. Qed.

(** A receive whose wake handler cannot be installed fails, and the next one
    tries again. *)
Example C115_handler_failure :
  exists s, run demo init OUnit [LStart 1 1; LPollA false] = Some (s, OErr EHandler) /\ guard s = false /\
  exists s', run demo s OUnit [LStart 1 1; LPollA true] = Some (s', OUnit) /\ hdl s' = true.
Proof. eexists. split; [vm_compute; reflexivity|]. split; [reflexivity|]. eexists. split; [vm_compute; reflexivity|reflexivity]. Qed.

(** Two samples in two polls: the first one is lost. *)
Example C115_two_batches :
  exists s, run demo init OUnit [LStart 2 2; LSend; LPollA true; LPollB true; LSend; LPollA true; LPollB true]
            = Some (s, OOk 2) /\ rlog s = [0; 1] /\ box s = [1].
Proof. eexists. split; [vm_compute; reflexivity|]. auto. Qed.

Print Assumptions C115_exact_receive_keeps_last_batch_only.
Print Assumptions C115_nothing_after_the_end.
Print Assumptions C115_held_within_subscription.
Print Assumptions C115_samples_once_and_in_order.
Print Assumptions C115_try_receive_result.
Print Assumptions C115_try_receive_progress.
Print Assumptions C115_full_holding_always_fails.
Print Assumptions C115_receive_resolves_with_counts.
Print Assumptions C115_receive_reported_samples_present_partial.
Print Assumptions C115_receive_reported_samples_present_refuted.
Print Assumptions C115_receive_of_published_samples_succeeds_refuted.
Print Assumptions C115_container_shortened_to_max_refuted.
Print Assumptions C115_full_container_slides_refuted.
Print Assumptions C115_cancelled_container_unchanged_refuted.
Print Assumptions C115_invalid_arguments_refused.
Print Assumptions C115_allowed_arguments_accepted.
Print Assumptions C115_cancel_ends_receive.
Print Assumptions C115_subscription_free_after_receive.
Print Assumptions C115_no_sleep_on_new_samples.
Print Assumptions C115_notification_wakes.
Print Assumptions C115_poll_makes_progress.
Print Assumptions C115_stream_yields_all_in_order.
Print Assumptions C115_stream_yields_buffer_first.
Print Assumptions C115_orderly_use_never_panics.
Print Assumptions C115_small_container_never_panics_refuted.
Print Assumptions C115_unsubscribe_safe_iff_no_samples.
Print Assumptions C115_samples_end_before_subscription_refuted.
