(** C16 and C58: counting samples in hand and running receive handlers from the history. *)
From Verif Require Import ProxyModel ProxySpec ProxyProofs ProxyProps.
Local Open Scope N_scope.

(** ** Specification *)
(** samples received and not yet released *)
Definition hold_step (n : N) (e : pop * pres) : N :=
  match e with
  | (OGet _ _, RSamples d) => n + d
  | (ORelease, ROk) => N.pred n
  | _ => n
  end.
Definition in_hand (h : hist) : N := fold_left hold_step h 0.
(** receive handlers called and not yet returned *)
Definition act_step (n : nat) (e : pop * pres) : nat :=
  match e with
  | (ONotify _, RCalled (Some _)) => S n
  | (OFinish, ROk) => Nat.pred n
  | _ => n
  end.
Definition active (h : hist) : nat := fold_left act_step h O.
(** the number given to the last successful Subscribe *)
Definition grant_step (n : N) (e : pop * pres) : N :=
  match e with (OSubscribe m _, ROk) => m | _ => n end.
Definition granted (h : hist) : N := fold_left grant_step h 0.

Section Props.
Variable pid0 : N.
Notation after os := (prun (pinit pid0) os).

Definition K3 (s : pst) (n : N) (a : nat) (g : N) : Prop :=
  tused s = n /\ running s = a /\ (pstate s <> SNot -> pmax s = g).

Lemma run_used s h : running (sm_set s h) = running s /\ tused (sm_set s h) = tused s /\ pmax (sm_set s h) = pmax s /\ pstate (sm_set s h) = pstate s.
Proof. unfold sm_set. destruct (pstate s) eqn:E; cbn; auto. Qed.

Lemma K3_step s v n a g o s' x :
  J s v -> K3 s n a g -> pstep s o = (s', x) -> dead s' = false ->
  K3 s' (hold_step n (o, x)) (act_step a (o, x)) (grant_step g (o, x)).
Proof.
  intros HJ (K1 & K2 & K3') E D. pose proof (j_nused _ _ HJ) as NU. pose proof (j_dead _ _ HJ) as D0. clear HJ.
  unfold K3. unfold pstep in E. rewrite D0 in E. destruct s as [st mx av sp pe re cu sc nn fl tm tu ru de].
  cbn in K1, K2, K3', NU, D0. subst tu ru de.
  destruct o as [k e|c| |c| |pid|k d| |pid|]; cbn [pstate flag cur running tmax tused reg scope pmax] in E.
  - destruct st.
    + rewrite (NU eq_refl). destruct (255 <? k); [injection E as <- <-; discriminate D|].
      destruct e; [|injection E as <- <-; cbn; auto; repeat split; congruence ..].
      destruct (k =? 0); [injection E as <- <-; discriminate D|]. injection E as <- <-.
      unfold sm_subscribed. destruct pe, av; cbn; auto.
    + destruct (k =? mx) eqn:Q; injection E as <- <-; cbn; repeat split; auto. intros _. apply N.eqb_eq in Q. auto.
    + destruct (k =? mx) eqn:Q; injection E as <- <-; cbn; repeat split; auto. intros _. apply N.eqb_eq in Q. auto.
  - destruct (negb (possible _ c)); [injection E as <- <-; cbn; auto|].
    destruct fl; cbn [negb] in E; [|injection E as <- <-; cbn; auto].
    destruct st; [injection E as <- <-; cbn; auto| |].
    all: destruct c; cbn in E; [destruct a; [|injection E as <- <-; cbn; auto]| |].
    all: destruct (0 <? n); injection E as <- <-; [discriminate D|]; cbn; repeat split; congruence.
  - destruct a; [|injection E as <- <-; cbn; auto]. injection E as <- <-. unfold sm_set. destruct st; cbn; auto.
  - destruct (negb (possible _ c)); [injection E as <- <-; cbn; auto|].
    destruct cu; [|injection E as <- <-; cbn; auto].
    destruct c; cbn in E; [destruct a; [|injection E as <- <-; cbn; auto]| |].
    all: injection E as <- <-; unfold sm_unset; destruct st; cbn; auto.
  - unfold sm_stop in E. destruct st; cbn in E; injection E as <- <-; try discriminate D; cbn; repeat split; auto.
    intros _. apply K3'. discriminate.
  - injection E as <- <-. unfold sm_reoffer. destruct st; cbn; auto. unfold mgr_reregister.
    destruct pe; cbn; [repeat split; auto; intros _; apply K3'; discriminate|].
    destruct re as [[? ?]|]; cbn; repeat split; auto; intros _; apply K3'; discriminate.
  - destruct (N.min k (tm - n) =? 0); [injection E as <- <-; cbn; auto|].
    destruct st; injection E as <- <-; cbn; auto.
  - injection E as <- <-. cbn. repeat split; auto. rewrite N.sub_1_r. reflexivity.
  - destruct re as [[h q]|]; [|injection E as <- <-; cbn; auto].
    destruct cu as [h'|]; [|injection E as <- <-; cbn; auto].
    destruct sc as [h''|]; [|injection E as <- <-; cbn; auto].
    destruct ((q =? pid) && (h =? h')%nat && (h =? h'')%nat)%bool; injection E as <- <-; cbn; auto.
  - injection E as <- <-. cbn. repeat split; auto. rewrite Nat.sub_1_r. reflexivity.
Qed.

Lemma K3_run os : forall s v n a g s' h, J s v -> K3 s n a g -> prun s os = (s', h) -> dead s' = false ->
  K3 s' (fold_left hold_step h n) (fold_left act_step h a) (fold_left grant_step h g).
Proof.
  induction os as [|o os IH]; intros s v n a g s' h HJ HK E D; cbn in E.
  - injection E as <- <-. exact HK.
  - destruct (pstep s o) as [s1 x] eqn:E1. destruct (prun s1 os) as [s2 h2] eqn:E2. injection E as <- <-.
    assert (D1 : dead s1 = false).
    { destruct (dead s1) eqn:D1; [|reflexivity]. pose proof (dead_run os _ D1) as X. rewrite E2 in X. cbn in X. congruence. }
    cbn [fold_left]. eapply IH; [eapply J_step; eauto|eapply K3_step; eauto|exact E2|exact D].
Qed.

Lemma K3_reach os s h : after os = (s, h) -> dead s = false -> K3 s (in_hand h) (active h) (granted h).
Proof. intros E D. eapply K3_run; [apply J_init| |exact E|exact D]. repeat split; cbn; congruence. Qed.

(** The samples in hand never exceed the number given to Subscribe, and GetNewSamples
    delivers as many as requested, available (k) and still allowed by that number. *)
Theorem C16_samples_in_hand os s h n k :
  after os = (s, h) -> dead s = false -> v_sub (look pid0 h) = true ->
  in_hand h <= granted h /\
  (let room := granted h - in_hand h in
   snd (pstep s (OGet n k)) = if N.min n room =? 0 then RErr EMaxSamplesReached else RSamples (N.min k (N.min n room))).
Proof.
  intros E D V. destruct (K3_reach _ _ _ E D) as (A & B & C). pose proof (J_reach _ _ _ _ E D) as HJ.
  pose proof (j_state _ _ HJ) as ST. unfold documented in ST. rewrite V in ST.
  assert (NS : pstate s <> SNot) by (destruct (v_avail _); congruence). rewrite <- (C NS), <- A.
  destruct (j_max _ _ HJ NS) as [M1 M2]. pose proof (j_used _ _ HJ) as U. rewrite M2 in U. split; [exact U|].
  cbv zeta. unfold pstep. rewrite D, M2.
  destruct (N.min n (pmax s - tused s) =? 0); [reflexivity|]. destruct (pstate s); [congruence| |]; reflexivity.
Qed.

(** Without a subscription nothing is delivered and nothing is in hand. *)
Theorem C16_nothing_without_subscription os s h n k :
  after os = (s, h) -> dead s = false -> v_sub (look pid0 h) = false ->
  in_hand h = 0 /\
  (snd (pstep s (OGet n k)) = RErr ENotSubscribed \/ snd (pstep s (OGet n k)) = RErr EMaxSamplesReached).
Proof.
  intros E D V. destruct (K3_reach _ _ _ E D) as (A & B & C). pose proof (J_reach _ _ _ _ E D) as HJ.
  pose proof (j_state _ _ HJ) as ST. unfold documented in ST. rewrite V in ST.
  rewrite <- A. split; [apply (j_nused _ _ HJ ST)|].
  unfold pstep. rewrite D. destruct (_ =? 0); [right; reflexivity|]. rewrite ST. left. reflexivity.
Qed.

(** Unsubscribe called from outside a receive handler: when it has returned, no call of the
    handler is active, and none becomes active before the next SetReceiveHandler. *)
Theorem C58_no_active_handler_after_unsubscribe os s h s' os2 s2 h2 :
  after os = (s, h) -> v_sub (look pid0 h) = true ->
  pstep s (OUnsubscribe Outside) = (s', ROk) ->
  ~ In OSet os2 -> prun s' os2 = (s2, h2) -> dead s2 = false -> active (h ++ (OUnsubscribe Outside, ROk) :: h2) = O.
Proof.
  intros E V H HN R D2. pose proof (C58_unsubscribe_waits_for_handler_partial pid0 _ _ _ _ _ _ _ E V H HN R) as Z.
  assert (X : after (os ++ OUnsubscribe Outside :: os2) = (s2, h ++ (OUnsubscribe Outside, ROk) :: h2)).
  { clear - E H R. revert h E. generalize (pinit pid0). induction os as [|o os IH]; intros i h E; cbn in *.
    - injection E as <- <-. rewrite H, R. reflexivity.
    - destruct (pstep i o) as [s1 x]. destruct (prun s1 os) as [s3 h3] eqn:E3. injection E as <- <-.
      rewrite (IH _ _ E3). reflexivity. }
  destruct (K3_reach _ _ _ X D2) as (_ & B & _). congruence.
Qed.

(** It waits: while a call of the handler is active, Unsubscribe from outside does not return. *)
Theorem C58_unsubscribe_blocks_while_handler_active os s h :
  after os = (s, h) -> dead s = false -> v_sub (look pid0 h) = true -> active h <> O ->
  pstep s (OUnsubscribe Outside) = (s, RBlocked).
Proof.
  intros E D V AC. destruct (K3_reach _ _ _ E D) as (A & B & C). pose proof (J_reach _ _ _ _ E D) as HJ.
  pose proof (j_state _ _ HJ) as ST. pose proof (j_flag _ _ HJ) as FL. unfold documented in ST. rewrite V in ST, FL.
  unfold pstep. rewrite D, FL. cbn [possible negb]. rewrite <- B in AC.
  destruct (v_avail _); rewrite ST; cbn [expire]; destruct (running s); congruence.
Qed.
End Props.

(** ** Non-vacuity *)
Example ex_in_hand : exists s h,
  prun (pinit 1) [OSubscribe 3 EOk; OGet 2 5; ORelease; OSet; ONotify 1; ONotify 1; OFinish] = (s, h) /\
  dead s = false /\ v_sub (look 1 h) = true /\ in_hand h = 1 /\ granted h = 3 /\ active h = 1%nat /\
  snd (pstep s (OGet 9 9)) = RSamples 2.
Proof. eexists _, _. split; [vm_compute; reflexivity|]. vm_compute. repeat split. Qed.

Print Assumptions C16_samples_in_hand.
Print Assumptions C16_nothing_without_subscription.
Print Assumptions C58_no_active_handler_after_unsubscribe.
Print Assumptions C58_unsubscribe_blocks_while_handler_active.
