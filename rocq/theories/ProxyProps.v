(** C16, C17, C18 and C58: one event of a proxy as the user sees it. *)
From Verif Require Import ProxyModel ProxySpec ProxyProofs.
Local Open Scope N_scope.

Section Props.
Variable pid0 : N.
Notation after os := (prun (pinit pid0) os).

(** C16: the reported state is the documented function of the history. *)
Theorem C16_state_is_documented os s h :
  after os = (s, h) -> dead s = false -> pstate s = documented (look pid0 h).
Proof. intros E D. apply (j_state _ _ (J_reach _ _ _ _ E D)). Qed.

(** C16: samples are delivered only while subscribed (or pending), never more than
    requested and never more than the number given to Subscribe. *)
Theorem C16_samples_only_while_subscribed os s h n k s' d :
  after os = (s, h) -> pstep s (OGet n k) = (s', RSamples d) ->
  v_sub (look pid0 h) = true /\ d <= n /\ d <= k /\ tused s + d <= pmax s.
Proof.
  intros E H. assert (D : dead s = false).
  { destruct (dead s) eqn:D; [|reflexivity]. rewrite dead_step in H by exact D. discriminate. }
  pose proof (J_reach _ _ _ _ E D) as HJ. unfold pstep in H. rewrite D in H.
  destruct (N.min n (tmax s - tused s) =? 0) eqn:G; [discriminate|].
  pose proof (j_used _ _ HJ) as U. pose proof (j_max _ _ HJ) as M. rewrite <- (j_flag _ _ HJ).
  pose proof (j_state _ _ HJ) as ST. pose proof (j_flag _ _ HJ) as FL. unfold documented in ST.
  destruct (pstate s); [discriminate| |]; injection H as <- <-; destruct M as [_ M]; try discriminate; destruct (v_sub (look pid0 h));
    try discriminate; repeat split; auto; lia.
Qed.

(** C16: a subscription survives the provider going away and coming back (possibly as a new
    process): same number of samples, the samples held stay accounted, and the receive
    handler in effect is called by notifications of the new provider process. *)
Theorem C16_survives_provider_restart os s h pid s' h' :
  after os = (s, h) -> dead s = false -> pstate s = SSub ->
  prun s [OStop; OReoffer pid] = (s', h') ->
  dead s' = false /\ pstate s' = SSub /\ pmax s' = pmax s /\ tused s' = tused s /\ tmax s' = tmax s /\
  (forall f, v_handler (look pid0 h) = Some f -> snd (pstep s' (ONotify pid)) = RCalled (Some f)).
Proof.
  intros E D S R. pose proof (J_reach _ _ _ _ E D) as HJ.
  pose proof (j_handler _ _ HJ) as HH. pose proof (j_subpend _ _ HJ S) as HP. clear HJ.
  destruct s as [st mx av sp pe re cu sc n fl tm tu ru de]. cbn in D, S, HH, HP. subst de st pe.
  cbn [prun] in R. revert R. unfold pstep. ev. destruct re as [[f q]|]; intros R; injection R as <- <-.
  all: cbn; (split; [reflexivity|]; split; [reflexivity|]; split; [reflexivity|]; split; [reflexivity|]; split; [reflexivity|]).
  - intros g Hg. destruct (HH g Hg) as (-> & -> & [X|[r X]]); [discriminate|]. injection X as -> ->.
    cbn. rewrite N.eqb_refl, Nat.eqb_refl. reflexivity.
  - intros g Hg. destruct (HH g Hg) as (_ & _ & [X|[r X]]); discriminate.
Qed.

(** C16: complete list of the ways a call terminates the process. *)
Theorem C16_termination os s h o s' x :
  after os = (s, h) -> dead s = false -> pstep s o = (s', x) ->
  (dead s' = true <->
   (exists n e, o = OSubscribe n e /\ v_sub (look pid0 h) = false /\ (255 < n \/ (e = EOk /\ n = 0))) \/
   (o = OStop /\ v_sub (look pid0 h) = true /\ v_avail (look pid0 h) = false) \/
   (exists c, o = OUnsubscribe c /\ v_sub (look pid0 h) = true /\ 0 < tused s /\ x = RTerm)).
Proof.
  intros E D H. pose proof (J_reach _ _ _ _ E D) as HJ. pose proof (j_state _ _ HJ) as ST. pose proof (j_flag _ _ HJ) as FL.
  pose proof (j_avail _ _ HJ) as AV. clear HJ E. unfold documented in ST. unfold pstep in H. rewrite D in H.
  destruct (look pid0 h) as [vs va vp vh vn]. cbn in *.
  assert (NO : forall P : Prop, ~ P -> forall s0 : pst, dead s0 = false -> (dead s0 = true <-> P)).
  { intros P HP s0 H0. rewrite H0. split; [discriminate|intros; contradiction]. }
  destruct o as [k e|c| |c| |pid|k d| |pid|].
  - destruct vs.
    + assert (dead s' = false) by (destruct va; rewrite ST in H; destruct (k =? pmax s); injection H as <- <-; exact D).
      apply NO; [|assumption]. intros [(n & e' & _ & X & _)|[(X & _)|(c & X & _)]]; discriminate.
    + rewrite ST in H. destruct (255 <? k) eqn:K.
      * apply N.ltb_lt in K. injection H as <- <-. cbn. split; [|reflexivity]. intros _. left. exists k, e. auto.
      * apply N.ltb_ge in K. destruct e.
        -- destruct (k =? 0) eqn:K0; injection H as <- <-.
           ++ apply N.eqb_eq in K0. cbn. split; [|reflexivity]. intros _. left. exists k, EOk. auto.
           ++ apply N.eqb_neq in K0. apply NO.
              ** intros [(n & e' & X & _ & Y)|[(X & _)|(c & X & _)]]; try discriminate. injection X as <- <-. lia.
              ** cbn. unfold sm_subscribed. cbn [pend avail p_track]. destruct (pend s), (avail s); exact D.
        -- injection H as <- <-. apply NO; [|exact D]. intros [(n & e' & X & _ & Y)|[(X & _)|(c & X & _)]]; try discriminate.
           injection X as <- <-. destruct Y as [Y|[Y _]]; [lia|discriminate].
        -- injection H as <- <-. apply NO; [|exact D]. intros [(n & e' & X & _ & Y)|[(X & _)|(c & X & _)]]; try discriminate.
           injection X as <- <-. destruct Y as [Y|[Y _]]; [lia|discriminate].
  - destruct (negb (possible s c)); [injection H as <- <-; apply NO; [|exact D];
      intros [(n & e' & X & _)|[(X & _)|(c' & _ & _ & _ & X)]]; discriminate|].
    rewrite FL in H. destruct vs; cbn [negb] in H.
    + destruct (expire s c) as [s1|] eqn:EX.
      2: { assert (s' = s /\ x = RBlocked) as [-> ->] by (destruct va; rewrite ST in H; injection H as <- <-; auto).
           apply NO; [|exact D]. intros [(n & e' & X & _)|[(X & _)|(c' & _ & _ & _ & X)]]; discriminate. }
      assert (D1 : dead (p_flag (sm_unsubscribe s1) false) = false).
      { assert (dead s1 = false) by (destruct c; cbn in EX; [destruct (running s); [|discriminate]| |]; injection EX as <-; exact D).
        unfold sm_unsubscribe. destruct (pstate s1); exact H0. }
      assert (H2 : (if 0 <? tused s then (p_dead (p_flag (sm_unsubscribe s1) false), RTerm) else (p_flag (sm_unsubscribe s1) false, ROk)) = (s', x))
        by (destruct va; rewrite ST in H; exact H).
      destruct (0 <? tused s) eqn:T; injection H2 as <- <-.
      * apply N.ltb_lt in T. split; [|reflexivity]. intros _. right; right. exists c. auto.
      * apply NO; [|exact D1]. intros [(n & e' & X & _)|[(X & _)|(c' & _ & _ & _ & X)]]; discriminate.
    + injection H as <- <-. apply NO; [|exact D]. intros [(n & e' & X & _)|[(X & _)|(c' & _ & X & _)]]; discriminate.
  - apply NO; [intros [(n & e' & X & _)|[(X & _)|(c' & X & _)]]; discriminate|].
    destruct (running s); injection H as <- <-; [|exact D]. unfold sm_set. cbn. destruct (pstate s); exact D.
  - apply NO; [intros [(n & e' & X & _)|[(X & _)|(c' & X & _)]]; discriminate|].
    destruct (negb (possible s c)); [injection H as <- <-; exact D|]. destruct (cur s); [|injection H as <- <-; exact D].
    destruct (expire s c) as [s1|] eqn:EX; injection H as <- <-; [|exact D].
    assert (dead s1 = false) by (destruct c; cbn in EX; [destruct (running s); [|discriminate]| |]; injection EX as <-; exact D).
    unfold sm_unset. cbn. destruct (pstate s1); exact H.
  - unfold sm_stop in H. destruct vs.
    + destruct va; rewrite ST in H; injection H as <- <-.
      * apply NO; [|exact D]. intros [(n & e' & X & _)|[(_ & _ & X)|(c' & X & _)]]; discriminate.
      * split; [|reflexivity]. auto.
    + rewrite ST in H. injection H as <- <-. apply NO; [|exact D].
      intros [(n & e' & X & _)|[(_ & X & _)|(c' & X & _)]]; discriminate.
  - apply NO; [intros [(n & e' & X & _)|[(X & _)|(c' & X & _)]]; discriminate|].
    injection H as <- <-. unfold sm_reoffer, mgr_reregister. destruct (pstate s); cbn; try exact D.
    destruct (pend s); cbn; [exact D|]. destruct (reg s) as [[? ?]|]; exact D.
  - apply NO; [intros [(n & e' & X & _)|[(X & _)|(c' & X & _)]]; discriminate|].
    destruct (N.min k (tmax s - tused s) =? 0); [injection H as <- <-; exact D|].
    destruct (pstate s); injection H as <- <-; exact D.
  - apply NO; [intros [(n & e' & X & _)|[(X & _)|(c' & X & _)]]; discriminate|]. injection H as <- <-. exact D.
  - apply NO; [intros [(n & e' & X & _)|[(X & _)|(c' & X & _)]]; discriminate|].
    destruct (reg s) as [[h1 q]|], (cur s) as [h'|], (scope s) as [h''|]; try (injection H as <- <-; exact D).
    destruct ((q =? pid) && (h1 =? h')%nat && (h1 =? h'')%nat); injection H as <- <-; exact D.
  - apply NO; [intros [(n & e' & X & _)|[(X & _)|(c' & X & _)]]; discriminate|]. injection H as <- <-. exact D.
Qed.

(** C18: Subscribe(n) with 1 <= n <= 255 returns (success or error), in every state. *)
Theorem C18_subscribe_returns_partial os s h n e :
  after os = (s, h) -> dead s = false -> 1 <= n <= 255 ->
  exists r, snd (pstep s (OSubscribe n e)) = r /\ (r = ROk \/ exists er, r = RErr er) /\
            dead (fst (pstep s (OSubscribe n e))) = false.
Proof.
  intros E D Hn. destruct (pstep s (OSubscribe n e)) as [s' x] eqn:H. exists x. split; [reflexivity|].
  split.
  - unfold pstep in H. rewrite D in H. destruct (pstate s);
    repeat match type of H with
    | context [if ?c then _ else _] => destruct c eqn:?
    | context [match e with _ => _ end] => destruct e
    end; injection H as <- <-; eauto; exfalso; lia.
  - cbn. destruct (dead s') eqn:D'; [|reflexivity]. exfalso.
    apply (C16_termination os s h _ _ _ E D H) in D'.
    destruct D' as [(n' & e' & X & _ & Y)|[(X & _)|(c & X & _)]]; try discriminate. injection X as <- <-. lia.
Qed.

(** C17: a notification only ever calls the receive handler in effect: a removed (or
    replaced) one is never called again. *)
Theorem C17_only_handler_in_effect_is_called_partial os s h pid s' f :
  no_foreign_unsubscribe os -> after os = (s, h) -> pstep s (ONotify pid) = (s', RCalled (Some f)) ->
  v_handler (look pid0 h) = Some f.
Proof.
  intros HN E H. assert (D : dead s = false).
  { destruct (dead s) eqn:D; [|reflexivity]. rewrite dead_step in H by exact D. discriminate. }
  destruct (K_run os _ _ _ _ (J_init pid0) (K_init pid0) HN E D) as [K1 K2].
  change (fold_left view_step h _) with (look pid0 h) in K1, K2.
  unfold pstep in H. rewrite D in H.
  destruct (reg s) as [[a q]|] eqn:R; [|discriminate]. destruct (cur s) as [b|] eqn:C; [|discriminate].
  destruct (scope s) as [c|] eqn:S; [|discriminate].
  destruct ((q =? pid) && (a =? b)%nat && (a =? c)%nat) eqn:G; [|discriminate].
  injection H as <- <-. apply andb_prop in G. destruct G as [G _]. apply andb_prop in G. destruct G as [_ G].
  apply Nat.eqb_eq in G. subst b.
  destruct (v_handler (look pid0 h)) as [g|].
  - specialize (K1 g eq_refl). congruence.
  - destruct (K2 eq_refl) as [X|[X|[_ X]]]; congruence.
Qed.

(** C17: the handler in effect is called by every notification of the current provider while
    subscribed. *)
Theorem C17_handler_in_effect_is_called os s h f :
  after os = (s, h) -> dead s = false -> orderly (mkV false true pid0 None 0) h ->
  v_sub (look pid0 h) = true -> v_avail (look pid0 h) = true -> v_handler (look pid0 h) = Some f ->
  snd (pstep s (ONotify (v_pid (look pid0 h)))) = RCalled (Some f).
Proof.
  intros E D HO HS HA HH. pose proof (J_reach _ _ _ _ E D) as HJ.
  pose proof (spid_run os _ _ _ _ (J_init pid0) eq_refl HO E D) as SP. change (fold_left view_step h _) with (look pid0 h) in SP.
  pose proof (j_state _ _ HJ) as ST. unfold documented in ST. rewrite HS, HA in ST.
  destruct (j_handler _ _ HJ f HH) as (C & S & X). rewrite (j_subpend _ _ HJ ST) in X.
  destruct X as [X|[q X]]; [discriminate|]. pose proof (j_regpid _ _ HJ ST f q X) as Q.
  unfold pstep. rewrite D, X, C, S, Q, SP, N.eqb_refl, Nat.eqb_refl. reflexivity.
Qed.

(** C58: when Unsubscribe, called outside of receive handlers, has ended the subscription,
    no receive handler of the event runs, and none is started before a new one is set. *)
Lemma quiet_run os : forall s s' h,
  scope s = None -> running s = O -> ~ In OSet os -> prun s os = (s', h) ->
  running s' = O /\ scope s' = None.
Proof.
  induction os as [|o os IH]; intros s s' h S R HN E; cbn [prun] in E.
  - injection E as <- <-. auto.
  - destruct (pstep s o) as [s1 x] eqn:E1. destruct (prun s1 os) as [s2 h2] eqn:E2. injection E as <- <-.
    assert (N1 : ~ In OSet os) by (intros X; apply HN; right; exact X).
    assert (N2 : o <> OSet) by (intros ->; apply HN; left; reflexivity).
    assert (X : scope s1 = None /\ running s1 = O).
    { clear IH E2 N1 HN. unfold pstep in E1. destruct (dead s); [injection E1 as <- <-; auto|].
      destruct s as [st mx av sp pe re cu sc n fl tm tu ru de]. cbn in S, R. subst sc ru.
      destruct o as [k e|c| |c| |pid|k d| |pid|]; cbn [pstate flag cur running tmax tused reg scope pmax] in E1.
      - destruct st; repeat match type of E1 with
          | context [if ?c then _ else _] => destruct c
          | context [match e with _ => _ end] => destruct e
          end; injection E1 as <- <-; cbn; auto; ev; destruct pe, av; auto.
      - destruct c, fl, st; cbn in E1; repeat match type of E1 with context [if ?c then _ else _] => destruct c end; injection E1 as <- <-; auto.
      - congruence.
      - destruct c, cu, st; cbn in E1; injection E1 as <- <-; auto.
      - destruct st; cbn in E1; injection E1 as <- <-; auto.
      - injection E1 as <- <-. ev. destruct st, pe, re as [[? ?]|]; auto.
      - destruct (N.min k (tm - tu) =? 0); [injection E1 as <- <-; auto|]. destruct st; injection E1 as <- <-; auto.
      - injection E1 as <- <-; auto.
      - destruct re as [[? ?]|], cu; injection E1 as <- <-; auto.
      - injection E1 as <- <-; auto. }
    destruct X as [X Y]. eapply IH; eauto.
Qed.

Theorem C58_unsubscribe_waits_for_handler_partial os s h s' os2 s2 h2 :
  after os = (s, h) -> v_sub (look pid0 h) = true ->
  pstep s (OUnsubscribe Outside) = (s', ROk) ->
  ~ In OSet os2 -> prun s' os2 = (s2, h2) -> running s2 = O.
Proof.
  intros E V H HN R.
  assert (D : dead s = false).
  { destruct (dead s) eqn:D; [|reflexivity]. rewrite dead_step in H by exact D. discriminate. }
  pose proof (J_reach _ _ _ _ E D) as HJ. pose proof (j_flag _ _ HJ) as FL. pose proof (j_state _ _ HJ) as ST.
  unfold documented in ST. rewrite V in FL, ST. clear HJ E.
  unfold pstep in H. rewrite D, FL in H. cbn [possible negb] in H.
  assert (X : exists s1, expire s Outside = Some s1 /\ s' = p_flag (sm_unsubscribe s1) false).
  { destruct (expire s Outside) as [s1|]; [|destruct (v_avail (look pid0 h)); rewrite ST in H; discriminate].
    exists s1. split; [reflexivity|]. destruct (v_avail (look pid0 h)); rewrite ST in H; destruct (0 <? tused s); inversion H; reflexivity. }
  destruct X as (s1 & X & ->). cbn in X. destruct (running s) eqn:RU; [|discriminate]. injection X as <-.
  apply (quiet_run os2 _ s2 h2) in R; [apply R| | |exact HN].
  - unfold sm_unsubscribe. cbn. destruct (pstate s); [destruct (v_avail (look pid0 h)); discriminate|reflexivity|reflexivity].
  - unfold sm_unsubscribe. cbn. destruct (pstate s); exact RU.
Qed.
End Props.

(** * Refutations *)
(** C17: UnsetReceiveHandler while the provider is away leaves the registration in
    place; when the provider comes back the registration is renewed with the new process. *)
Theorem C17_registration_stays_refuted :
  exists os s h, prun (pinit 1) os = (s, h) /\ dead s = false /\
    no_foreign_unsubscribe os /\ v_handler (look 1 h) = None /\ reg s = Some (0%nat, 2).
Proof.
  exists [OSubscribe 2 EOk; OSet; OStop; OUnset Outside; OReoffer 2]. eexists _, _.
  split; [vm_compute; reflexivity|]. vm_compute. repeat split.
  intros H. decompose [or] H; try discriminate; contradiction.
Qed.

(** C17: Unsubscribe called from the receive handler of another event does not remove a
    handler that was set while the provider was away: it is called after the next Subscribe. *)
Theorem C17_foreign_unsubscribe_refuted :
  exists os s h f, prun (pinit 1) os = (s, h) /\ v_handler (look 1 h) = None /\
    snd (pstep s (ONotify 2)) = RCalled (Some f).
Proof.
  exists [OSubscribe 2 EOk; OStop; OSet; OUnsubscribe InOther; OReoffer 2; OSubscribe 2 EOk]. eexists _, _, 0%nat.
  split; [vm_compute; reflexivity|]. vm_compute. auto.
Qed.

(** C58: Unsubscribe called from the receive handler of another event returns while the
    handler of this event is running. *)
Theorem C58_foreign_unsubscribe_refuted :
  exists os s h s', prun (pinit 1) os = (s, h) /\ v_sub (look 1 h) = true /\
    pstep s (OUnsubscribe InOther) = (s', ROk) /\ running s' = 1%nat.
Proof.
  exists [OSubscribe 2 EOk; OSet; ONotify 1]. eexists _, _, _.
  split; [vm_compute; reflexivity|]. vm_compute. auto.
Qed.

(** C18: Subscribe(0) is accepted by the interface and terminates the process. *)
Theorem C18_subscribe_zero_refuted :
  exists s, pstep (pinit 1) (OSubscribe 0 EOk) = (s, RTerm) /\ dead s = true.
Proof. eexists. vm_compute. split; reflexivity. Qed.

(** * Non-vacuity *)
Example life :
  exists s h, prun (pinit 1) [OSet; OSubscribe 3 EOk; ONotify 1; OGet 2 5; OFinish; OStop; OGet 1 0; OReoffer 4; ONotify 4; OFinish; ORelease; ORelease; OUnsubscribe Outside; ONotify 4] = (s, h) /\
    dead s = false /\ map snd h = [ROk; ROk; RCalled (Some 0%nat); RSamples 2; ROk; ROk; RSamples 0; ROk; RCalled (Some 0%nat); ROk; ROk; ROk; ROk; RCalled None].
Proof. eexists _, _. split; [vm_compute; reflexivity|]. vm_compute. auto. Qed.
Example in_effect :
  exists s h, prun (pinit 1) [OStop; OSubscribe 3 EOk; OSet; OReoffer 4] = (s, h) /\ orderly (mkV false true 1 None 0) h /\
    v_sub (look 1 h) = true /\ v_avail (look 1 h) = true /\ v_handler (look 1 h) = Some 0%nat.
Proof. eexists _, _. split; [vm_compute; reflexivity|]. vm_compute. repeat split; discriminate. Qed.

Print Assumptions C16_state_is_documented.
Print Assumptions C16_samples_only_while_subscribed.
Print Assumptions C16_survives_provider_restart.
Print Assumptions C16_termination.
Print Assumptions C17_only_handler_in_effect_is_called_partial.
Print Assumptions C17_handler_in_effect_is_called.
Print Assumptions C18_subscribe_returns_partial.
Print Assumptions C58_unsubscribe_waits_for_handler_partial.
