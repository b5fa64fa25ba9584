(** C112: the front end of service discovery. *)
From Verif Require Import Base FrontModel FrontSpec FrontProof FrontInv FrontLife.

(** ** Deadlocks *)
(** No circle of waiting threads as long as nothing that StopFindService destroys calls service discovery. *)
Theorem C112_progress_partial s t t' : reach quiet_destruction s -> waits_for s t t' ->
  exists t'', waits_chain s t t'' /\ (forall x, ~ waits_for s t'' x) /\ can_go_on s t''.
Proof.
  intros R W. pose proof (reach_inv _ _ R) as I. pose proof (reach_calm _ R) as C.
  assert (G : forall x, owner s Cont = Some x -> (forall y, ~ waits_for s x y) /\ can_go_on s x).
  { intros x O. split; [|apply not_waiting; auto]; intros y; eapply owner_cont_runs; eauto. }
  assert (D : (exists y, waits_for s t' y) \/ (forall y, ~ waits_for s t' y)).
  { destruct (wants s t') as [m|] eqn:E; [|right; intros y (_ & m & Z & _); congruence].
    destruct (owner s m) as [o|] eqn:O; [|right; intros y (_ & m' & Z & Z'); congruence].
    destruct (Nat.eq_dec t' o) as [->|N]; [right; intros y (Q & m' & Z & Z'); congruence|left]. exists o. split; eauto. }
  destruct D as [[y Y]|D]; [|exists t'; split; [now constructor|split; auto; apply not_waiting; auto]].
  destruct W as (N & m & A & B). destruct m; [destruct (G t' B) as [Z _]; now destruct (Z y)|].
  destruct Y as (N' & m' & A' & B'). destruct m'.
  - exists y. split; [|apply G; auto]. eapply wc_more; [split; eauto|]. constructor. split; eauto.
  - congruence.
Qed.

Lemma chain_split s a c : waits_chain s a c -> exists b, waits_for s a b /\ (b = c \/ waits_chain s b c).
Proof. intros [x y H|x y z H H']; exists y; auto. Qed.
Lemma waits_fun s a b c : waits_for s a b -> waits_for s a c -> b = c.
Proof. intros (_ & m & A & B) (_ & m' & A' & B'). congruence. Qed.

Theorem C112_no_deadlock_partial s : reach quiet_destruction s -> ~ deadlock s.
Proof.
  intros R [t D].
  assert (CY : forall x, waits_chain s t x -> exists y, waits_for s x y).
  { assert (L : forall a x, waits_chain s a x -> waits_chain s a a -> exists y, waits_for s x y).
    { intros a x H. induction H as [a b H|a b c H H' IH]; intros Q; destruct (chain_split _ _ _ Q) as (b' & H1 & H2);
        pose proof (waits_fun _ _ _ _ H H1) as <-.
      - destruct H2 as [->|H2]; [eauto|]. destruct (chain_split _ _ _ H2) as (y & Y & _). eauto.
      - apply IH. destruct H2 as [->|H2]; auto. clear - H H2.
        assert (T : forall p q r, waits_chain s p q -> waits_for s q r -> waits_chain s p r).
        { intros p q r P. induction P; intros Z; [eapply wc_more; eauto; now constructor|eapply wc_more; eauto]. }
        eapply T; eauto. }
    intros x H. eapply L; eauto. }
  destruct (chain_split _ _ _ D) as (b & W & _).
  destruct (C112_progress_partial s t b R W) as (e & H & N & _). destruct (CY e H) as (y & Y). now apply (N y).
Qed.

(** A thread that does not wait for a mutex can always go on: no mutex is ever released by a thread that does not own it. *)
Theorem C112_runnable s t : reach anything s -> (forall t', ~ waits_for s t t') -> can_go_on s t.
Proof. intros R. apply not_waiting. eapply reach_inv; eauto. Qed.

(** ** The life of a handler *)
Theorem C112_alive_while_running s t h : reach anything s -> in_handler s t h -> ~ In h (gone s).
Proof.
  intros R H G. pose proof (reach_inv _ _ R) as I. destruct (handler_holds s t h (i1 _ I) H) as (n & O).
  pose proof (i2 _ I h) as RF. rewrite O in RF. destruct (g_gone _ _ (j_g _ (i4 _ I) h) G) as [_ Z].
  assert (0 < cnt (isH h) (stk s t)); [|lia]. apply cnt_pos. exists (FHandler h). split; auto. apply Nat.eqb_refl.
Qed.

Theorem C112_one_thread s t h t' h' : reach anything s -> in_handler s t h -> in_handler s t' h' -> t = t'.
Proof.
  intros R H H'. pose proof (reach_inv _ _ R) as I. destruct (handler_holds s t h (i1 _ I) H) as (n & O).
  destruct (handler_holds s t' h' (i1 _ I) H') as (n' & O'). congruence.
Qed.

Theorem C112_not_reentered s t h above below : reach anything s -> stk s t = above ++ FHandler h :: below ->
  ~ In (FHandler h) above /\ ~ In (FHandler h) below.
Proof.
  intros R E. pose proof (reach_inv _ _ R) as I.
  assert (H : in_handler s t h) by (unfold in_handler; rewrite E; apply in_or_app; right; now left).
  destruct (handler_holds s t h (i1 _ I) H) as (n & O). pose proof (i2 _ I h) as RF. rewrite O, E in RF.
  pose proof (g_ref _ _ (j_g _ (i4 _ I) h)) as LE.
  assert (S : cnt (isH h) (above ++ FHandler h :: below) = cnt (isH h) above + (1 + cnt (isH h) below)).
  { unfold cnt. rewrite filter_app, app_length. cbn. rewrite Nat.eqb_refl. reflexivity. }
  assert (P : forall l, In (FHandler h) l -> 0 < cnt (isH h) l).
  { intros l Z. apply cnt_pos. exists (FHandler h). split; auto. apply Nat.eqb_refl. }
  split; intros Z; apply P in Z; lia.
Qed.

Theorem C112_destroyed_once s : reach anything s -> NoDup (gone s).
Proof. intros R. apply (j_nd _ (i4 _ (reach_inv _ _ R))). Qed.

Lemma gone_step s t a s' h : inv s -> In h (gone s) -> step s t a = Some s' -> In h (gone s') /\ calls s' h = calls s h.
Proof.
  intros I G H. apply step_tr in H. destruct (g_gone _ _ (j_g _ (i4 _ I) h) G) as [NS RF].
  assert (INV : forall x below s1, gone s1 = gone s -> called s1 = called s -> stored s1 = stored s -> refs s1 = refs s ->
     In h (gone (invoke s1 t x below)) /\ calls (invoke s1 t x below) h = calls s h).
  { intros x below s1 E1 E2 E3 E4. unfold invoke, calls. rewrite E3, E4. destruct (_ || _) eqn:B; cbn; rewrite E1, E2; auto. split; auto.
    destruct (Nat.eq_dec x h) as [->|N]; auto. exfalso. apply mem_nIn in NS. rewrite NS, RF in B. discriminate. }
  destruct H; try (split; [exact G|reflexivity]).
  - unfold drop, calls. cbn. destruct (_ && _); auto. split; auto. now right.
  - unfold register. destruct ok; [destruct fo|]; try (split; [exact G|reflexivity]). apply INV; reflexivity.
  - unfold erase, calls. cbn. destruct (_ && _); auto. split; auto. now right.
  - apply INV; reflexivity.
Qed.
Lemma gone_run ls s s' h : inv s -> In h (gone s) -> run s ls = Some s' -> In h (gone s') /\ calls s' h = calls s h.
Proof.
  revert s. induction ls as [|[t a] ls IH]; cbn; intros s I G H; [injection H as <-; auto|].
  destruct (step s t a) as [s1|] eqn:E; [|discriminate]. destruct (gone_step _ _ _ _ _ I G E) as [G1 <-].
  apply (IH s1); auto. eapply inv_step; eauto.
Qed.

(** When StopFindService returns to plain application code, the handler is destroyed, it is running nowhere, and
    it is never called again. *)
Theorem C112_stop_is_final_partial s t h s' : reach anything s -> finishing_stop s t h -> step s t AGo = Some s' ->
  outside s' t /\ destroyed s' h /\ (forall t', ~ in_handler s' t' h) /\
  (forall ls s'', run s' ls = Some s'' -> calls s'' h = calls s' h).
Proof.
  intros R F ST. unfold finishing_stop in F. pose proof (reach_inv _ _ R) as I. pose proof (inv_step _ _ _ _ I ST) as I'.
  unfold step in ST. rewrite F in ST. cbn in ST. destruct (unlock (mw s) t) as [m|] eqn:U; [|discriminate]. injection ST as <-.
  match type of I' with inv ?z => set (s' := z) in * end.
  assert (TF : In (FStop6 h false) (stk s t)) by (rewrite F; now left).
  destruct (j_n _ (i4 _ I) t _ TF) as (KN & SP & NS & NI & NU).
  assert (O : exists n, mw s = Some (t, n)) by (apply holds_owner; [apply I|rewrite F; cbn; lia]). destruct O as (n & O).
  assert (RF : refs s h = 0) by (rewrite (i2 _ I h), O, F; reflexivity).
  assert (G : In h (gone s)) by (destruct (g_kn _ _ (j_g _ (i4 _ I) h) KN) as [Z|[Z|Z]]; auto; [contradiction|lia]).
  assert (W0 : forall x, x <> t -> cnt hW (stk s x) = 0).
  { intros x N. rewrite (i_w _ (i1 _ I)), O. cbn. destruct (Nat.eqb_spec t x); auto. congruence. }
  assert (STK : forall x f, In f (stk s' x) -> (x = t /\ f = FUser) \/ (x <> t /\ In f (stk s x))).
  { intros x f. cbn. unfold upd. destruct (Nat.eqb_spec x t) as [->|N]; [|auto]. intros [<-|[]]. auto. }
  split; [apply upd_same|]. split; [split; [exact G|]|split].
  - (* the destructor is not running either *)
    intros x D. destruct (STK _ _ D) as [[_ Z]|[N D']]; [discriminate|].
    apply in_split in D' as (l1 & l2 & E).
    assert (Wx : wf (FDtor h :: l2)).
    { pose proof (i_wf _ (i1 _ I) x) as Z. rewrite E in Z. clear - Z. induction l1 as [|g l IH]; auto. apply IH.
      cbn in Z. destruct g; try tauto; destruct l; discriminate. }
    assert (Dx : dd (unres s) (FDtor h :: l2)).
    { pose proof (k_dd _ (i5 _ I) x) as Z. rewrite E in Z. clear - Z. induction l1 as [|g l IH]; auto. apply IH. apply Z. }
    assert (W : cnt hW (stk s x) = 0) by auto. rewrite E in W.
    assert (W2 : cnt hW (FDtor h :: l2) = 0) by (unfold cnt in *; rewrite filter_app, app_length in W; lia).
    rewrite cnt_cons in W2. cbn in Wx, Dx. destruct Wx as [A _]. destruct Dx as [B _].
    destruct l2 as [|[] l2]; try contradiction; try (rewrite cnt_cons in W2; cbn in W2; lia).
    subst h0. destruct B as [->|B]; [|contradiction].
    apply N. apply (k_uni _ (i5 _ I) h).
    + apply cnt_pos. exists (FStop3 h i true). split; [rewrite E; apply in_or_app; right; right; now left|]. apply Nat.eqb_refl.
    + apply cnt_pos. exists (FStop6 h false). split; auto. apply Nat.eqb_refl.
  - intros x D. destruct (STK _ _ D) as [[_ Z]|[N D']]; [discriminate|].
    destruct (handler_holds s x h (i1 _ I) D') as (k & K). congruence.
  - intros ls s2 H2. apply (gone_run ls s' s2 h I'); auto.
Qed.

(** A search that was started and not stopped gets its calls. *)
Theorem C112_search_goes_on s h : reach anything s -> handed_out s h -> ~ was_stopped s h -> ~ unknown_specifier s h ->
  ~ In h (gone s) /\ (stk s 0 = [FEv] -> exists s', step s 0 (ACall h) = Some s' /\ in_handler s' 0 h).
Proof.
  intros R K NS NU. pose proof (reach_inv _ _ R) as I. pose proof (j_g _ (i4 _ I) h) as G.
  destruct (g_ok _ _ G K NS) as [ST [Z|(IN & RE & NO)]]; [contradiction|].
  split; [intros Z; now destruct (g_gone _ _ G Z)|]. intros E.
  unfold step. rewrite E. cbn -[mem]. rewrite (proj2 (mem_In h (regs s)) RE), (proj2 (mem_nIn h (obs s)) NO). cbn -[mem].
  eexists. split; [reflexivity|]. unfold invoke. rewrite (proj2 (mem_In h (stored s)) ST). cbn. unfold in_handler. cbn. now left.
Qed.

(** A StartFindService that fails destroys the handler without ever calling it. *)
Theorem C112_failed_start s h : reach anything s -> start_failed s h ->
  In h (gone s) /\ calls s h = 0 /\ forall ls s', run s ls = Some s' -> calls s' h = 0.
Proof.
  intros R F. pose proof (reach_inv _ _ R) as I. destruct (g_fail _ _ (j_g _ (i4 _ I) h) F).
  assert (C : calls s h = 0) by (apply count_occ_not_In; auto).
  split; [auto|]. split; auto. intros ls s' H. destruct (gone_run _ _ _ _ I l_go H) as [_ ->]. exact C.
Qed.

Lemma unres_run ls s s' h : In h (unres s) -> run s ls = Some s' -> In h (unres s').
Proof.
  revert s. induction ls as [|[t a] ls IH]; cbn; intros s G H; [injection H as <-; auto|].
  destruct (step s t a) as [s1|] eqn:E; [|discriminate]. apply (IH s1); auto. apply step_tr in E. destruct E; auto.
  - cbn. destruct b; auto. now right.
  - destruct (register_cases (set_mw s m) t h0 ok fo r) as (fs & _ & _ & _ & -> & _). exact G.
  - destruct (invoke_cases s t h0 (FEv :: r)) as (fs & _ & _ & _ & -> & _). exact G.
Qed.

(** ** What does not hold *)
Definition start_quietly (t : nat) : list (nat * action) := [(t, AStart true); (t, AGo); (t, AGo); (t, AReg true false); (t, AGo)].

Lemma stuck_step s t1 t2 t a s' : t1 <> t2 -> wants s t1 = Some Work -> owner s Work = Some t2 -> wants s t2 = Some Cont -> owner s Cont = Some t1 ->
  step s t a = Some s' -> stk s' t1 = stk s t1 /\ stk s' t2 = stk s t2 /\ mc s' = mc s /\ mw s' = mw s.
Proof.
  intros N W1 O1 W2 O2 ST. cbn in O1, O2. destruct (mw s) as [[o n]|] eqn:MW; [|discriminate]. cbn in O1. injection O1 as ->.
  destruct (mc s) as [[o k]|] eqn:MC; [|discriminate]. cbn in O2. injection O2 as ->.
  apply step_tr in ST. unfold wants in W1, W2.
  assert (LC : forall m, lock (mc s) t = Some m -> t = t1).
  { intros m. rewrite MC. cbn. destruct (Nat.eqb_spec t1 t); congruence. }
  assert (LW : forall m, lock (mw s) t = Some m -> t = t2).
  { intros m. rewrite MW. cbn. destruct (Nat.eqb_spec t2 t); congruence. }
  assert (UC : forall m, unlock (mc s) t = Some m -> t = t1).
  { intros m. rewrite MC. cbn. destruct k; [discriminate|]. destruct (Nat.eqb_spec t1 t); congruence. }
  assert (UW : forall m, unlock (mw s) t = Some m -> t = t2).
  { intros m. rewrite MW. cbn. destruct n; [discriminate|]. destruct (Nat.eqb_spec t2 t); congruence. }
  assert (X : (t <> t1 /\ t <> t2) /\ exists fs, stk s' = upd (stk s) t fs /\ mc s' = mc s /\ mw s' = mw s).
  { destruct ST as [f r b E U|f r h E U K|h r E|h r E|h b r m E L|h r m E L|h r m E L|h ok fo r m E L|h r m E L|h r m E L|h i r m E L|h i r m E L|h i r m E L|h i r m E L|h i r m E L|r m E L|r m E L|h r E K NK];
      try (exfalso; first [apply LC in L|apply LW in L|apply UC in L|apply UW in L]; subst t; rewrite E in *; discriminate).
    - split; [split; intros ->; rewrite E in *; destruct f; discriminate|]. eexists; repeat (split; [reflexivity|]); reflexivity.
    - split; [split; intros ->; rewrite E in *; destruct f; discriminate|]. eexists; repeat (split; [reflexivity|]); reflexivity.
    - split; [split; intros ->; rewrite E in *; discriminate|]. eexists; repeat (split; [reflexivity|]); reflexivity.
    - split; [split; intros ->; rewrite E in *; discriminate|]. eexists; repeat (split; [reflexivity|]); reflexivity.
    - split; [split; intros ->; rewrite E in *; discriminate|].
      destruct (invoke_cases s t h (FEv :: r)) as (fs & Q1 & Q2 & Q3 & _). eauto. }
  destruct X as [[N1 N2] (fs & E1 & E2 & E3)]. rewrite E1, !upd_other, E2, E3 by auto. auto.
Qed.
Lemma stuck_run ls s t1 t2 s' : t1 <> t2 -> wants s t1 = Some Work -> owner s Work = Some t2 -> wants s t2 = Some Cont -> owner s Cont = Some t1 ->
  run s ls = Some s' -> stk s' t1 = stk s t1 /\ stk s' t2 = stk s t2.
Proof.
  revert s. induction ls as [|[t a] ls IH]; cbn [run]; intros s N A B C D H; [injection H as <-; auto|].
  destruct (step s t a) as [s1|] eqn:E; [|discriminate]. destruct (stuck_step _ _ _ _ _ _ N A B C D E) as (E1 & E2 & E3 & E4).
  destruct (IH s1) as [F1 F2]; auto; unfold wants, owner in *; rewrite ?E1, ?E2, ?E3, ?E4; auto. split; congruence.
Qed.

Definition deadlock_run : list (nat * action) :=
  start_quietly 1 ++ start_quietly 1 ++ start_quietly 1 ++
  [(0, AGo); (0, ACall 2);                          (* the worker thread runs the handler of search 2 *)
   (1, AStop 0); (1, AGo);                          (* StopFindService(0) destroys the handler of search 0, *)
   (1, AStop 1); (1, AGo); (1, ARet); (1, AGo);     (* whose capture, a proxy say, calls StopFindService(1) *)
   (0, AStart true)].                               (* the handler of search 2 creates a proxy *)
(** StopFindService destroys the handler while it holds container_mutex_ (service_discovery.cpp:187). If the
    handler owns something whose destructor calls service discovery, such as a proxy (bindings/lola/proxy.cpp:1003),
    and the worker thread is in a handler that calls service discovery, such as by creating a proxy
    (proxy.cpp:981), both wait for each other for ever: the deadlock that releasing container_mutex_ before the
    call of the client is meant to avoid. *)
Theorem C112_deadlock_refuted : exists s, reach anything s /\ deadlock s /\ in_handler s 0 2 /\ in_destructor s 1 0 /\
  forall ls s', run s ls = Some s' -> stk s' 0 = stk s 0 /\ stk s' 1 = stk s 1.
Proof.
  destruct (run init deadlock_run) as [s|] eqn:E; [|vm_compute in E; discriminate].
  exists s. split; [eapply run_reach; eauto; constructor|]. vm_compute in E. injection E as <-.
  match goal with |- deadlock ?z /\ _ => set (s := z) end.
  assert (A : waits_for s 1 0) by (split; [lia|]; exists Work; split; reflexivity).
  assert (B : waits_for s 0 1) by (split; [lia|]; exists Cont; split; reflexivity).
  split; [exists 0; eapply wc_more; [exact B|constructor; exact A]|].
  split; [right; now left|]. split; [right; now left|]. intros ls s' H.
  destruct (stuck_run ls s 1 0 s') as [F1 F2]; auto.
Qed.

Definition late_run : list (nat * action) :=
  start_quietly 1 ++ [(0, AGo); (0, ACall 0); (2, AStop 0); (2, AGo); (2, AGo); (1, AStop 0); (1, AGo)].
(** If two threads stop the same search, the second StopFindService reports success at once, while the handler
    is still running. *)
Theorem C112_second_stop_refuted : exists s s', reach anything s /\ finishing_late_stop s 1 0 /\ step s 1 AGo = Some s' /\
  outside s' 1 /\ in_handler s' 0 0.
Proof.
  destruct (run init late_run) as [s|] eqn:E; [|vm_compute in E; discriminate].
  destruct (step s 1 AGo) as [s'|] eqn:E'; [|vm_compute in E; injection E as <-; vm_compute in E'; discriminate].
  exists s, s'. split; [eapply run_reach; eauto; constructor|]. split; [vm_compute in E; injection E as <-; reflexivity|]. split; auto.
  vm_compute in E. injection E as <-. vm_compute in E'. injection E' as <-. split; [reflexivity|now left].
Qed.

(** StartFindService with an instance specifier that is not configured returns a handle as if the search had been
    started; the handler is never called, whatever is offered. FindService reports an error in this case. *)
Theorem C112_unknown_specifier_refuted : exists s h, reach anything s /\ outside s 1 /\ handed_out s h /\ ~ start_failed s h /\
  ~ was_stopped s h /\ forall ls s', run s ls = Some s' -> calls s' h = 0.
Proof.
  destruct (run init [(1, AStart false); (1, AGo); (1, AGo)]) as [s|] eqn:E; [|vm_compute in E; discriminate].
  assert (R : reach anything s) by (eapply run_reach; eauto; constructor).
  exists s, 0. split; auto.
  assert (X : outside s 1 /\ handed_out s 0 /\ ~ start_failed s 0 /\ ~ was_stopped s 0 /\ In 0 (unres s)).
  { vm_compute in E. injection E as <-. split; [reflexivity|]. repeat split; cbn; auto. }
  destruct X as (A & B & C & D & U). repeat split; auto. intros ls s' H.
  pose proof (unres_run _ _ _ _ U H) as U'. pose proof (run_inv _ _ _ (reach_inv _ _ R) H) as I'.
  apply count_occ_not_In. apply (g_un _ _ (j_g _ (i4 _ I') 0) U').
Qed.

(** ** The hypotheses are met *)
Definition quietb (s : st) (t : nat) (a : action) : bool :=
  match a, stk s t with
  | (AStart _ | AStop _), FDtor _ :: FStop3 _ _ _ :: _ => false
  | _, _ => true
  end.
Fixpoint quiet_run (s : st) (ls : list (nat * action)) : option st :=
  match ls with
  | [] => Some s
  | (t, a) :: ls => if quietb s t a then match step s t a with Some s' => quiet_run s' ls | None => None end else None
  end.
Lemma quiet_reach ls s s' : reach quiet_destruction s -> quiet_run s ls = Some s' -> reach quiet_destruction s'.
Proof.
  revert s. induction ls as [|[t a] ls IH]; cbn; intros s R H; [injection H as <-; auto|].
  destruct (quietb s t a) eqn:Q; [|discriminate]. destruct (step s t a) as [s1|] eqn:E; [|discriminate]. apply (IH s1); auto.
  eapply r_step; eauto. intros (h & h' & i & b & r & Z). unfold quietb in Q. rewrite Z in Q. destruct a; auto; discriminate.
Qed.

(** A chain of three threads: thread 2 waits for the worker thread, which waits for thread 1. *)
Example C112_demo_wait : exists s, reach quiet_destruction s /\ waits_for s 2 0 /\ waits_for s 0 1 /\ in_handler s 0 0.
Proof.
  destruct (quiet_run init (start_quietly 1 ++ start_quietly 1 ++ [(0, AGo); (0, ACall 0); (2, AStop 1); (2, AGo); (2, ARet); (2, AGo);
     (1, AStart true); (1, AGo); (0, AStart true)])) as [s|] eqn:E; [|vm_compute in E; discriminate].
  exists s. split; [eapply quiet_reach; eauto; constructor|]. vm_compute in E. injection E as <-.
  split; [split; [lia|exists Work; split; reflexivity]|]. split; [split; [lia|exists Cont; split; reflexivity]|]. right. now left.
Qed.
(** StopFindService from outside waits for the running handler and then returns. *)
Example C112_demo_stop : exists s, reach anything s /\ finishing_stop s 1 0 /\ calls s 0 = 1.
Proof.
  destruct (run init (start_quietly 1 ++ [(0, AGo); (0, ACall 0); (1, AStop 0); (1, AGo); (1, AGo); (0, ARet); (0, ARet); (0, AGo); (1, AGo)])) as [s|] eqn:E;
    [|vm_compute in E; discriminate].
  exists s. split; [eapply run_reach; eauto; constructor|]. vm_compute in E. injection E as <-. split; reflexivity.
Qed.
Example C112_demo_search : exists s, reach anything s /\ handed_out s 0 /\ ~ was_stopped s 0 /\ ~ unknown_specifier s 0 /\ stk s 0 = [FEv].
Proof.
  destruct (run init (start_quietly 1 ++ [(0, AGo)])) as [s|] eqn:E; [|vm_compute in E; discriminate].
  exists s. split; [eapply run_reach; eauto; constructor|]. vm_compute in E. injection E as <-. repeat split; cbn; auto.
Qed.
Example C112_demo_failed : exists s, reach anything s /\ start_failed s 0 /\ outside s 1.
Proof.
  destruct (run init [(1, AStart true); (1, AGo); (1, AGo); (1, AReg false false); (1, AGo); (1, AGo); (1, ARet); (1, AGo); (1, AGo); (1, AGo)]) as [s|] eqn:E;
    [|vm_compute in E; discriminate].
  exists s. split; [eapply run_reach; eauto; constructor|]. vm_compute in E. injection E as <-. split; [now left|reflexivity].
Qed.

Print Assumptions C112_progress_partial.
Print Assumptions C112_no_deadlock_partial.
Print Assumptions C112_runnable.
Print Assumptions C112_alive_while_running.
Print Assumptions C112_one_thread.
Print Assumptions C112_not_reentered.
Print Assumptions C112_destroyed_once.
Print Assumptions C112_stop_is_final_partial.
Print Assumptions C112_search_goes_on.
Print Assumptions C112_failed_start.
Print Assumptions C112_deadlock_refuted.
Print Assumptions C112_second_stop_refuted.
Print Assumptions C112_unknown_specifier_refuted.
