(** C13: what the rollback leaves behind is fit for use: a transaction log without an owner
    records nothing, so a later Subscribe never aborts on it, and logs are never lost. *)
From Verif Require Import LogSetModel LogSetProofs LogSetProps.

(** ** Specification *)
(** some transaction log of the set has no owner *)
Definition has_free (l : list node) : Prop := exists n, In n l /\ n_id n = None.

Definition clean (w : world) : Prop :=
  forall l n, In l (w_evs w) -> In n l -> n_id n = None -> free_and_empty n.

Lemma no_tx g : contains_tx g = false ->
  l_sub g = (false, false) /\ forall s, In s (l_slots g) -> s = (false, false).
Proof.
  unfold contains_tx. intros H. apply Bool.orb_false_iff in H as [H S]. apply Bool.orb_false_iff in H as [A B].
  split; [destruct (l_sub g); cbn in *; congruence|].
  intros [b e] I. unfold has_slot_tx in S.
  destruct b; [|destruct e; [|reflexivity]]; exfalso;
    assert (X : existsb (fun s => fst s || snd s) (l_slots g) = true)
      by (apply existsb_exists; eexists; split; [exact I|reflexivity]); congruence.
Qed.
Lemma no_tx_conv n : free_and_empty n -> contains_tx (n_log n) = false.
Proof.
  intros (_ & _ & A & B). unfold contains_tx. rewrite A. cbn. unfold has_slot_tx.
  destruct (existsb _ _) eqn:X; [|reflexivity]. apply existsb_exists in X as (s & I & Y).
  rewrite (B s I) in Y. discriminate.
Qed.

Lemma acquire_free id gen l : has_free l <-> acquire id gen l <> None.
Proof.
  split.
  - intros (n & I & F). induction l as [|m l IH]; [destruct I|]. cbn. destruct (n_id m) eqn:E; [|discriminate].
    destruct I as [->|I]; [congruence|]. specialize (IH I). destruct (acquire id gen l) as [[r i]|]; congruence.
  - induction l as [|m l IH]; cbn; [congruence|]. destruct (n_id m) eqn:E.
    + destruct (acquire id gen l) as [[r i]|]; [|congruence]. intros _.
      destruct IH as (m2 & I & F); [discriminate|]. exists m2. cbn. auto.
    + intros _. exists m. cbn. auto.
Qed.
(** the log handed out is one that had no owner *)
Lemma acquire_nth id gen : forall l l' i, acquire id gen l = Some (l', i) ->
  exists n, nth_error l i = Some n /\ n_id n = None /\ nth_error l' i = Some (mkNode false (Some id) (n_log n) gen) /\
    l' = upd l i (mkNode false (Some id) (n_log n) gen).
Proof.
  induction l as [|m l IH]; intros l' i H; cbn in H; [discriminate|].
  destruct (n_id m) eqn:E.
  - destruct (acquire id gen l) as [[r j]|] eqn:F; [|discriminate]. injection H as <- <-.
    destruct (IH _ _ eq_refl) as (m2 & A & B & C & D). exists m2. cbn. subst r. auto.
  - injection H as <- <-. exists m. cbn. auto.
Qed.
Lemma upd_length {A} : forall (l : list A) i v, length (upd l i v) = length l.
Proof. induction l as [|a l IH]; intros [|i] v; cbn; auto. Qed.

Lemma clean_init cfg : clean (winit cfg).
Proof.
  intros l n I J _. cbn in I. apply in_map_iff in I as (c & <- & I). apply repeat_spec in J. subst n.
  repeat split. cbn. intros s X. apply repeat_spec in X. exact X.
Qed.

Lemma clean_step w o : clean w -> clean (fst (fst (wstep w o))).
Proof.
  intros H. destruct o as [id|id e|e i g|e i|id]; cbn [wstep].
  - destruct (rb_events id 0 (if w_prep w id then w_evs w else map (map (mark_node id)) (w_evs w)))
      as [[evs ef] r] eqn:R. cbn [fst].
    intros l' n' I J K. cbn [w_evs] in I.
    destruct (touched2_in _ _ _ (rb_events_touched _ _ _ _ _ _ R) _ _ I J) as (l & n & A & B & C).
    assert (X : n_id n = None -> free_and_empty n).
    { intros Y. destruct (w_prep w id); [eapply H; eauto|].
      apply in_map_iff in A as (lm & <- & A). apply in_map_iff in B as (m & <- & B).
      destruct (mark_fields id m) as (E1 & _ & E3). rewrite E1 in Y. rewrite E3 by congruence. eapply H; eauto. }
    inversion C as [n0|n0 g HF|n0 HF]; subst; auto.
    + apply flagged_id in HF. destruct HF as [HF _]. cbn in K. congruence.
    + apply freed_free.
  - destruct (w_prep w id) eqn:P; [|exact H].
    destruct (nth_error (w_evs w) e) as [l|] eqn:L; [|exact H].
    destruct (register id (w_gen w id) l) as [l' r] eqn:R. cbn [fst].
    intros l1 n I J K. cbn [w_evs] in *. apply in_upd in I as [->|I]; [|eauto].
    destruct (register_in _ _ _ _ _ R _ J) as [X|[X _]]; [|congruence].
    apply nth_error_In in L. eauto.
  - destruct (nth_error (w_evs w) e) as [l|] eqn:L; [|exact H].
    destruct (nth_error l i) as [n|] eqn:Nn; [|exact H].
    destruct (owns w n) eqn:OW; [|exact H]. cbn [fst].
    intros l1 m I J K. cbn [w_evs] in *. apply in_upd in I as [->|I]; [|eauto].
    apply nth_error_In in L. apply in_upd in J as [->|J]; [|eauto].
    cbn in K. unfold owns in OW. rewrite K in OW. discriminate.
  - destruct (nth_error (w_evs w) e) as [l|] eqn:L; [|exact H].
    destruct (nth_error l i) as [n|] eqn:Nn; [|exact H].
    destruct (owns w n); [|exact H].
    unfold unregister. rewrite Nn. destruct (reset_node n) as [n2|] eqn:R; [|exact H]. cbn [fst].
    intros l1 m I J K. cbn [w_evs] in *. apply in_upd in I as [->|I]; [|eauto].
    apply nth_error_In in L. apply in_upd in J as [->|J]; [|eauto].
    unfold reset_node in R. destruct (contains_tx (n_log n)) eqn:CT; [discriminate|].
    destruct (n_id n); [|discriminate]. injection R as <-. destruct (no_tx _ CT). repeat split; assumption.
  - exact H.
Qed.
Lemma clean_run ops : forall w, clean w -> clean (wrun w ops).
Proof. induction ops as [|o ops IH]; intros w H; cbn; auto. apply IH, clean_step, H. Qed.

(** the sets keep their sizes *)
Lemma forall2_len {A B} (P : A -> B -> Prop) l l' : Forall2 P l l' -> length l = length l'.
Proof. induction 1; cbn; congruence. Qed.
Lemma map_upd_len : forall (ev : list (list node)) e l l', nth_error ev e = Some l -> length l' = length l ->
  map (@length node) (upd ev e l') = map (@length node) ev.
Proof.
  induction ev as [|x ev IH]; intros [|e] l l' H E; cbn in *; try discriminate.
  - injection H as ->. congruence.
  - f_equal. eauto.
Qed.
Lemma sizes_step w o : map (@length node) (w_evs (fst (fst (wstep w o)))) = map (@length node) (w_evs w).
Proof.
  destruct o as [id|id e|e i g|e i|id]; cbn [wstep].
  - destruct (rb_events id 0 (if w_prep w id then w_evs w else map (map (mark_node id)) (w_evs w)))
      as [[evs ef] r] eqn:R. cbn [fst w_evs]. apply rb_events_touched in R.
    assert (X : map (@length node) (if w_prep w id then w_evs w else map (map (mark_node id)) (w_evs w)) = map (@length node) (w_evs w)).
    { destruct (w_prep w id); [reflexivity|]. rewrite map_map. apply map_ext. intros l. apply map_length. }
    rewrite <- X. clear X. induction R as [|x y xs ys A B IH]; [reflexivity|]. cbn. f_equal; [symmetry; eapply forall2_len; eauto|exact IH].
  - destruct (w_prep w id); [|reflexivity].
    destruct (nth_error (w_evs w) e) as [l|] eqn:L; [|reflexivity].
    destruct (register id (w_gen w id) l) as [l' r] eqn:R. cbn [fst w_evs]. eapply map_upd_len; [exact L|].
    unfold register in R. destruct (acquire id (w_gen w id) l) as [[l1 i]|] eqn:E; [|injection R as <- _; reflexivity].
    destruct (acquire_nth _ _ _ _ _ E) as (n & _ & _ & _ & D).
    assert (l' = l1) by (destruct (nth_error l1 i); [destruct (contains_tx _)|]; injection R; auto). subst. apply upd_length.
  - destruct (nth_error (w_evs w) e) as [l|] eqn:L; [|reflexivity].
    destruct (nth_error l i) as [n|] eqn:Nn; [|reflexivity].
    destruct (owns w n); [|reflexivity]. cbn [fst w_evs]. eapply map_upd_len; [exact L|]. apply upd_length.
  - destruct (nth_error (w_evs w) e) as [l|] eqn:L; [|reflexivity].
    destruct (nth_error l i) as [n|] eqn:Nn; [|reflexivity].
    destruct (owns w n); [|reflexivity].
    unfold unregister. rewrite Nn. destruct (reset_node n); [|reflexivity]. cbn [fst w_evs].
    eapply map_upd_len; [exact L|]. apply upd_length.
  - reflexivity.
Qed.
Lemma sizes_run ops : forall w, map (@length node) (w_evs (wrun w ops)) = map (@length node) (w_evs w).
Proof. induction ops as [|o ops IH]; intros w; cbn; [reflexivity|]. rewrite IH. apply sizes_step. Qed.

(** ** Theorems: [cfg] lists for each event the number of transaction logs and of slots. *)

(** A log nobody owns records nothing, after every history of creations, subscriptions,
    recordings, unsubscriptions and crashes. *)
Theorem C13_free_logs_are_empty cfg ops l n :
  In l (w_evs (wrun (winit cfg) ops)) -> In n l -> n_id n = None -> free_and_empty n.
Proof. apply clean_run, clean_init. Qed.

(** Logs are never lost: every event still has as many as configured. *)
Theorem C13_logs_are_kept cfg ops :
  map (@length node) (w_evs (wrun (winit cfg) ops)) = map fst cfg.
Proof. rewrite sizes_run. cbn. rewrite map_map. apply map_ext. intros c. apply repeat_length. Qed.

(** Subscribing never aborts; it gets a log exactly if one has no owner: this log records
    nothing, belongs to the caller now, and no other log changes. *)
Theorem C13_registration cfg ops id e l :
  let w := wrun (winit cfg) ops in
  w_prep w id = true -> nth_error (w_evs w) e = Some l ->
  let '(w', eff, r) := wstep w (WSubscribe id e) in
  eff = [] /\
  ((has_free l /\ r = WDone /\
    exists i n, nth_error l i = Some n /\ free_and_empty n /\
      w_evs w' = upd (w_evs w) e (upd l i (mkNode false (Some id) (n_log n) (w_gen w id)))) \/
   (~ has_free l /\ r = WError /\ w_evs w' = upd (w_evs w) e l)).
Proof.
  intros w P L. cbn [wstep]. rewrite P, L. unfold register.
  destruct (acquire id (w_gen w id) l) as [[l' i]|] eqn:E.
  - destruct (acquire_nth _ _ _ _ _ E) as (n & A & B & C & D). rewrite C. cbn [n_log].
    assert (FE : free_and_empty n).
    { eapply C13_free_logs_are_empty; [exact (nth_error_In _ _ L)|exact (nth_error_In _ _ A)|exact B]. }
    rewrite (no_tx_conv _ FE). split; [reflexivity|]. left.
    split; [apply (acquire_free id (w_gen w id)); congruence|]. split; [reflexivity|].
    exists i, n. split; [exact A|]. split; [exact FE|]. cbn. rewrite D. reflexivity.
  - split; [reflexivity|]. right. split; [|split; reflexivity].
    intros F. apply (acquire_free id (w_gen w id)) in F. congruence.
Qed.

(** ** Non-vacuity: in the history of C59 with three logs, two are in use: one more
    subscription succeeds, the next is refused. *)
Example ex_registration :
  let w := wrun (winit [(3, 2)]) C59_history in
  w_prep w 7%N = true /\ snd (wstep w (WSubscribe 7 0)) = WDone /\
  snd (wstep (wrun w [WSubscribe 7 0]) (WSubscribe 7 0)) = WError.
Proof. vm_compute. auto. Qed.

Print Assumptions C13_free_logs_are_empty.
Print Assumptions C13_logs_are_kept.
Print Assumptions C13_registration.
