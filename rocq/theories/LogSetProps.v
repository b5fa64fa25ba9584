(** C13 and C59: rolling back the logs of a crashed application. *)
From Verif Require Import LogSetModel LogSetProofs.

(** * Specification vocabulary *)

(** A log without a half-done transaction; slots are only referenced while subscribed. *)
Definition intact (g : tlog) : Prop :=
  (forall b e, In (b, e) (l_slots g) -> b = e) /\
  fst (l_sub g) = snd (l_sub g) /\
  (l_sub g = (true, true) -> exists n, l_max g = Some n) /\
  (l_sub g = (false, false) -> forall s, In s (l_slots g) -> s = (false, false)).

(** The slots the application held according to the log, lowest first. *)
Definition held (g : tlog) : list nat :=
  filter (fun i => match nth_error (l_slots g) i with Some (true, true) => true | _ => false end)
         (seq 0 (length (l_slots g))).

(** Everything the log says the application owned: each slot once, then the subscription. *)
Definition owned (g : tlog) : list eff :=
  map EDeref (held g) ++
  match l_sub g with (true, true) => match l_max g with Some n => [EUnsub n] | None => [] end | _ => [] end.

(** A log of application [id] left behind by an earlier life of its process. *)
Definition stale (id : N) (n : node) : Prop := n_id n = Some id /\ n_need n = true.
Definition stale_b (id : N) (n : node) : bool :=
  match n_id n with Some j => (j =? id)%N && n_need n | None => false end.

(** A log nobody owns and that records nothing. *)
Definition free_and_empty (n : node) : Prop :=
  n_id n = None /\ n_need n = false /\ l_sub (n_log n) = (false, false) /\
  (forall s, In s (l_slots (n_log n)) -> s = (false, false)).

(** Repeated calls of RollbackProxyTransactions(id): final set and all effects. *)
Fixpoint repeat_calls (id : N) (k : nat) (l : list node) : list node * list eff :=
  match k with
  | 0 => (l, [])
  | S k' => let '(l1, e1, _) := rollback_proxy id l in
            let '(l2, e2) := repeat_calls id k' l1 in (l2, e1 ++ e2)
  end.

(** * Bridges *)
Lemma held_from_spec : forall l i, held_from i l =
  filter (fun j => match nth_error l (j - i) with Some (true, true) => true | _ => false end) (seq i (length l)).
Proof.
  induction l as [|s l IH]; intros i; [reflexivity|].
  cbn [length seq filter]. rewrite Nat.sub_diag. cbn [nth_error].
  assert (X : filter (fun j => match nth_error (s :: l) (j - i) with Some (true, true) => true | _ => false end)
                (seq (S i) (length l)) = held_from (S i) l).
  { rewrite IH. apply filter_ext_in. intros j J. apply in_seq in J.
    replace (j - i) with (S (j - S i)) by lia. reflexivity. }
  rewrite X. destruct s as [[|] [|]]; reflexivity.
Qed.

Lemma gives_owned : forall g, gives g = owned g.
Proof.
  intros g. unfold gives, owned, held. rewrite held_from_spec. f_equal.
  f_equal. apply filter_ext. intros j. rewrite Nat.sub_0_r. reflexivity.
Qed.

Lemma intact_sound : forall g, intact g -> sound g = true.
Proof.
  intros g [H1 [H2 [H3 H4]]]. unfold sound. rewrite !Bool.andb_true_iff. repeat split.
  - apply forallb_forall. intros [b e] I. rewrite (H1 b e I). apply Bool.eqb_reflx.
  - unfold whole. rewrite H2. apply Bool.eqb_reflx.
  - destruct (l_sub g) as [[|] [|]]; cbn in *; try discriminate; auto.
    destruct (H3 eq_refl) as [n ->]. reflexivity.
  - destruct (l_sub g) as [[|] [|]]; cbn in *; try discriminate; auto.
    destruct (has_slot_tx (l_slots g)) eqn:E; [|reflexivity].
    unfold has_slot_tx in E. apply existsb_exists in E as [s [I J]].
    rewrite (H4 eq_refl s I) in J. discriminate.
Qed.

Lemma sound_intact : forall g, sound g = true -> intact g.
Proof.
  intros g H. unfold sound in H. rewrite !Bool.andb_true_iff in H. destruct H as [[[H1 H2] H3] H4].
  split; [|split; [|split]].
  - intros b e I. rewrite forallb_forall in H1. apply Bool.eqb_prop. exact (H1 _ I).
  - apply Bool.eqb_prop, H2.
  - intros E. rewrite E in H3. cbn in H3. destruct (l_max g); [eauto|discriminate].
  - intros E s I. rewrite E in H4. cbn in H4.
    destruct (has_slot_tx (l_slots g)) eqn:F; [discriminate|].
    destruct s as [b e]. destruct b, e; auto; exfalso;
    (assert (X : has_slot_tx (l_slots g) = true)
       by (unfold has_slot_tx; apply existsb_exists; eexists; split; [exact I|reflexivity])); congruence.
Qed.

Lemma stale_flagged : forall id n, stale id n <-> flagged id n = true.
Proof.
  intros id n. split; [|apply flagged_id]. intros [A B]. unfold flagged. rewrite A, B, N.eqb_refl. reflexivity.
Qed.

Lemma freed_free : forall n, free_and_empty (freed n).
Proof.
  intros n. repeat split. intros s I. apply repeat_spec in I. exact I.
Qed.

Lemma repeat_calls_calls : forall id k l, repeat_calls id k l = calls id k l.
Proof.
  induction k as [|k IH]; intros l; [reflexivity|]. cbn.
  destruct (rollback_proxy id l) as [[l1 e1] r]. rewrite IH. reflexivity.
Qed.

(** * C13 *)

(** One call rolls back exactly the first stale log of the application: what its log says
    it owned is given back once, the log becomes free, every other log is untouched.
    MISSING from C13: a call stops there, the other stale logs stay (see the refutation). *)
Theorem C13_one_call_partial : forall id pre n post,
  (forall m, In m pre -> ~ stale id m) -> stale id n -> intact (n_log n) ->
  exists n', rollback_proxy id (pre ++ n :: post) = (pre ++ n' :: post, owned (n_log n), ROk)
             /\ free_and_empty n'.
Proof.
  intros id pre n post HP HF HS. exists (freed n). split; [|apply freed_free].
  unfold rollback_proxy. rewrite <- gives_owned. apply rb_nodes_first.
  - apply forallb_forall. intros m I. destruct (flagged id m) eqn:E; [|reflexivity].
    exfalso. apply (HP m I). apply stale_flagged, E.
  - apply stale_flagged, HF.
  - apply intact_sound, HS.
Qed.

(** As many calls as there are stale logs give back everything the application owned, each
    thing once, in the order of the logs, and leave no stale log; all other logs are as before. *)
Theorem C13_as_many_calls_as_logs_partial : forall id l k,
  (forall n, In n l -> stale id n -> intact (n_log n)) ->
  length (filter (stale_b id) l) <= k ->
  exists l', repeat_calls id k l = (l', flat_map (fun n => owned (n_log n)) (filter (stale_b id) l))
    /\ length l' = length l
    /\ forall i n, nth_error l i = Some n ->
         exists n', nth_error l' i = Some n'
           /\ (stale id n -> free_and_empty n') /\ (~ stale id n -> n' = n).
Proof.
  intros id l k HS HL.
  exists (map (fun n => if flagged id n then freed n else n) l).
  rewrite repeat_calls_calls, calls_all.
  - split; [|split].
    + f_equal. change (stale_b id) with (flagged id).
      apply flat_map_ext. intros n. apply gives_owned.
    + apply map_length.
    + intros i n E. exists (if flagged id n then freed n else n).
      split; [rewrite nth_error_map, E; reflexivity|].
      destruct (flagged id n) eqn:F.
      * split; [intros _; apply freed_free|]. intros X. exfalso. apply X, stale_flagged, F.
      * split; [|reflexivity]. intros X. apply stale_flagged in X. congruence.
  - intros n I F. apply intact_sound, HS; [exact I|apply stale_flagged, F].
  - exact HL.
Qed.

(** A call reports success exactly if there was nothing to roll back or some log could be rolled
    back; it reports an error exactly if stale logs exist and each has a half-done transaction. *)
Theorem C13_result : forall id l l' e r,
  (forall n, In n l -> stale id n -> fst (l_sub (n_log n)) = true \/ snd (l_sub (n_log n)) = true \/
                                     forall s, In s (l_slots (n_log n)) -> s = (false, false)) ->
  (forall n, In n l -> stale id n -> l_sub (n_log n) = (true, true) -> l_max (n_log n) <> None) ->
  rollback_proxy id l = (l', e, r) ->
  (r = ROk <-> (forall n, In n l -> ~ stale id n) \/ exists n, In n l /\ stale id n /\ intact (n_log n)) /\
  (r = RErr <-> (exists n, In n l /\ stale id n) /\ forall n, In n l -> stale id n -> ~ intact (n_log n)).
Proof.
  intros id l l' e r HA HB H. unfold rollback_proxy in H.
  assert (R : r = (if existsb (fun n => flagged id n && sound (n_log n)) l then ROk
        else if existsb (flagged id) l then RErr else ROk)).
  { eapply rb_nodes_result; [|discriminate|exact H].
    intros n I F X. apply stale_flagged in F.
    unfold rb_log, rb_sub in X. specialize (HA n I F). specialize (HB n I F).
    destruct (n_log n) as [[b f] m sl]. cbn [l_sub l_max l_slots fst snd] in *.
    destruct (negb b && negb f && has_slot_tx sl) eqn:P.
    - rewrite !Bool.andb_true_iff in P. destruct P as [[P1 P2] P3].
      destruct b, f; cbn in *; try discriminate.
      destruct HA as [Y|[Y|Y]]; try discriminate.
      unfold has_slot_tx in P3. apply existsb_exists in P3 as [s [I1 J]].
      rewrite (Y s I1) in J. discriminate.
    - destruct (rb_slots 0 sl) as [[s1 e1] ok]. destruct ok; [|discriminate X].
      destruct b, f; cbn in X; try discriminate X.
      destruct m; [discriminate X|]. exact (HB eq_refl eq_refl). }
  assert (E1 : existsb (fun n => flagged id n && sound (n_log n)) l = true <->
               exists n, In n l /\ stale id n /\ intact (n_log n)).
  { rewrite existsb_exists. split; intros [n X]; exists n.
    - destruct X as [I X]. apply andb_prop in X as [X1 X2].
      split; [exact I|]. split; [apply stale_flagged, X1|apply sound_intact, X2].
    - destruct X as [I [X1 X2]]. split; [exact I|].
      apply stale_flagged in X1. rewrite X1, (intact_sound _ X2). reflexivity. }
  assert (E2 : existsb (flagged id) l = true <-> exists n, In n l /\ stale id n).
  { rewrite existsb_exists. split; intros [n [I X]]; exists n; (split; [exact I|]); apply stale_flagged, X. }
  destruct (existsb (fun n => flagged id n && sound (n_log n)) l) eqn:B1.
  - destruct E1 as [E1 _]. specialize (E1 eq_refl). subst r. split.
    + split; [intros _; right; exact E1|reflexivity].
    + split; [discriminate|]. intros [_ X]. destruct E1 as [n [I [S T]]]. destruct (X n I S T).
  - assert (NE : ~ exists n, In n l /\ stale id n /\ intact (n_log n))
      by (intros X; apply E1 in X; discriminate).
    destruct (existsb (flagged id) l) eqn:B2; subst r.
    + destruct E2 as [E2 _]. specialize (E2 eq_refl). split.
      * split; [discriminate|]. intros [X|X]; [|contradiction].
        destruct E2 as [n [I S]]. destruct (X n I S).
      * split; [|reflexivity]. intros _. split; [exact E2|]. intros n I S T. apply NE. eauto.
    + assert (NN : forall n, In n l -> ~ stale id n).
      { intros n I S. assert (Y : false = true) by (apply E2; eauto). discriminate. }
      split; [|split; [discriminate|]].
      * split; [intros _; left; exact NN|reflexivity].
      * intros [[n [I S]] _]. destruct (NN n I S).
Qed.

(** Whatever the logs contain, a call never touches a log that is not a stale log of [id]. *)
Theorem C13_others_untouched : forall id l l' e r,
  rollback_proxy id l = (l', e, r) ->
  length l' = length l /\
  forall i n, nth_error l i = Some n -> ~ stale id n -> nth_error l' i = Some n.
Proof.
  intros id l l' e r H. unfold rollback_proxy in H.
  pose proof (rb_nodes_touched _ _ _ _ _ _ H) as T.
  split; [clear H; induction T; cbn; congruence|].
  clear H. induction T; intros [|i] n E NS; cbn in *; try discriminate.
  - injection E; intros; subst. inversion H; subst; auto; exfalso; apply NS, stale_flagged; assumption.
  - eauto.
Qed.

(** C13 as stated is false: with two stale logs one call leaves the second one. *)
Definition two_stale : list node :=
  [ mkNode true (Some 7%N) (mkLog (true, true) (Some 2%N) [(true, true); (false, false); (true, true)]) 0;
    mkNode false (Some 9%N) (mkLog (true, true) (Some 1%N) [(false, false); (true, true); (false, false)]) 0;
    mkNode true (Some 7%N) (mkLog (true, true) (Some 3%N) [(false, false); (true, true); (true, true)]) 0;
    mkNode false None (empty_log 3) 0 ].

Theorem C13_all_logs_refuted :
  exists id l, (forall n, In n l -> stale id n -> intact (n_log n)) /\
    snd (rollback_proxy id l) = ROk /\
    exists n, In n (fst (fst (rollback_proxy id l))) /\ stale id n /\ held (n_log n) <> [].
Proof.
  exists 7%N, two_stale. split; [|split].
  - intros n I S. apply sound_intact.
    repeat (destruct I as [<-|I]; [reflexivity|]). destruct I.
  - reflexivity.
  - exists (nth 2 two_stale (mkNode false None (empty_log 3) 0)).
    split; [vm_compute; auto|]. split; [split; reflexivity|]. vm_compute. discriminate.
Qed.

(** two calls finish the job on the same example *)
Example C13_example :
  repeat_calls 7 2 two_stale =
  ([ mkNode false None (empty_log 3) 0; nth 1 two_stale (mkNode false None (empty_log 3) 0);
     mkNode false None (empty_log 3) 0; mkNode false None (empty_log 3) 0 ],
   [EDeref 0; EDeref 2; EUnsub 2%N; EDeref 1; EDeref 2; EUnsub 3%N]).
Proof. reflexivity. Qed.

(** a half-done transaction: an error, the references already released stay released *)
Example C13_error_example :
  rollback_proxy 7 [mkNode true (Some 7%N) (mkLog (true, true) (Some 2%N) [(true, true); (true, false)]) 0]
  = ([mkNode true (Some 7%N) (mkLog (true, true) (Some 2%N) [(false, false); (true, false)]) 0], [EDeref 0], RErr).
Proof. reflexivity. Qed.

(** * C59: creating a further proxy never rolls back a subscription of a running process *)

(** A log belongs to a running process if it was registered in the current life of its application. *)
Definition of_running_process (w : world) (n : node) : Prop :=
  exists id, n_id n = Some id /\ n_gen n = w_gen w id.

(** In every history of proxy creations, subscriptions, recordings, unsubscriptions and crashes of
    any applications, creating a proxy (in any application) leaves every log that belongs to a
    running process exactly as it was.  One process per application id is assumed (a crash is the
    only way to a new process of the same id). *)
Theorem C59_live_subscriptions_survive_proxy_creation : forall cfg ops id e l i n,
  let w := wrun (winit cfg) ops in
  nth_error (w_evs w) e = Some l -> nth_error l i = Some n -> of_running_process w n ->
  let w' := fst (fst (wstep w (WCreate id))) in
  exists l', nth_error (w_evs w') e = Some l' /\ nth_error l' i = Some n.
Proof.
  intros cfg ops id e l i n w E F [j [J G]] w'.
  pose proof (WI_run ops _ (WI_init cfg)) as W. fold w in W.
  destruct (W l n j (nth_error_In _ _ E) (nth_error_In _ _ F) J) as [_ X].
  destruct (X G) as [X1 X2]. subst w'. cbn [wstep].
  destruct (rb_events id 0 (if w_prep w id then w_evs w else map (map (mark_node id)) (w_evs w)))
    as [[evs ef] r] eqn:R. cbn [fst w_evs].
  pose proof (rb_events_touched _ _ _ _ _ _ R) as T.
  assert (Y : exists l0, nth_error (if w_prep w id then w_evs w else map (map (mark_node id)) (w_evs w)) e = Some l0
              /\ nth_error l0 i = Some n).
  { destruct (w_prep w id) eqn:P; [eauto|].
    exists (map (mark_node id) l). split.
    - rewrite nth_error_map, E. reflexivity.
    - rewrite nth_error_map, F. cbn. f_equal. apply mark_fields. intros Z. rewrite Z in J.
      injection J; intros; subst. congruence. }
  destruct Y as [l0 [Y1 Y2]].
  destruct (touched_nth _ _ _ T _ _ _ _ Y1 Y2) as [l' [n' [A [B C]]]].
  exists l'. split; [exact A|].
  assert (flagged id n = false) by (unfold flagged; rewrite J, X1, Bool.andb_false_r; reflexivity).
  inversion C; subst; auto; congruence.
Qed.

(** A history: application 7 subscribes twice, crashes, creates two proxies, subscribes again; the
    new log survives the second creation, which rolls back the second old log. *)
Definition C59_history : list wop :=
  [ WCreate 7; WSubscribe 7 0; WSubscribe 7 0;
    WLog 0 0 (mkLog (true, true) (Some 2%N) [(true, true); (false, false)]);
    WLog 0 1 (mkLog (true, true) (Some 1%N) [(false, false); (true, true)]);
    WCrash 7; WCreate 7; WSubscribe 7 0;
    WLog 0 0 (mkLog (true, true) (Some 5%N) [(true, true); (false, false)]) ].
Example C59_example :
  let w := wrun (winit [(3, 2)]) C59_history in
  (exists l n, nth_error (w_evs w) 0 = Some l /\ nth_error l 0 = Some n /\ of_running_process w n) /\
  snd (fst (wstep w (WCreate 7))) = [(0, EDeref 1); (0, EUnsub 1%N)].
Proof.
  split; [|reflexivity].
  eexists; eexists; split; [reflexivity|split; [reflexivity|]]. exists 7%N. split; reflexivity.
Qed.

Print Assumptions C13_one_call_partial.
Print Assumptions C13_as_many_calls_as_logs_partial.
Print Assumptions C13_result.
Print Assumptions C13_others_untouched.
Print Assumptions C13_all_logs_refuted.
Print Assumptions C59_live_subscriptions_survive_proxy_creation.
