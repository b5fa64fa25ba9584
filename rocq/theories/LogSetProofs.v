(** Proofs about the set of transaction logs. *)
From Verif Require Export LogSetModel.

Local Arguments has_slot_tx : simpl never.
Definition whole (s : flags) : bool := Bool.eqb (fst s) (snd s).
Fixpoint held_from (i : nat) (l : list flags) : list nat :=
  match l with
  | [] => []
  | (true, true) :: r => i :: held_from (S i) r
  | _ :: r => held_from (S i) r
  end.

Lemma rb_slots_whole : forall l i, forallb whole l = true ->
  rb_slots i l = (repeat (false, false) (length l), map EDeref (held_from i l), true).
Proof.
  induction l as [|[b e] l IH]; intros i H; cbn in *; [reflexivity|].
  apply andb_prop in H as [H1 H2]. rewrite (IH (S i) H2).
  destruct b, e; cbn in *; try discriminate; reflexivity.
Qed.

Lemma rb_slots_ok : forall l i l' e, rb_slots i l = (l', e, true) ->
  forallb whole l = true.
Proof.
  induction l as [|[b f] l IH]; intros i l' e H; cbn in *; [reflexivity|].
  destruct b, f; cbn in *; try discriminate;
    destruct (rb_slots (S i) l) as [[r' e'] ok] eqn:R; injection H; intros; subst;
    rewrite (IH _ _ _ R); reflexivity.
Qed.

Lemma has_slot_repeat : forall k, has_slot_tx (repeat (false, false) k) = false.
Proof. induction k; [reflexivity|exact IHk]. Qed.

Lemma rb_slots_length : forall l i l' e b, rb_slots i l = (l', e, b) -> length l' = length l.
Proof.
  induction l as [|[x y] l IH]; intros i l' e b H; cbn in *; [injection H; intros; subst; reflexivity|].
  destruct x, y; cbn in *;
    try (injection H; intros; subst; reflexivity);
    destruct (rb_slots (S i) l) as [[r' e'] ok] eqn:R; injection H; intros; subst; cbn; f_equal; eauto.
Qed.

Definition sound (g : tlog) : bool :=
  forallb whole (l_slots g) && whole (l_sub g)
  && (negb (fst (l_sub g)) || match l_max g with Some _ => true | None => false end)
  && (fst (l_sub g) || negb (has_slot_tx (l_slots g))).

Definition gives (g : tlog) : list eff :=
  map EDeref (held_from 0 (l_slots g)) ++
  match l_sub g, l_max g with (true, true), Some n => [EUnsub n] | _, _ => [] end.

Definition blank (g : tlog) : tlog :=
  mkLog (false, false) (match l_sub g with (true, true) => None | _ => l_max g end)
        (repeat (false, false) (length (l_slots g))).

Lemma rb_log_sound : forall g, sound g = true -> rb_log g = (blank g, gives g, ROk).
Proof.
  intros [[b e] m l] H. unfold sound in H. cbn in H.
  apply andb_prop in H as [H H4]. apply andb_prop in H as [H H3]. apply andb_prop in H as [H1 H2].
  unfold rb_log, gives, blank, rb_sub. cbn [l_sub l_max l_slots fst snd].
  rewrite (rb_slots_whole _ _ H1).
  destruct b, e; cbn in *; try discriminate.
  - destruct m; cbn in *; [reflexivity|discriminate].
  - destruct (has_slot_tx l); cbn in *; [discriminate|].
    rewrite app_nil_r. reflexivity.
Qed.

Lemma rb_log_ok : forall g g' e, rb_log g = (g', e, ROk) -> sound g = true.
Proof.
  intros [[b f] m l] g' e H. unfold rb_log, rb_sub, sound in *. cbn [l_sub l_max l_slots fst snd] in *.
  destruct (negb b && negb f && has_slot_tx l) eqn:P; [discriminate|].
  destruct (rb_slots 0 l) as [[sl e1] ok] eqn:R. destruct ok; [|discriminate].
  rewrite (rb_slots_ok _ _ _ _ R).
  destruct b, f; cbn in *; try discriminate.
  - destruct m; cbn in *; [reflexivity|discriminate].
  - rewrite P. reflexivity.
Qed.

Lemma blank_contains : forall g, contains_tx (blank g) = false.
Proof. intros g. unfold contains_tx, blank. cbn. apply has_slot_repeat. Qed.

Definition freed (n : node) : node := mkNode false None (blank (n_log n)) (n_gen n).

Lemma rb_nodes_skip : forall id l r, forallb (fun n => negb (flagged id n)) l = true ->
  rb_nodes id l r = (l, [], r).
Proof.
  induction l as [|n l IH]; intros r H; cbn in *; [reflexivity|].
  apply andb_prop in H as [H1 H2]. destruct (flagged id n); [discriminate|].
  rewrite (IH r H2). reflexivity.
Qed.

Lemma flagged_id : forall id n, flagged id n = true -> n_id n = Some id /\ n_need n = true.
Proof.
  intros id n H. unfold flagged in H. destruct (n_id n) as [j|]; [|discriminate].
  apply andb_prop in H as [H1 H2]. apply N.eqb_eq in H1. subst. auto.
Qed.

Lemma rb_nodes_first : forall id pre n post r,
  forallb (fun n => negb (flagged id n)) pre = true ->
  flagged id n = true -> sound (n_log n) = true ->
  rb_nodes id (pre ++ n :: post) r = (pre ++ freed n :: post, gives (n_log n), ROk).
Proof.
  induction pre as [|p pre IH]; intros n post r HP HF HS; cbn [rb_nodes app].
  - rewrite HF, (rb_log_sound _ HS). unfold reset_node. cbn [n_log n_id].
    rewrite blank_contains. destruct (flagged_id _ _ HF) as [-> _]. reflexivity.
  - cbn in HP. apply andb_prop in HP as [H1 H2]. destruct (flagged id p); [discriminate|].
    rewrite (IH n post r H2 HF HS). reflexivity.
Qed.

(** one call in general: at most one log is freed, nothing else moves *)
Inductive touched (id : N) : node -> node -> Prop :=
| t_same : forall n, touched id n n
| t_kept : forall n g, flagged id n = true -> touched id n (mkNode (n_need n) (n_id n) g (n_gen n))
| t_free : forall n, flagged id n = true -> touched id n (freed n).

Lemma touched_refl : forall id l, Forall2 (touched id) l l.
Proof. induction l; constructor; auto; constructor. Qed.

Lemma rb_nodes_touched : forall id l r l' e r', rb_nodes id l r = (l', e, r') ->
  Forall2 (touched id) l l'.
Proof.
  induction l as [|n l IH]; intros r l' e r' H; cbn in *; [injection H; intros; subst; constructor|].
  destruct (flagged id n) eqn:F.
  - destruct (rb_log (n_log n)) as [[g e1] r1] eqn:L. destruct r1.
    + assert (S : sound (n_log n) = true) by (eapply rb_log_ok; eauto).
      rewrite (rb_log_sound _ S) in L. injection L; intros; subst.
      unfold reset_node in H. cbn [n_log n_id] in H. rewrite blank_contains in H.
      destruct (flagged_id _ _ F) as [I _]. rewrite I in H.
      injection H; intros; subst. constructor; [exact (t_free id n F)|apply touched_refl].
    + destruct (rb_nodes id l RErr) as [[rest' e'] r2] eqn:R. injection H; intros; subst.
      constructor; [now constructor 2|eauto].
    + injection H; intros; subst. constructor; [now constructor 2|apply touched_refl].
  - destruct (rb_nodes id l r) as [[rest' e'] r2] eqn:R. injection H; intros; subst.
    constructor; [constructor|eauto].
Qed.

(** iterating *)
Fixpoint calls (id : N) (k : nat) (l : list node) : list node * list eff :=
  match k with
  | 0 => (l, [])
  | S k' => let '(l1, e1, _) := rollback_proxy id l in
            let '(l2, e2) := calls id k' l1 in (l2, e1 ++ e2)
  end.

Lemma split_first : forall id l, existsb (flagged id) l = true ->
  exists pre n post, l = pre ++ n :: post /\ forallb (fun n => negb (flagged id n)) pre = true /\ flagged id n = true.
Proof.
  induction l as [|n l IH]; intros H; cbn in *; [discriminate|].
  destruct (flagged id n) eqn:F.
  - exists [], n, l. auto.
  - destruct IH as [pre [m [post [E [P Q]]]]]; [exact H|].
    exists (n :: pre), m, post. subst. cbn. rewrite F, P. auto.
Qed.

Lemma freed_not_flagged : forall id n, flagged id (freed n) = false.
Proof. reflexivity. Qed.

Lemma filter_skip : forall id l, forallb (fun n => negb (flagged id n)) l = true -> filter (flagged id) l = [].
Proof.
  induction l as [|n l IH]; cbn; intros H; [reflexivity|].
  apply andb_prop in H as [H1 H2]. destruct (flagged id n); [discriminate|auto].
Qed.

Lemma map_skip : forall id l, forallb (fun n => negb (flagged id n)) l = true ->
  map (fun n => if flagged id n then freed n else n) l = l.
Proof.
  induction l as [|n l IH]; cbn; intros H; [reflexivity|].
  apply andb_prop in H as [H1 H2]. destruct (flagged id n); [discriminate|]. now rewrite IH.
Qed.

Lemma none_skip : forall id l, existsb (flagged id) l = false -> forallb (fun n => negb (flagged id n)) l = true.
Proof.
  induction l as [|n l IH]; cbn; intros H; [reflexivity|].
  destruct (flagged id n); [discriminate|]. cbn in *. auto.
Qed.

Lemma calls_idle : forall id k l, existsb (flagged id) l = false -> calls id k l = (l, []).
Proof.
  induction k as [|k IH]; intros l H; [reflexivity|].
  cbn. unfold rollback_proxy. rewrite (rb_nodes_skip _ _ _ (none_skip _ _ H)).
  rewrite (IH l H). reflexivity.
Qed.

Lemma calls_all : forall id k l,
  (forall n, In n l -> flagged id n = true -> sound (n_log n) = true) ->
  length (filter (flagged id) l) <= k ->
  calls id k l = (map (fun n => if flagged id n then freed n else n) l,
                  flat_map (fun n => gives (n_log n)) (filter (flagged id) l)).
Proof.
  induction k as [|k IH]; intros l HS HL.
  - destruct (existsb (flagged id) l) eqn:E.
    + exfalso. apply existsb_exists in E as [n [I F]].
      assert (X : In n (filter (flagged id) l)) by (apply filter_In; auto).
      destruct (filter (flagged id) l); [contradiction|cbn in HL; lia].
    + cbn [calls]. rewrite (map_skip _ _ (none_skip _ _ E)), (filter_skip _ _ (none_skip _ _ E)). reflexivity.
  - destruct (existsb (flagged id) l) eqn:E.
    + destruct (split_first _ _ E) as [pre [n [post [-> [P F]]]]].
      cbn [calls]. unfold rollback_proxy.
      rewrite (rb_nodes_first id pre n post ROk P F) by (apply HS; [apply in_elt|exact F]).
      rewrite filter_app in HL |- *. rewrite (filter_skip _ _ P) in HL |- *.
      cbn [filter app flat_map] in HL |- *. rewrite F in HL |- *. cbn [flat_map length] in HL |- *.
      rewrite IH.
      * rewrite filter_app, (filter_skip _ _ P). cbn [filter app flat_map]. rewrite freed_not_flagged.
        rewrite !map_app. cbn [map]. rewrite freed_not_flagged, F. reflexivity.
      * intros m I Fm. apply in_app_iff in I as [I|[I|I]].
        -- apply HS; [apply in_or_app; auto|exact Fm].
        -- subst. discriminate.
        -- apply HS; [apply in_or_app; right; right; auto|exact Fm].
      * rewrite filter_app, (filter_skip _ _ P). cbn [filter app]. rewrite freed_not_flagged. lia.
    + rewrite (calls_idle _ _ _ E).
      rewrite (map_skip _ _ (none_skip _ _ E)), (filter_skip _ _ (none_skip _ _ E)). reflexivity.
Qed.

(** result of one call *)
Lemma rb_nodes_result : forall id l r l' e r',
  (forall n, In n l -> flagged id n = true -> snd (rb_log (n_log n)) <> RAbort) ->
  r <> RAbort ->
  rb_nodes id l r = (l', e, r') ->
  r' = (if existsb (fun n => flagged id n && sound (n_log n)) l then ROk
        else if existsb (flagged id) l then RErr else r).
Proof.
  induction l as [|n l IH]; intros r l' e r' HA HR H; cbn in *; [injection H; intros; subst; reflexivity|].
  destruct (flagged id n) eqn:F; cbn.
  - destruct (rb_log (n_log n)) as [[g e1] r1] eqn:L. destruct r1.
    + assert (S : sound (n_log n) = true) by (eapply rb_log_ok; eauto).
      rewrite S. rewrite (rb_log_sound _ S) in L. injection L; intros; subst.
      unfold reset_node in H. cbn [n_log n_id] in H. rewrite blank_contains in H.
      destruct (flagged_id _ _ F) as [I _]. rewrite I in H. injection H; intros; subst. reflexivity.
    + destruct (sound (n_log n)) eqn:S; [rewrite (rb_log_sound _ S) in L; discriminate|]. cbn.
      destruct (rb_nodes id l RErr) as [[rest' e'] r2] eqn:R. injection H; intros; subst.
      assert (r' = (if existsb (fun n => flagged id n && sound (n_log n)) l then ROk
        else if existsb (flagged id) l then RErr else RErr)) by (eapply IH; [|discriminate|exact R]; eauto).
      subst. destruct (existsb (flagged id) l); reflexivity.
    + exfalso. apply (HA n); auto. rewrite L. reflexivity.
  - destruct (rb_nodes id l r) as [[rest' e'] r2] eqn:R. injection H; intros; subst.
    eapply IH; [|exact HR|exact R]. eauto.
Qed.

(** world invariant: a log of a running process is never marked *)
Definition live (w : world) (n : node) : Prop := owns w n = true.
Definition WI (w : world) : Prop :=
  (forall l n id, In l (w_evs w) -> In n l -> n_id n = Some id ->
     n_gen n <= w_gen w id /\ (n_gen n = w_gen w id -> n_need n = false /\ w_prep w id = true)).

Lemma touched_in : forall id l l', Forall2 (touched id) l l' ->
  forall n', In n' l' -> exists n, In n l /\ touched id n n'.
Proof.
  induction 1; intros n' I; [destruct I|].
  destruct I as [<-|I]; [eexists; split; [left; reflexivity|assumption]|].
  destruct (IHForall2 _ I) as [n [A B]]. exists n. split; [right; exact A|exact B].
Qed.

Lemma rb_events_touched : forall id evs k evs' e r, rb_events id k evs = (evs', e, r) ->
  Forall2 (Forall2 (touched id)) evs evs'.
Proof.
  assert (R : forall id (l : list node), Forall2 (touched id) l l)
    by (intros id l; induction l; constructor; auto; constructor).
  assert (RR : forall id (l : list (list node)), Forall2 (Forall2 (touched id)) l l)
    by (intros id l; induction l; constructor; auto).
  induction evs as [|l evs IH]; intros k evs' e r H; cbn in *; [injection H; intros; subst; constructor|].
  destruct (rollback_proxy id l) as [[l' e1] r1] eqn:E. unfold rollback_proxy in E.
  pose proof (rb_nodes_touched _ _ _ _ _ _ E) as T.
  destruct r1.
  - destruct (rb_events id (S k) evs) as [[rest' e'] r2] eqn:F. injection H; intros; subst.
    constructor; [exact T|]. eapply IH; eauto.
  - injection H; intros; subst. constructor; auto.
  - injection H; intros; subst. constructor; auto.
Qed.

Lemma touched2_in : forall id evs evs', Forall2 (Forall2 (touched id)) evs evs' ->
  forall l' n', In l' evs' -> In n' l' -> exists l n, In l evs /\ In n l /\ touched id n n'.
Proof.
  induction 1 as [|x y xs ys H F2 IHF]; intros l0 n' I J; [destruct I|].
  destruct I as [<-|I].
  - destruct (touched_in _ _ _ H _ J) as [n [A B]]. exists x, n. cbn. auto.
  - destruct (IHF _ _ I J) as [l1 [n [A [B C]]]]. exists l1, n. cbn. auto.
Qed.

Lemma in_upd : forall A (l : list A) i v x, In x (upd l i v) -> x = v \/ In x l.
Proof.
  induction l as [|a l IH]; intros [|i] v x H; cbn in *; auto.
  - destruct H; auto.
  - destruct H as [H|H]; auto. apply IH in H. tauto.
Qed.

Lemma acquire_in : forall id gen l l' i, acquire id gen l = Some (l', i) ->
  forall n', In n' l' -> In n' l \/ (n_id n' = Some id /\ n_need n' = false /\ n_gen n' = gen).
Proof.
  induction l as [|n l IH]; intros l' i H n' I; cbn in *; [discriminate|].
  destruct (n_id n) eqn:E.
  - destruct (acquire id gen l) as [[r j]|] eqn:F; [|discriminate].
    injection H; intros; subst. destruct I as [<-|I]; auto.
    destruct (IH _ _ eq_refl _ I); auto.
  - injection H; intros; subst. destruct I as [<-|I]; auto.
Qed.

Lemma register_in : forall id gen l l' r, register id gen l = (l', r) ->
  forall n', In n' l' -> In n' l \/ (n_id n' = Some id /\ n_need n' = false /\ n_gen n' = gen).
Proof.
  intros id gen l l' r H n' I. unfold register in H.
  destruct (acquire id gen l) as [[l1 i]|] eqn:E; [|injection H; intros; subst; auto].
  assert (l' = l1) by (destruct (nth_error l1 i); [destruct (contains_tx _)|]; injection H; auto).
  subst. eapply acquire_in; eauto.
Qed.

Lemma mark_fields : forall id n, n_id (mark_node id n) = n_id n /\ n_gen (mark_node id n) = n_gen n /\
  (n_id n <> Some id -> mark_node id n = n).
Proof.
  intros id n. unfold mark_node. destruct (n_id n) as [j|] eqn:E; [|auto].
  destruct (j =? id)%N eqn:F; cbn; repeat split; auto.
  intros X. apply N.eqb_eq in F. subst. congruence.
Qed.

Lemma WI_step : forall w o, WI w -> WI (fst (fst (wstep w o))).
Proof.
  intros w o H. destruct o as [id|id e|e i g|e i|id]; cbn [wstep].
  - destruct (rb_events id 0 (if w_prep w id then w_evs w else map (map (mark_node id)) (w_evs w)))
      as [[evs ef] r] eqn:R. cbn [fst].
    intros l' n' j I J K. cbn [w_evs w_gen w_prep] in *.
    destruct (touched2_in _ _ _ (rb_events_touched _ _ _ _ _ _ R) _ _ I J) as [l [n [A [B C]]]].
    assert (X : exists m, (exists lm, In lm (w_evs w) /\ In m lm) /\ n_id n = n_id m /\ n_gen n = n_gen m /\
                 (w_prep w id = true \/ n_id m <> Some id -> n = m)).
    { destruct (w_prep w id) eqn:P.
      - exists n. split; [eauto|]. auto.
      - apply in_map_iff in A as [lm [<- A]]. apply in_map_iff in B as [m [<- B]].
        exists m. destruct (mark_fields id m) as [E1 [E2 E3]]. repeat split; eauto.
        intros [Y|Y]; [discriminate|auto]. }
    destruct X as [m [[lm [A1 B1]] [E1 [E2 E3]]]].
    assert (G : n_id n' = n_id n /\ n_gen n' = n_gen n /\ n_need n' = n_need n).
    { inversion C; subst; cbn in *; auto. discriminate. }
    destruct G as [G1 [G2 G3]]. rewrite G1, E1 in K.
    destruct (H lm m j A1 B1 K) as [H1 H2]. rewrite G2, E2. split; [exact H1|].
    intros Y. destruct (H2 Y) as [H3 H4].
    unfold nupd. destruct (j =? id)%N eqn:Q.
    + apply N.eqb_eq in Q. subst j. rewrite G3, E3 by auto. auto.
    + apply N.eqb_neq in Q. rewrite G3, E3 by (right; congruence). auto.
  - destruct (w_prep w id) eqn:P; [|exact H].
    destruct (nth_error (w_evs w) e) as [l|] eqn:L; [|exact H].
    destruct (register id (w_gen w id) l) as [l' r] eqn:R. cbn [fst].
    intros l1 n j I J K. cbn [w_evs w_gen w_prep] in *.
    apply in_upd in I as [->|I]; [|eauto].
    destruct (register_in _ _ _ _ _ R _ J) as [X|[X [Y Z]]].
    + apply nth_error_In in L. eauto.
    + rewrite X in K. injection K; intros; subst j. rewrite Z. auto.
  - destruct (nth_error (w_evs w) e) as [l|] eqn:L; [|exact H].
    destruct (nth_error l i) as [n|] eqn:Nn; [|exact H].
    destruct (owns w n); [|exact H]. cbn [fst].
    intros l1 m j I J K. cbn [w_evs w_gen w_prep] in *.
    apply in_upd in I as [->|I]; [|eauto].
    apply in_upd in J as [->|J].
    + cbn in *. apply nth_error_In in L, Nn. exact (H l n j L Nn K).
    + apply nth_error_In in L. eauto.
  - destruct (nth_error (w_evs w) e) as [l|] eqn:L; [|exact H].
    destruct (nth_error l i) as [n|] eqn:Nn; [|exact H].
    destruct (owns w n); [|exact H].
    unfold unregister. rewrite Nn. destruct (reset_node n) as [n2|] eqn:R; [|exact H]. cbn [fst].
    intros l1 m j I J K. cbn [w_evs w_gen w_prep] in *.
    apply in_upd in I as [->|I]; [|eauto].
    apply in_upd in J as [->|J].
    + unfold reset_node in R. destruct (contains_tx (n_log n)); [discriminate|].
      destruct (n_id n); [|discriminate]. injection R; intros; subst. discriminate.
    + apply nth_error_In in L. eauto.
  - cbn [fst]. intros l n j I J K. cbn [w_evs w_gen w_prep] in *.
    destruct (H l n j I J K) as [H1 H2]. unfold nupd.
    destruct (j =? id)%N eqn:Q; [|auto].
    apply N.eqb_eq in Q. subst j. split; [lia|intros; lia].
Qed.

Lemma WI_init : forall cfg, WI (winit cfg).
Proof.
  intros cfg l n id I J K. cbn in I. apply in_map_iff in I as [c [<- I]].
  apply repeat_spec in J. subst. discriminate.
Qed.

Lemma WI_run : forall ops w, WI w -> WI (wrun w ops).
Proof. induction ops; intros w H; cbn; auto. apply IHops, WI_step, H. Qed.

Lemma touched_nth : forall id evs evs', Forall2 (Forall2 (touched id)) evs evs' ->
  forall e l i n, nth_error evs e = Some l -> nth_error l i = Some n ->
  exists l' n', nth_error evs' e = Some l' /\ nth_error l' i = Some n' /\ touched id n n'.
Proof.
  assert (A : forall id l l', Forall2 (touched id) l l' -> forall i n, nth_error l i = Some n ->
            exists n', nth_error l' i = Some n' /\ touched id n n').
  { induction 1; intros [|i] n E; cbn in *; try discriminate.
    - injection E; intros; subst. eauto.
    - eauto. }
  induction 1; intros [|e] l0 i n E F; cbn in *; try discriminate.
  - injection E; intros; subst. destruct (A _ _ _ H _ _ F) as [n' [X Y]]. eauto.
  - eauto.
Qed.
