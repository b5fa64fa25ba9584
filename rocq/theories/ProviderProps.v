(** C20, C25 and C60: allocated samples, tracing and the field getter of a provider. *)
From Verif Require Import ProviderModel ProviderProofs.
Local Open Scope N_scope.

(** * Specification vocabulary *)

(** The offer is only stopped while the application holds no allocated sample. *)
Definition no_sample_held_at_stop (s : prov) (o : pop) : Prop := o = PStop -> forall v, p_vars s v = None.

(** Every state some history leads to; [a], [p], [b] count the samples successfully allocated,
    published by Send and given back by a pointer that was reset, overwritten or destroyed. *)
Inductive history (n : nat) : nat -> nat -> nat -> prov -> Prop :=
| h_start : history n 0 0 0 (pinit n)
| h_step : forall a p b s o s' r,
    history n a p b s -> no_sample_held_at_stop s o -> pstep s o = (s', r) -> r <> OAbort -> r <> OUndefined ->
    history n
      (match o, r with PAlloc _, OSlot _ => S a | _, _ => a end)
      (match o, r with PSend _ _, OOk => S p | _, _ => p end)
      (match o, r with
       | PAlloc v, OSlot _ | PReset v, OOk => match p_vars s v with Some _ => S b | None => b end
       | _, _ => b
       end)
      s'.

Definition in_writing (s : prov) (i : nat) : Prop := nth_error (p_slots s) i = Some IN_WRITING.
(** slot i holds the published sample with sequence number t *)
Definition published (s : prov) (i : nat) (t : N) : Prop :=
  exists w, nth_error (p_slots s) i = Some w /\ ts_of w = t /\ 0 < t.
Definition newest (s : prov) (i : nat) : Prop :=
  exists t, published s i t /\ forall j u, published s j u -> u <= t.

Lemma history_good n a p b s : history n a p b s -> good s.
Proof.
  induction 1; [apply good_init|].
  pose proof (step_good s o IHhistory H0) as S. rewrite H1 in S. destruct S as [S _].
  apply S. destruct r; try reflexivity; congruence.
Qed.

Lemma newest_traced_iff s i : good s -> newest s i -> (In i (p_traced s) <-> newest_traced s).
Proof.
  intros [C _] (t & (w & E & T & P) & M). split.
  - intros I. exists i, w. subst t. repeat split; auto. intros j x J.
    destruct (N.eq_dec (ts_of x) 0) as [Z|Z]; [lia|]. apply (M j). exists x. repeat split; auto. lia.
  - intros (j & x & J1 & J2 & J3 & J4).
    destruct (Nat.eq_dec j i) as [->|Ne]; [exact J1|exfalso].
    apply (c_dist _ _ _ _ _ _ C j i x w Ne J2 E J3).
    specialize (J4 _ _ E). assert (ts_of x <= t) by (apply (M j); exists x; auto). lia.
Qed.

(** * C20 *)

(** Reading the latest value aborts the provider exactly if the newest published sample is still
    held by tracing.  MISSING from C20: that this case does not exist (see the refutation). *)
Theorem C20_getter_aborts_exactly_if_traced_partial : forall n a p b s,
  history n a p b s -> p_offered s = true -> p_getter s = None ->
  (snd (pstep s PGet) = OAbort <-> exists i, newest s i /\ In i (p_traced s)).
Proof.
  intros n a p b s H O G. pose proof (history_good _ _ _ _ _ H) as GD.
  pose proof (step_good s PGet GD ltac:(discriminate)) as S.
  destruct (pstep s PGet) as [s' r]. destruct S as (_ & _ & S). cbn [snd]. rewrite S. split.
  - intros [(_ & _ & _ & (i & w & X1 & X2 & X3 & X4))|(X & _)]; [|discriminate].
    exists i. split; [|exact X1]. exists (ts_of w). split; [exists w; auto|].
    intros j u (x & E & <- & _). eauto.
  - intros (i & N & I). left. repeat split; auto. apply (newest_traced_iff s i GD N). exact I.
Qed.

(** Otherwise the getter hands out the newest published sample, or reports an error if nothing is
    published. *)
Theorem C20_getter_returns_newest : forall n a p b s,
  history n a p b s -> p_offered s = true -> p_getter s = None ->
  (forall i, newest s i -> ~ In i (p_traced s)) ->
  (exists i, newest s i /\ snd (pstep s PGet) = OSlot i) \/
  ((forall i t, ~ published s i t) /\ snd (pstep s PGet) = OErr).
Proof.
  intros n a p b s H O G T. pose proof (history_good _ _ _ _ _ H) as GD.
  pose proof (step_good s PGet GD ltac:(discriminate)) as S.
  pose proof (find_newest_core s GD) as F.
  assert (NA : snd (pstep s PGet) <> OAbort).
  { intros X. apply (C20_getter_aborts_exactly_if_traced_partial n a p b s H O G) in X as (i & N & I). exact (T i N I). }
  clear S. cbn [pstep] in *. rewrite O, G in *.
  destruct (find_newest 0 TIMESTAMP_MAX (p_slots s) 0 None) as [[i w]|].
  - left. exists i. destruct F as (F1 & F2 & F3). split.
    + exists (ts_of w). split; [exists w; auto|]. intros j u (x & E & <- & _). eauto.
    + destruct (w =? two64 - 1); [cbn in NA; congruence|].
      destruct (tx_begin (p_log s) i); [|cbn in NA; congruence].
      destruct (tx_commit l i); [reflexivity|cbn in NA; congruence].
  - right. split; [|reflexivity]. intros i t (w & E & <- & P). rewrite (F _ _ E) in P. lia.
Qed.

(** The only other abort of a provider in this model: stopping the offer while the sample handed
    out by the getter is still alive. *)
Theorem C20_only_aborts : forall n a p b s o,
  history n a p b s -> no_sample_held_at_stop s o ->
  snd (pstep s o) <> OUndefined /\
  (snd (pstep s o) = OAbort ->
     (o = PGet /\ exists i, newest s i /\ In i (p_traced s)) \/ (o = PStop /\ p_getter s <> None)).
Proof.
  intros n a p b s o H ORD. pose proof (history_good _ _ _ _ _ H) as GD.
  pose proof (step_good s o GD ORD) as S.
  destruct (pstep s o) as [s' r] eqn:E. destruct S as (_ & S1 & S2). cbn [snd]. split; [exact S1|].
  intros R. pose proof R as R0. apply S2 in R as [(-> & O & G & _)|(-> & _ & G)]; [left; split; [reflexivity|]|auto].
  apply (C20_getter_aborts_exactly_if_traced_partial n a p b s H O G). rewrite E. exact R0.
Qed.

(** C20 as stated is false. *)
Theorem C20_refuted : exists ops,
  snd (prun (pinit 2) ops) = [OSlot 0; OOk; OAbort]%nat /\ ops = [PAlloc 0; PSend 0 true; PGet].
Proof. exists [PAlloc 0; PSend 0 true; PGet]. split; reflexivity. Qed.

Example C20_example :
  snd (prun (pinit 2) [PAlloc 0; PSend 0 true; PAlloc 1; PSend 1 false; PGet; PTraceDone 0; PGetDone; PStop])
  = [OSlot 0; OOk; OSlot 1; OOk; OSlot 1; OOk; OOk; OOk]%nat.
Proof. reflexivity. Qed.

Example C20_stop_example :
  snd (prun (pinit 2) [PAlloc 0; PSend 0 false; PGet; PStop]) = [OSlot 0; OOk; OSlot 0; OAbort]%nat.
Proof. reflexivity. Qed.

(** * C25 *)

(** A slot is being written exactly while one application pointer owns it, and only one does. *)
Theorem C25_one_owner : forall n a p b s,
  history n a p b s ->
  (forall i, in_writing s i <-> exists v, p_vars s v = Some i) /\
  (forall v w i, p_vars s v = Some i -> p_vars s w = Some i -> v = w).
Proof.
  intros n a p b s H. destruct (history_good _ _ _ _ _ H) as [C _]. split; [|apply C].
  intros i. split.
  - intros W. apply (slot_writing _ _ _ _ _ (c_slot _ _ _ _ _ _ C i _ W)).
  - intros [v V]. exact (c_var _ _ _ _ _ _ C v i V).
Qed.

(** Allocate hands out a slot that nobody references or owns. *)
Theorem C25_allocate : forall n a p b s s' v i,
  history n a p b s -> pstep s (PAlloc v) = (s', OSlot i) ->
  ~ in_writing s i /\ p_crefs s i = 0 /\ ~ In i (p_traced s) /\ p_getter s <> Some i /\
  p_vars s' v = Some i /\ in_writing s' i.
Proof.
  intros n a p b s s' v i H E. pose proof (history_good _ _ _ _ _ H) as GD. pose proof GD as [C _].
  pose proof (step_good s (PAlloc v) GD ltac:(discriminate)) as S. rewrite E in S. destruct S as [S _].
  specialize (S eq_refl). destruct S as [C' _].
  cbn [pstep] in E. destruct (p_offered s) eqn:O; [|discriminate].
  destruct (AllocateNextSlot_quiet (p_slots s)) as [[j|] sl] eqn:A; [|discriminate].
  destruct (core_alloc _ _ _ _ _ _ _ _ C A) as ((w & W & Q) & K1 & K2 & K3 & ->).
  assert (X : i = j /\ p_vars s' v = Some i).
  { destruct (p_vars s v) as [x|] eqn:V; cbn [discard_ptr p_offered p_slots] in E.
    - destruct (Discard _ _); [|discriminate]. injection E as <- <-. split; [reflexivity|]. cbn. unfold vset. rewrite Nat.eqb_refl. reflexivity.
    - injection E as <- <-. split; [reflexivity|]. cbn. unfold vset. rewrite Nat.eqb_refl. reflexivity. }
  destruct X as [<- V']. apply hb_false in K2.
  split; [|split; [exact K1|split; [|split; [|split; [exact V'|]]]]].
  - intros X. unfold in_writing in X. rewrite W in X. injection X as X.
    destruct Q as [Q|(_ & Q & _)]; [rewrite Q in X; discriminate|contradiction].
  - intros X. apply K2, in_or_app. left. exact X.
  - intros X. apply K2, in_or_app. right. rewrite X. left. reflexivity.
  - exact (c_var _ _ _ _ _ _ C' v i V').
Qed.

(** Send publishes the sample with the next sequence number, takes it from the pointer for good
    and changes no other sample; the destruction of the pointer after Send has no effect. *)
Theorem C25_send : forall n a p b s v tr i,
  history n a p b s -> p_vars s v = Some i -> p_offered s = true -> p_ts s + 1 < TIMESTAMP_MAX ->
  exists s', pstep s (PSend v tr) = (s', OOk) /\
    published s' i (p_ts s + 1) /\ (forall u, p_vars s' u <> Some i) /\
    (forall u, u <> v -> p_vars s' u = p_vars s u) /\
    forall j, j <> i -> nth_error (p_slots s') j = nth_error (p_slots s) j.
Proof.
  intros n a p b s v tr i H V O B. pose proof (history_good _ _ _ _ _ H) as GD. pose proof GD as [C _].
  pose proof (c_var _ _ _ _ _ _ C v i V) as W.
  destruct (core_publish _ _ _ _ _ _ v i C V B) as [R C1].
  pose proof (slot_writing _ _ _ _ _ (c_slot _ _ _ _ _ _ C i _ W)) as (A1 & A2 & _).
  assert (E1 : nth_error (lset (p_slots s) i (word (p_ts s + 1) 0)) i = Some (word (p_ts s + 1) 0)) by (eapply lset_some; eauto).
  assert (T1 : ts_of (word (p_ts s + 1) 0) = p_ts s + 1) by (apply ts_word; reflexivity).
  assert (NV : forall u, vset (p_vars s) v None u <> Some i).
  { intros u X. unfold vset in X. destruct (Nat.eqb_spec u v); [discriminate|]. apply n0. eapply (c_inj _ _ _ _ _ _ C); eauto. }
  assert (OV : forall u, u <> v -> vset (p_vars s) v None u = p_vars s u).
  { intros u X. unfold vset. apply Nat.eqb_neq in X. rewrite X. reflexivity. }
  cbn [pstep]. rewrite V, O. pose proof B as B'. apply N.ltb_lt in B. rewrite B, R. rewrite tmax_val in B'.
  destruct tr.
  - destruct (core_ref _ _ _ _ _ _ i _ C1 E1) as (Q1 & Q2 & Q3 & Q4 & lg1 & Q5 & lg2 & Q6 & Q7); [rewrite T1; lia|exact A2|].
    unfold reference_specific. rewrite E1, Q1, Q2, Q5. cbn [orb].
    apply N.eqb_neq in Q3. rewrite Q3, Q6. cbn [discard_ptr p_offered p_slots].
    assert (IW : w_inc (word (p_ts s + 1) 0) = word (p_ts s + 1) 1).
    { rewrite word_inc; [reflexivity|rewrite two32_val; lia|reflexivity]. }
    rewrite IW. erewrite discard_published; [|eapply lset_some; exact E1|lia|reflexivity].
    eexists. split; [reflexivity|]. cbn. split; [|split; [exact NV|split; [exact OV|]]].
    + eexists. split; [eapply lset_some; exact E1|]. rewrite ts_word by reflexivity. lia.
    + intros j N. rewrite !lset_nth_neq by auto. reflexivity.
  - cbn [discard_ptr p_offered p_slots]. erewrite discard_published; [|exact E1|lia|reflexivity].
    eexists. split; [reflexivity|]. cbn. split; [|split; [exact NV|split; [exact OV|]]].
    + eexists. split; [exact E1|]. rewrite T1. lia.
    + intros j N. rewrite !lset_nth_neq by auto. reflexivity.
Qed.

(** A pointer that is reset or destroyed gives its sample back and touches nothing else; an empty
    pointer touches nothing. *)
Theorem C25_give_back : forall n a p b s v,
  history n a p b s ->
  exists s', pstep s (PReset v) = (s', OOk) /\ p_vars s' v = None /\
    (forall u, u <> v -> p_vars s' u = p_vars s u) /\
    match p_vars s v with
    | None => p_slots s' = p_slots s
    | Some i => nth_error (p_slots s') i = Some INVALID_EVENT /\
                forall j, j <> i -> nth_error (p_slots s') j = nth_error (p_slots s) j
    end.
Proof.
  intros n a p b s v H. pose proof (history_good _ _ _ _ _ H) as GD. pose proof GD as [C OFF].
  cbn [pstep]. destruct (p_vars s v) as [i|] eqn:V; cbn [discard_ptr set_vars p_offered p_slots].
  - destruct (p_offered s) eqn:O; [|destruct (OFF eq_refl) as [X _]; rewrite X in V; discriminate].
    destruct (core_discard _ _ _ _ _ _ v i C V) as (sl & D & C1 & ->). rewrite D.
    eexists. split; [reflexivity|]. cbn. unfold vset. rewrite Nat.eqb_refl. split; [reflexivity|].
    split; [intros u N; apply Nat.eqb_neq in N; rewrite N; reflexivity|].
    split; [eapply lset_some; exact (c_var _ _ _ _ _ _ C v i V)|].
    intros j N. apply lset_nth_neq. auto.
  - eexists. split; [reflexivity|]. cbn. unfold vset. rewrite Nat.eqb_refl. split; [reflexivity|].
    split; [intros u N; apply Nat.eqb_neq in N; rewrite N; reflexivity|reflexivity].
Qed.

(** Moves and swaps only exchange who owns what. *)
Theorem C25_moves : forall n a p b s v w,
  history n a p b s ->
  exists s', pstep s (PSwap v w) = (s', OOk) /\ p_slots s' = p_slots s /\
    p_vars s' v = p_vars s w /\ p_vars s' w = p_vars s v /\
    forall u, u <> v -> u <> w -> p_vars s' u = p_vars s u.
Proof.
  intros n a p b s v w _. eexists. split; [reflexivity|]. cbn. split; [reflexivity|].
  unfold vset. rewrite !Nat.eqb_refl. split; [|split; [reflexivity|]].
  - destruct (Nat.eqb_spec v w); [subst; reflexivity|reflexivity].
  - intros u N1 N2. apply Nat.eqb_neq in N1, N2. rewrite N1, N2. reflexivity.
Qed.

(** Every allocated sample is published, given back or still owned, and never two of these:
    allocations = publications + samples given back + slots in writing. *)
Definition wcount (sl : list N) : nat := length (filter is_in_writing sl).

Lemma wcount_lset sl i w x : nth_error sl i = Some w ->
  (wcount (lset sl i x) + (if is_in_writing w then 1 else 0) = wcount sl + (if is_in_writing x then 1 else 0))%nat.
Proof.
  revert i. induction sl as [|y sl IH]; intros [|i] E; cbn in E; try discriminate.
  - injection E as ->. unfold wcount. cbn [lset filter]. destruct (is_in_writing x), (is_in_writing w); cbn; lia.
  - specialize (IH i E). unfold wcount in *. cbn [lset filter]. destruct (is_in_writing y); cbn [length]; lia.
Qed.

Lemma nth_error_same {A} : forall (l l' : list A), (forall i, nth_error l i = nth_error l' i) -> l = l'.
Proof.
  induction l as [|x l IH]; intros [|y l'] E; auto.
  - specialize (E 0%nat). discriminate.
  - specialize (E 0%nat). discriminate.
  - pose proof (E 0%nat) as E0. injection E0 as ->. f_equal. apply IH. intros i. exact (E (S i)).
Qed.

Lemma wcount_ready sl i w x : nth_error sl i = Some w -> is_in_writing w = false -> is_in_writing x = false ->
  wcount (lset sl i x) = wcount sl.
Proof. intros E A B. pose proof (wcount_lset sl i w x E) as X. rewrite A, B in X. lia. Qed.

Lemma ready_not_writing w : 0 < ts_of w -> is_in_writing w = false.
Proof.
  intros T. destruct (is_in_writing w) eqn:E; [|reflexivity]. apply is_in_writing_true in E. subst.
  rewrite ts_in_writing in T. lia.
Qed.

Lemma deref_all_wcount G ts vars cr : forall T sl lg sl' lg', core sl lg ts vars (T ++ G) cr ->
  dereference_all sl lg T = Some (sl', lg') -> wcount sl' = wcount sl.
Proof.
  induction T as [|i T IH]; intros sl lg sl' lg' C D; cbn [dereference_all app] in *; [injection D as <- <-; reflexivity|].
  destruct (core_deref _ _ _ _ _ _ i C (or_introl eq_refl)) as (sl1 & lg1 & w & D1 & E & -> & T1 & T2 & K).
  rewrite D1 in D. erewrite (IH _ _ _ _ _ D).
  - eapply wcount_ready; [exact E|apply ready_not_writing; exact T2|apply ready_not_writing; lia].
  Unshelve.
  apply K.
  + intros j. rewrite hb_cons. pose proof (c_nodup _ _ _ _ _ _ C) as ND. inversion ND; subst.
    destruct (Nat.eqb_spec j i); cbn; [subst; apply hb_false; assumption|reflexivity].
  + pose proof (c_nodup _ _ _ _ _ _ C) as ND. inversion ND; subst. assumption.
Qed.

Lemma no_vars_wcount s : good s -> (forall v, p_vars s v = None) -> wcount (p_slots s) = 0%nat.
Proof.
  intros [C _] NV. unfold wcount.
  destruct (filter is_in_writing (p_slots s)) as [|w l] eqn:F; [reflexivity|exfalso].
  assert (I : In w (filter is_in_writing (p_slots s))) by (rewrite F; left; reflexivity).
  apply filter_In in I as [I W]. apply is_in_writing_true in W. subst w.
  apply In_nth_error in I as [j E].
  destruct (slot_writing _ _ _ _ _ (c_slot _ _ _ _ _ _ C j _ E)) as (_ & _ & v & V). rewrite NV in V. discriminate.
Qed.

Theorem C25_accounting : forall n a p b s,
  history n a p b s -> a = (p + b + wcount (p_slots s))%nat.
Proof.
  intros n a p b s H. induction H as [|a p b s o s' r H IH ORD E NA NU].
  - cbn. unfold wcount. induction n; cbn; auto.
  - pose proof (history_good _ _ _ _ _ H) as GD. pose proof GD as [C OFF].
    destruct o as [v|x y|v|v tr|k| | |i|i| |fresh].
    + cbn [pstep] in E. destruct (p_offered s) eqn:O; [|injection E as <- <-; exact IH].
      destruct (AllocateNextSlot_quiet (p_slots s)) as [[i|] sl] eqn:A; [|injection E as <- <-; exact IH].
      destruct (core_alloc _ _ _ _ _ _ _ _ C A) as ((w & W & Q) & K1 & K2 & K3 & ->).
      assert (NW : is_in_writing w = false).
      { destruct (is_in_writing w) eqn:X; [|reflexivity]. apply is_in_writing_true in X. subst w.
        destruct Q as [Q|(_ & Q & _)]; [discriminate|congruence]. }
      pose proof (wcount_lset _ _ _ IN_WRITING W) as X. rewrite NW in X. change (is_in_writing IN_WRITING) with true in X. cbv iota in X.
      destruct (p_vars s v) as [z|] eqn:V; cbn [discard_ptr p_offered p_slots] in E.
      * assert (N : z <> i) by (intros ->; destruct (K3 _ V)).
        pose proof (c_var _ _ _ _ _ _ C v z V) as Wz.
        assert (Wz' : nth_error (lset (p_slots s) i IN_WRITING) z = Some IN_WRITING) by (rewrite lset_nth_neq by auto; exact Wz).
        unfold Discard in E. rewrite Wz' in E. change (is_in_writing IN_WRITING) with true in E. cbv iota in E.
        injection E as <- <-. cbn [p_slots].
        pose proof (wcount_lset _ _ _ INVALID_EVENT Wz') as Y. change (is_in_writing IN_WRITING) with true in Y.
        change (is_in_writing INVALID_EVENT) with false in Y. cbv iota in Y. lia.
      * injection E as <- <-. cbn [p_slots]. lia.
    + cbn [pstep] in E. injection E as <- <-. exact IH.
    + cbn [pstep] in E. destruct (p_vars s v) as [z|] eqn:V; cbn [discard_ptr set_vars p_offered p_slots] in E.
      * destruct (p_offered s) eqn:O; [|injection E as <- <-; congruence].
        pose proof (c_var _ _ _ _ _ _ C v z V) as Wz.
        unfold Discard in E. rewrite Wz in E. change (is_in_writing IN_WRITING) with true in E. cbv iota in E.
        injection E as <- <-. cbn [p_slots].
        pose proof (wcount_lset _ _ _ INVALID_EVENT Wz) as Y. change (is_in_writing IN_WRITING) with true in Y.
        change (is_in_writing INVALID_EVENT) with false in Y. cbv iota in Y. lia.
      * injection E as <- <-. exact IH.
    + destruct (p_vars s v) as [i|] eqn:V; [|cbn [pstep] in E; rewrite V in E; injection E as <- <-; exact IH].
      destruct (p_offered s) eqn:O; [|destruct (OFF eq_refl) as [X _]; rewrite X in V; discriminate].
      destruct (p_ts s + 1 <? TIMESTAMP_MAX) eqn:B; [|cbn [pstep] in E; rewrite V, O, B in E; injection E as <- <-; exact IH].
      apply N.ltb_lt in B.
      destruct (C25_send n a p b s v tr i H V O B) as (s1 & E1 & (w & W & T & P) & _ & _ & OT).
      rewrite E in E1. injection E1 as -> ->.
      pose proof (c_var _ _ _ _ _ _ C v i V) as Wi.
      assert (EQ : p_slots s1 = lset (p_slots s) i w).
      { apply nth_error_same. intros j. destruct (Nat.eq_dec j i) as [->|N].
        - rewrite W. symmetry. eapply lset_some; eauto.
        - rewrite lset_nth_neq by auto. apply OT, N. }
      rewrite EQ. pose proof (wcount_lset _ _ _ w Wi) as Y. change (is_in_writing IN_WRITING) with true in Y.
      rewrite (ready_not_writing w) in Y by lia. cbv iota in Y. lia.
    + cbn [pstep] in E. destruct (nth_error (p_traced s) k) as [i|] eqn:K; [|injection E as <- <-; exact IH].
      assert (IN : In i (Hof s)) by (apply in_or_app; left; eapply nth_error_In; eauto).
      destruct (core_deref _ _ _ _ _ _ i C IN) as (sl' & lg' & w & D & W & -> & T1 & T2 & _). rewrite D in E.
      injection E as <- <-. cbn [p_slots].
      rewrite (wcount_ready _ _ _ _ W); [exact IH|apply ready_not_writing; exact T2|apply ready_not_writing; lia].
    + cbn [pstep] in E. destruct (p_offered s) eqn:O; [|injection E as <- <-; exact IH].
      destruct (p_getter s) eqn:G; [injection E as <- <-; exact IH|].
      pose proof (find_newest_core s GD) as F.
      destruct (find_newest 0 TIMESTAMP_MAX (p_slots s) 0 None) as [[i w]|]; [|injection E as <- <-; exact IH].
      destruct F as (F1 & F2 & _).
      destruct (hb (Hof s) i) eqn:HB.
      * exfalso. assert (TB : tx_begin (p_log s) i = None).
        { unfold tx_begin. destruct (nth_error (p_log s) i) as [f|] eqn:FF; [|reflexivity].
          rewrite (c_log _ _ _ _ _ _ C i f FF), HB. reflexivity. }
        rewrite TB in E. destruct (w =? two64 - 1); injection E as <- <-; congruence.
      * destruct (core_ref _ _ _ _ _ _ i w C F1 F2 HB) as (Q1 & Q2 & Q3 & Q4 & lg1 & Q5 & lg2 & Q6 & _).
        apply N.eqb_neq in Q4. rewrite Q4, Q5, Q6 in E. injection E as <- <-. cbn [p_slots].
        rewrite (wcount_ready _ _ _ _ F1); [exact IH|exact Q1|].
        apply ready_not_writing.
        destruct (c_slot _ _ _ _ _ _ C i w F1) as [(P1 & _)|[(P1 & _)|(t & P1 & P2 & P3 & P4 & P5)]].
        { subst. change (ts_of 0) with 0 in F2. lia. } { subst. rewrite ts_in_writing in F2. lia. }
        pose proof (hc_le (Hof s) i). pose proof (c_ts _ _ _ _ _ _ C) as TS. rewrite tmax_val in TS.
        rewrite two32_val in P4.
        subst w. rewrite word_inc by (rewrite two32_val; lia). rewrite ts_word by (rewrite two32_val; lia). exact P2.
    + cbn [pstep] in E. destruct (p_getter s) as [i|] eqn:G; [|injection E as <- <-; exact IH].
      assert (IN : In i (Hof s)) by (apply in_or_app; right; rewrite G; left; reflexivity).
      destruct (core_deref _ _ _ _ _ _ i C IN) as (sl' & lg' & w & D & W & -> & T1 & T2 & _). rewrite D in E.
      injection E as <- <-. cbn [p_slots].
      rewrite (wcount_ready _ _ _ _ W); [exact IH|apply ready_not_writing; exact T2|apply ready_not_writing; lia].
    + cbn [pstep] in E. destruct (nth_error (p_slots s) i) as [w|] eqn:W; [|injection E as <- <-; exact IH].
      destruct (negb (is_in_writing w) && negb (is_invalid w) && (p_crefs s i + 3 <? two32 - 1))%bool eqn:B; [|injection E as <- <-; exact IH].
      rewrite !Bool.andb_true_iff, !Bool.negb_true_iff in B. destruct B as [[B1 B2] B3]. apply N.ltb_lt in B3.
      injection E as <- <-. cbn [p_slots]. rewrite (wcount_ready _ _ _ _ W); [exact IH|exact B1|].
      destruct (c_slot _ _ _ _ _ _ C i w W) as [(P1 & _)|[(P1 & _)|(t & P1 & P2 & P3 & P4 & P5)]].
      { subst. discriminate. } { subst. discriminate. }
      pose proof (hc_le (Hof s) i). pose proof (c_ts _ _ _ _ _ _ C) as TS. rewrite tmax_val in TS.
      rewrite two32_val in *. subst w. rewrite word_inc by (rewrite two32_val; lia).
      apply word_not_writing; [exact P2|rewrite two32_val; lia].
    + cbn [pstep] in E. destruct (nth_error (p_slots s) i) as [w|] eqn:W; [|injection E as <- <-; exact IH].
      destruct (0 <? p_crefs s i) eqn:B; [|injection E as <- <-; exact IH]. apply N.ltb_lt in B.
      injection E as <- <-. cbn [p_slots].
      destruct (c_slot _ _ _ _ _ _ C i w W) as [(_ & P1 & _)|[(_ & P1 & _)|(t & P1 & P2 & P3 & P4 & P5)]]; [lia|lia|].
      pose proof (hc_le (Hof s) i). pose proof (c_ts _ _ _ _ _ _ C) as TS. rewrite tmax_val in TS. rewrite two32_val in *.
      assert (Z : is_in_writing w = false) by (subst w; apply word_not_writing; [exact P2|rewrite two32_val; lia]).
      rewrite (wcount_ready _ _ _ _ W); [exact IH|exact Z|].
      subst w. rewrite word_dec by (rewrite ?two32_val; lia).
      apply word_not_writing; [exact P2|rewrite two32_val; lia].
    + cbn [pstep] in E. destruct (p_offered s) eqn:O; [|injection E as <- <-; exact IH].
      destruct (dereference_all (p_slots s) (p_log s) (p_traced s)) as [[sl lg]|] eqn:D; [|injection E as <- <-; congruence].
      match type of E with context [existsb ?f lg] => destruct (existsb f lg) end; injection E as <- <-; [congruence|]. cbn [p_slots].
      rewrite (deref_all_wcount _ _ _ _ _ _ _ _ _ C D). exact IH.
    + cbn [pstep] in E. destruct (p_offered s) eqn:O; [injection E as <- <-; exact IH|].
      destruct (OFF eq_refl) as (O1 & _). rewrite (no_vars_wcount s GD O1) in IH.
      pose proof (step_good s (POffer fresh) GD ltac:(discriminate)) as S. cbn [pstep] in S. rewrite O, E in S.
      destruct S as [S _]. rewrite (no_vars_wcount s').
      * destruct fresh; injection E as <- <-; exact IH.
      * apply S. destruct r; try reflexivity; congruence.
      * destruct fresh; injection E as <- <-; exact O1.
Qed.

(** a history that meets every hypothesis: pointers swapped, one overwritten, one sample
    sent, one given back *)
Definition C25_ops : list pop :=
  [PAlloc 0; PAlloc 1; PSwap 0 1; PSend 0 true; PAlloc 1; PReset 1; PTraceDone 0; PAlloc 2; PSwap 2 0].

(** the counters of [history] along a list of operations without PStop *)
Fixpoint hrun (a p b : nat) (s : prov) (ops : list pop) : option (nat * nat * nat * prov) :=
  match ops with
  | [] => Some (a, p, b, s)
  | PStop :: _ => None
  | o :: ops =>
      let s' := fst (pstep s o) in
      let r := snd (pstep s o) in
      if fatal r then None else
      hrun (match o, r with PAlloc _, OSlot _ => S a | _, _ => a end)
           (match o, r with PSend _ _, OOk => S p | _, _ => p end)
           (match o, r with
            | PAlloc v, OSlot _ | PReset v, OOk => match p_vars s v with Some _ => S b | None => b end
            | _, _ => b
            end) s' ops
  end.

Lemma hrun_history n : forall ops a p b s a' p' b' s', history n a p b s ->
  hrun a p b s ops = Some (a', p', b', s') -> history n a' p' b' s'.
Proof.
  induction ops as [|o ops IH]; intros a p b s a' p' b' s' H E; cbn [hrun] in E; [injection E as <- <- <- <-; exact H|].
  assert (ORD : o <> PStop) by (intros ->; discriminate).
  assert (E' : (if fatal (snd (pstep s o)) then None else
      hrun (match o, snd (pstep s o) with PAlloc _, OSlot _ => S a | _, _ => a end)
           (match o, snd (pstep s o) with PSend _ _, OOk => S p | _, _ => p end)
           (match o, snd (pstep s o) with
            | PAlloc v, OSlot _ | PReset v, OOk => match p_vars s v with Some _ => S b | None => b end
            | _, _ => b
            end) (fst (pstep s o)) ops) = Some (a', p', b', s')) by (destruct o; try exact E; congruence).
  clear E. destruct (fatal (snd (pstep s o))) eqn:F; [discriminate|]. eapply IH; [|exact E'].
  eapply h_step; [exact H|intros X; congruence|apply surjective_pairing| |].
  - intros X. rewrite X in F. discriminate.
  - intros X. rewrite X in F. discriminate.
Qed.

Example C25_example :
  snd (prun (pinit 3) C25_ops) = [OSlot 0; OSlot 1; OOk; OOk; OSlot 2; OOk; OOk; OSlot 0; OOk]%nat /\
  exists s, history 3 4 1 2 s /\ p_vars s 0%nat = Some 0%nat /\ wcount (p_slots s) = 1%nat.
Proof.
  split; [reflexivity|].
  destruct (hrun 0 0 0 (pinit 3) C25_ops) as [[[[a p] b] s]|] eqn:E; [|vm_compute in E; discriminate].
  pose proof (hrun_history 3 _ _ _ _ _ _ _ _ _ (h_start 3) E) as H.
  assert (X : match hrun 0 0 0 (pinit 3) C25_ops with
              | Some (a, p, b, s) => (a, p, b, p_vars s 0%nat, wcount (p_slots s)) = (4, 1, 2, Some 0, 1)%nat
              | None => False
              end) by (vm_compute; reflexivity).
  rewrite E in X. injection X as -> -> -> X1 X2. exists s. auto.
Qed.

(** * C60: allocated samples across StopOfferService / OfferService *)

(** Without the restriction at PStop a pointer from before the restart frees a sample that belongs
    to another pointer, and two pointers own the same sample. *)
Theorem C60_sample_ownership_across_reoffer_refuted : exists ops,
  let '(s, outs) := prun (pinit 2) ops in
  forallb (fun r => negb (fatal r)) outs = true /\ length outs = length ops /\
  p_vars s 1%nat = Some 0%nat /\ p_vars s 2%nat = Some 0%nat.
Proof.
  exists [PAlloc 0; PStop; POffer true; PAlloc 1; PReset 0; PAlloc 2].
  vm_compute. repeat split.
Qed.

(** Destroying the pointer while the service is not offered uses a destroyed object. *)
Theorem C60_destruction_while_not_offered_refuted : exists ops,
  snd (prun (pinit 2) ops) = [OSlot 0; OOk; OUndefined]%nat /\ ops = [PAlloc 0; PStop; PReset 0].
Proof. exists [PAlloc 0; PStop; PReset 0]. split; reflexivity. Qed.

(** What does hold: with no sample held at each stop, ownership is exclusive over any number of
    restarts of the offer (C25_one_owner above covers PStop and POffer). *)
Theorem C60_exclusive_across_reoffer_partial : forall n a p b s v w i,
  history n a p b s -> p_vars s v = Some i -> p_vars s w = Some i -> v = w.
Proof. intros n a p b s v w i H. apply (C25_one_owner n a p b s H). Qed.

Print Assumptions C20_getter_aborts_exactly_if_traced_partial.
Print Assumptions C20_getter_returns_newest.
Print Assumptions C20_only_aborts.
Print Assumptions C20_refuted.
Print Assumptions C25_one_owner.
Print Assumptions C25_allocate.
Print Assumptions C25_send.
Print Assumptions C25_give_back.
Print Assumptions C25_moves.
Print Assumptions C25_accounting.
Print Assumptions C60_sample_ownership_across_reoffer_refuted.
Print Assumptions C60_destruction_while_not_offered_refuted.
Print Assumptions C60_exclusive_across_reoffer_partial.
