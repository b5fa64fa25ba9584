(** Invariant of the provider model. *)
From Verif Require Export ProviderModel SlotProofs SlotWord.
Local Open Scope N_scope.

Definition hb (H : list nat) (i : nat) : bool := if in_dec Nat.eq_dec i H then true else false.
Definition hc (H : list nat) (i : nat) : N := if hb H i then 1 else 0.

Lemma hb_true H i : hb H i = true <-> In i H.
Proof. unfold hb. destruct (in_dec Nat.eq_dec i H); split; intros; auto; discriminate. Qed.
Lemma hb_false H i : hb H i = false <-> ~ In i H.
Proof. unfold hb. destruct (in_dec Nat.eq_dec i H); split; intros; auto; try discriminate. contradiction. Qed.

Definition slot_ok (ts : N) (vars : nat -> option nat) (H : list nat) (cr : nat -> N) (i : nat) (w : N) : Prop :=
  (w = 0 /\ cr i = 0 /\ hb H i = false /\ forall v, vars v <> Some i) \/
  (w = IN_WRITING /\ cr i = 0 /\ hb H i = false /\ exists v, vars v = Some i) \/
  (exists t, w = word t (cr i + hc H i) /\ 0 < t /\ t <= ts /\ cr i + 2 < two32 - 1 /\ forall v, vars v <> Some i).

Record core (sl : list N) (lg : list flags) (ts : N) (vars : nat -> option nat) (H : list nat) (cr : nat -> N) : Prop := {
  c_len : length lg = length sl;
  c_nodup : NoDup H;
  c_inj : forall a b i, vars a = Some i -> vars b = Some i -> a = b;
  c_slot : forall i w, nth_error sl i = Some w -> slot_ok ts vars H cr i w;
  c_log : forall i f, nth_error lg i = Some f -> f = (hb H i, hb H i);
  c_var : forall v i, vars v = Some i -> nth_error sl i = Some IN_WRITING;
  c_H : forall i, In i H -> exists w, nth_error sl i = Some w;
  c_ts : ts < TIMESTAMP_MAX;
  c_dist : forall i j wi wj, i <> j -> nth_error sl i = Some wi -> nth_error sl j = Some wj ->
             0 < ts_of wi -> ts_of wi <> ts_of wj
}.

Definition Hof (s : prov) : list nat := p_traced s ++ match p_getter s with Some i => [i] | None => [] end.
Definition good (s : prov) : Prop :=
  core (p_slots s) (p_log s) (p_ts s) (p_vars s) (Hof s) (p_crefs s) /\
  (p_offered s = false -> (forall v, p_vars s v = None) /\ p_traced s = [] /\ p_getter s = None).

Ltac dsolve C := match goal with N : ?j <> ?k |- ts_of _ <> ts_of _ => solve [eapply (c_dist _ _ _ _ _ _ C j k); eassumption] end.

Lemma two32_val : two32 = 4294967296. Proof. reflexivity. Qed.
Lemma tmax_val : TIMESTAMP_MAX = 4294967295. Proof. reflexivity. Qed.

Lemma hc_le H i : hc H i <= 1. Proof. unfold hc. destruct (hb H i); lia. Qed.

Lemma nth_lset_inv {A} (l : list A) i v j w :
  nth_error (lset l i v) j = Some w -> (j = i /\ w = v /\ exists w0, nth_error l i = Some w0) \/ (j <> i /\ nth_error l j = Some w).
Proof.
  intros H. destruct (Nat.eq_dec j i) as [->|N].
  - left. split; [reflexivity|].
    assert (L : (i < length l)%nat).
    { rewrite <- (lset_length l i v). apply nth_error_Some. congruence. }
    rewrite (lset_nth l i v L) in H. injection H as <-. split; [reflexivity|].
    apply nth_error_Some in L. destruct (nth_error l i); [eauto|congruence].
  - right. split; [exact N|]. rewrite lset_nth_neq in H by auto. exact H.
Qed.

Lemma lset_some {A} (l : list A) i v w : nth_error l i = Some w -> nth_error (lset l i v) i = Some v.
Proof. intros E. apply lset_nth. apply nth_error_Some. congruence. Qed.

(** a slot in a given condition *)
Lemma slot_writing ts vars H cr i : slot_ok ts vars H cr i IN_WRITING -> cr i = 0 /\ hb H i = false /\ exists v, vars v = Some i.
Proof.
  intros [(E & _)|[(_ & A & B & C)|(t & E & T & L & B & _)]]; [discriminate|auto|].
  exfalso. pose proof (hc_le H i).
  assert (X : is_in_writing (word t (cr i + hc H i)) = true) by (rewrite <- E; reflexivity).
  rewrite word_not_writing in X; [discriminate|exact T|rewrite two32_val in *; lia].
Qed.

(** Discard by the owner *)
Lemma core_discard sl lg ts vars H cr v i :
  core sl lg ts vars H cr -> vars v = Some i ->
  exists sl', Discard sl i = Some sl' /\ core sl' lg ts (vset vars v None) H cr /\ sl' = lset sl i 0.
Proof.
  intros C V. pose proof (c_var _ _ _ _ _ _ C v i V) as W.
  unfold Discard. rewrite W. change (is_in_writing IN_WRITING) with true.
  exists (lset sl i 0). split; [reflexivity|]. split; [|reflexivity].
  pose proof (slot_writing _ _ _ _ _ (c_slot _ _ _ _ _ _ C i _ W)) as (A & B & _).
  constructor.
  - rewrite lset_length. apply C.
  - apply C.
  - intros a b j E1 E2. unfold vset in *. destruct (Nat.eqb_spec a v); [discriminate|].
    destruct (Nat.eqb_spec b v); [discriminate|]. eapply (c_inj _ _ _ _ _ _ C); eauto.
  - intros j w E. apply nth_lset_inv in E as [(-> & -> & _)|(N & E)].
    + left. repeat split; auto. intros u. unfold vset. destruct (Nat.eqb_spec u v); [discriminate|].
      intros X. apply n. eapply (c_inj _ _ _ _ _ _ C); eauto.
    + destruct (c_slot _ _ _ _ _ _ C j w E) as [(P1 & P2 & P3 & P4)|[(P1 & P2 & P3 & u & P4)|(t & P1 & P2 & P3 & P4 & P5)]].
      * left. repeat split; auto. intros u. unfold vset. destruct (u =? v)%nat; [discriminate|auto].
      * right; left. repeat split; auto. exists u. unfold vset. destruct (Nat.eqb_spec u v); [subst; congruence|auto].
      * right; right. exists t. repeat split; auto. intros u. unfold vset. destruct (u =? v)%nat; [discriminate|auto].
  - apply C.
  - intros u j E. unfold vset in E. destruct (Nat.eqb_spec u v); [discriminate|].
    assert (N : j <> i) by (intros ->; apply n; eapply (c_inj _ _ _ _ _ _ C); eauto).
    rewrite lset_nth_neq by auto. eapply (c_var _ _ _ _ _ _ C); eauto.
  - intros j J. destruct (c_H _ _ _ _ _ _ C j J) as [w E].
    destruct (Nat.eq_dec j i) as [->|N]; [exists 0; eapply lset_some; eauto|].
    exists w. rewrite lset_nth_neq by auto. exact E.
  - apply C.
  - intros j k wj wk N E1 E2 T. 
    apply nth_lset_inv in E1 as [(-> & -> & _)|(N1 & E1)]; [change (ts_of IN_WRITING) with 0 in T; change (ts_of 0) with 0 in T; lia|].
    apply nth_lset_inv in E2 as [(-> & -> & _)|(N2 & E2)]; [change (ts_of 0) with 0; lia|].
    dsolve C.
Qed.

Lemma discard_published sl i t r : nth_error sl i = Some (word t r) -> 0 < t -> r < two32 -> Discard sl i = Some sl.
Proof. intros E T R. unfold Discard. rewrite E, (word_not_writing _ _ T R). reflexivity. Qed.

(** Allocate *)
Lemma core_take sl lg ts vars H cr i0 w v :
  core sl lg ts vars H cr -> nth_error sl i0 = Some w -> cr i0 = 0 -> hb H i0 = false -> (forall v, vars v <> Some i0) ->
  vars v = None -> core (lset sl i0 IN_WRITING) lg ts (vset vars v (Some i0)) H cr.
Proof.
  intros C E K1 K2 K3 V. constructor.
  - rewrite lset_length. apply C.
  - apply C.
  - intros a b j E1 E2. unfold vset in *.
    destruct (Nat.eqb_spec a v), (Nat.eqb_spec b v); subst; auto.
    + injection E1 as <-. destruct (K3 _ E2).
    + injection E2 as <-. destruct (K3 _ E1).
    + eapply (c_inj _ _ _ _ _ _ C); eauto.
  - intros j x E1. apply nth_lset_inv in E1 as [(-> & -> & _)|(N & E1)].
    + right; left. repeat split; auto. exists v. unfold vset. rewrite Nat.eqb_refl. reflexivity.
    + destruct (c_slot _ _ _ _ _ _ C j x E1) as [(P1 & P2 & P3 & P4)|[(P1 & P2 & P3 & u & P4)|(t & P1 & P2 & P3 & P4 & P5)]].
      * left. repeat split; auto. intros u. unfold vset. destruct (u =? v)%nat; [congruence|auto].
      * right; left. repeat split; auto. exists u. unfold vset. destruct (Nat.eqb_spec u v); [subst; congruence|auto].
      * right; right. exists t. repeat split; auto. intros u. unfold vset. destruct (u =? v)%nat; [congruence|auto].
  - apply C.
  - intros u j E1. unfold vset in E1. destruct (Nat.eqb_spec u v).
    + injection E1 as <-. eapply lset_some; eauto.
    + assert (N : j <> i0) by (intros ->; destruct (K3 _ E1)).
      rewrite lset_nth_neq by auto. eapply (c_var _ _ _ _ _ _ C); eauto.
  - intros j J. destruct (c_H _ _ _ _ _ _ C j J) as [x E1].
    destruct (Nat.eq_dec j i0) as [->|N]; [exists IN_WRITING; eapply lset_some; eauto|].
    exists x. rewrite lset_nth_neq by auto. exact E1.
  - apply C.
  - intros j k wj wk N E1 E2 T.
    apply nth_lset_inv in E1 as [(-> & -> & _)|(N1 & E1)]; [change (ts_of IN_WRITING) with 0 in T; change (ts_of 0) with 0 in T; lia|].
    apply nth_lset_inv in E2 as [(-> & -> & _)|(N2 & E2)]; [rewrite ts_in_writing; lia|].
    dsolve C.
Qed.

Lemma core_alloc sl lg ts vars H cr i sl' :
  core sl lg ts vars H cr -> AllocateNextSlot_quiet sl = (Some i, sl') ->
  (exists w, nth_error sl i = Some w /\ (w = 0 \/ rc_of w = 0 /\ w <> IN_WRITING /\ 0 < ts_of w)) /\ cr i = 0 /\ hb H i = false /\ (forall v, vars v <> Some i) /\
  sl' = lset sl i IN_WRITING.
Proof.
  intros C A. unfold AllocateNextSlot_quiet in A.
  destruct (FindOldestUnusedSlot sl) as [[i0 w]|] eqn:F; [|discriminate]. injection A as <- <-.
  unfold FindOldestUnusedSlot in F.
  assert (X : nth_error sl i0 = Some w /\ (w = 0 \/ choosable w = true)).
  { pose proof (find_oldest_spec sl 0 None _ ltac:(discriminate) F) as S. cbn in S.
    rewrite Nat.sub_0_r in S.
    destruct S as [(S1 & _ & S2)|(_ & S1 & [S2|[_ S2]] & _)]; [|discriminate|].
    - split; [exact S2|]. left. apply is_invalid_true, S1.
    - auto. }
  destruct X as [E Q].
  assert (K : cr i0 = 0 /\ hb H i0 = false /\ (forall v, vars v <> Some i0) /\ (w = 0 \/ rc_of w = 0 /\ w <> IN_WRITING /\ 0 < ts_of w)).
  { destruct (c_slot _ _ _ _ _ _ C i0 w E) as [(P1 & P2 & P3 & P4)|[(P1 & P2 & P3 & P4)|(t & P1 & P2 & P3 & P4 & P5)]].
    - auto.
    - exfalso. subst w. destruct Q as [Q|Q]; discriminate.
    - destruct Q as [Q|Q]; [exfalso; rewrite P1 in Q; unfold word in Q; rewrite two32_val in Q; lia|].
      unfold choosable in Q. rewrite !Bool.andb_true_iff in Q. destruct Q as [[Q _] _].
      apply N.eqb_eq in Q. pose proof Q as Q0. rewrite P1 in Q. pose proof (hc_le H i0). rewrite rc_word in Q by (rewrite two32_val in *; lia).
      unfold hc in Q. destruct (hb H i0) eqn:B; [lia|]. repeat split; auto; [lia|].
      right. split; [exact Q0|]. split.
      + intros X. assert (Y : is_in_writing w = true) by (rewrite X; reflexivity).
        rewrite P1, word_not_writing in Y; [discriminate|exact P2|rewrite two32_val in *; lia].
      + rewrite P1, ts_word; [exact P2|rewrite two32_val in *; lia]. }
  destruct K as (K1 & K2 & K3 & K4).
  split; [eauto|]. split; [exact K1|]. split; [exact K2|]. split; [exact K3|reflexivity].
Qed.

(** publishing *)
Lemma core_publish sl lg ts vars H cr v i :
  core sl lg ts vars H cr -> vars v = Some i -> ts + 1 < TIMESTAMP_MAX ->
  EventReady sl i (ts + 1) = Some (lset sl i (word (ts + 1) 0)) /\
  core (lset sl i (word (ts + 1) 0)) lg (ts + 1) (vset vars v None) H cr.
Proof.
  intros C V B. pose proof (c_var _ _ _ _ _ _ C v i V) as W.
  pose proof (slot_writing _ _ _ _ _ (c_slot _ _ _ _ _ _ C i _ W)) as (A1 & A2 & _).
  rewrite tmax_val in B.
  assert (L : (i < length sl)%nat) by (apply nth_error_Some; congruence).
  split.
  { unfold EventReady. apply Nat.ltb_lt in L. rewrite L, mk_status_word; [reflexivity|rewrite two32_val; lia|reflexivity]. }
  assert (NW : forall u j, vset vars v None u = Some j -> vars u = Some j /\ j <> i).
  { intros u j E. unfold vset in E. destruct (Nat.eqb_spec u v); [discriminate|]. split; [exact E|].
    intros ->. apply n. eapply (c_inj _ _ _ _ _ _ C); eauto. }
  constructor.
  - rewrite lset_length. apply C.
  - apply C.
  - intros a b j E1 E2. apply NW in E1 as [E1 _]. apply NW in E2 as [E2 _]. eapply (c_inj _ _ _ _ _ _ C); eauto.
  - intros j w E. apply nth_lset_inv in E as [(-> & -> & _)|(N & E)].
    + right; right. exists (ts + 1). unfold hc. rewrite A1, A2. repeat split; try lia; try (rewrite two32_val; lia).
      intros u X. apply NW in X as [_ X]. auto.
    + destruct (c_slot _ _ _ _ _ _ C j w E) as [(P1 & P2 & P3 & P4)|[(P1 & P2 & P3 & u & P4)|(t & P1 & P2 & P3 & P4 & P5)]].
      * left. repeat split; auto. intros u X. apply NW in X as [X _]. exact (P4 _ X).
      * right; left. repeat split; auto. exists u. unfold vset. destruct (Nat.eqb_spec u v); [subst; congruence|auto].
      * right; right. exists t. repeat split; auto; [lia|]. intros u X. apply NW in X as [X _]. exact (P5 _ X).
  - apply C.
  - intros u j E. apply NW in E as [E N]. rewrite lset_nth_neq by auto. eapply (c_var _ _ _ _ _ _ C); eauto.
  - intros j J. destruct (c_H _ _ _ _ _ _ C j J) as [x E1].
    destruct (Nat.eq_dec j i) as [->|N]; [eexists; eapply lset_some; eauto|].
    exists x. rewrite lset_nth_neq by auto. exact E1.
  - rewrite tmax_val. lia.
  - assert (OLD : forall j w, nth_error sl j = Some w -> ts_of w <= ts).
    { intros j w E. destruct (c_slot _ _ _ _ _ _ C j w E) as [(P1 & _)|[(P1 & _)|(t & P1 & P2 & P3 & P4 & P5)]].
      - subst. change (ts_of 0) with 0. lia.
      - subst. rewrite ts_in_writing. lia.
      - pose proof (hc_le H j). subst w. rewrite ts_word; [exact P3|rewrite two32_val in *; lia]. }
    intros j k wj wk N E1 E2 T.
    apply nth_lset_inv in E1 as [(-> & -> & _)|(N1 & E1)]; apply nth_lset_inv in E2 as [(-> & -> & _)|(N2 & E2)].
    + congruence.
    + rewrite ts_word by reflexivity. specialize (OLD _ _ E2). lia.
    + rewrite ts_word by reflexivity. specialize (OLD _ _ E1). lia.
    + dsolve C.
Qed.

(** taking a reference through the skeleton's log *)
Lemma hb_cons H i j : hb (i :: H) j = (Nat.eqb j i || hb H j)%bool.
Proof.
  destruct (hb (i :: H) j) eqn:E.
  - apply hb_true in E as [->|E]; [rewrite Nat.eqb_refl; reflexivity|].
    apply hb_true in E. rewrite E, Bool.orb_true_r. reflexivity.
  - apply hb_false in E. cbn in E. destruct (Nat.eqb_spec j i); [subst; tauto|].
    symmetry. apply hb_false. tauto.
Qed.

Lemma core_ref sl lg ts vars H cr i w :
  core sl lg ts vars H cr -> nth_error sl i = Some w -> 0 < ts_of w -> hb H i = false ->
  is_in_writing w = false /\ is_invalid w = false /\ rc_of w <> two32 - 1 /\ w <> two64 - 1 /\
  (exists lg1, tx_begin lg i = Some lg1 /\ exists lg2, tx_commit lg1 i = Some lg2 /\
    forall H', (forall j, hb H' j = (Nat.eqb j i || hb H j)%bool) -> NoDup H' ->
    core (lset sl i (w_inc w)) lg2 ts vars H' cr).
Proof.
  intros C E T NH.
  destruct (c_slot _ _ _ _ _ _ C i w E) as [(P1 & _)|[(P1 & _)|(t & P1 & P2 & P3 & P4 & P5)]].
  { subst. change (ts_of 0) with 0 in T. lia. } { subst. rewrite ts_in_writing in T. lia. }
  pose proof (c_ts _ _ _ _ _ _ C) as TS. rewrite tmax_val in TS.
  unfold hc in P1. rewrite NH in P1. rewrite N.add_0_r in P1.
  rewrite two32_val in P4.
  assert (RB : cr i < two32) by (rewrite two32_val; lia).
  split; [subst; apply word_not_writing; assumption|].
  split; [subst; apply word_not_invalid; assumption|].
  split; [subst; rewrite rc_word by assumption; rewrite two32_val; lia|].
  split; [subst; unfold word, two64; rewrite two32_val; lia|].
  assert (LL : exists f, nth_error lg i = Some f).
  { assert (L : (i < length lg)%nat) by (rewrite (c_len _ _ _ _ _ _ C); apply nth_error_Some; congruence).
    apply nth_error_Some in L. destruct (nth_error lg i); [eauto|congruence]. }
  destruct LL as [f F]. pose proof (c_log _ _ _ _ _ _ C i f F) as FF. rewrite NH in FF. subst f.
  unfold tx_begin. rewrite F. eexists; split; [reflexivity|].
  unfold tx_commit. rewrite (lset_some _ _ _ _ F). eexists; split; [reflexivity|].
  intros H' HH ND.
  assert (IW : w_inc w = word t (cr i + 1)) by (subst w; apply word_inc; rewrite two32_val; lia).
  rewrite IW. constructor.
  - rewrite !lset_length. apply C.
  - exact ND.
  - apply C.
  - intros j x E1. apply nth_lset_inv in E1 as [(-> & -> & _)|(N & E1)].
    + right; right. exists t. unfold hc. rewrite HH, Nat.eqb_refl. cbn [orb]. rewrite two32_val. repeat split; auto.
    + pose proof (c_slot _ _ _ _ _ _ C j x E1) as S. unfold slot_ok, hc in *. rewrite HH.
      apply Nat.eqb_neq in N. rewrite N. exact S.
  - intros j f E1. apply nth_lset_inv in E1 as [(-> & -> & _)|(N & E1)].
    + rewrite HH, Nat.eqb_refl. reflexivity.
    + rewrite lset_nth_neq in E1 by auto. rewrite HH. pose proof (c_log _ _ _ _ _ _ C j f E1) as S.
      apply Nat.eqb_neq in N. rewrite N. exact S.
  - intros u j E1. pose proof (c_var _ _ _ _ _ _ C u j E1) as S.
    assert (N : j <> i) by (intros ->; destruct (P5 _ E1)). rewrite lset_nth_neq by auto. exact S.
  - intros j J. apply hb_true in J. rewrite HH in J. apply Bool.orb_true_iff in J as [J|J].
    + apply Nat.eqb_eq in J as ->. eexists. eapply lset_some; eauto.
    + apply hb_true in J. destruct (c_H _ _ _ _ _ _ C j J) as [x X].
      destruct (Nat.eq_dec j i) as [->|N]; [eexists; eapply lset_some; eauto|]. exists x. rewrite lset_nth_neq by auto. exact X.
  - apply C.
  - intros j k wj wk N E1 E2 TT.
    assert (TW : ts_of (word t (cr i + 1)) = ts_of w) by (subst w; rewrite !ts_word; auto; rewrite two32_val; lia).
    apply nth_lset_inv in E1 as [(-> & -> & _)|(N1 & E1)]; apply nth_lset_inv in E2 as [(-> & -> & _)|(N2 & E2)].
    + congruence.
    + rewrite TW in *. dsolve C.
    + rewrite TW. dsolve C.
    + dsolve C.
Qed.

(** giving it back *)
Lemma core_deref sl lg ts vars H cr i :
  core sl lg ts vars H cr -> In i H ->
  exists sl' lg' w, dereference sl lg i = Some (sl', lg') /\ nth_error sl i = Some w /\ sl' = lset sl i (w_dec w) /\
    ts_of (w_dec w) = ts_of w /\ 0 < ts_of w /\
    forall H', (forall j, hb H' j = (negb (Nat.eqb j i) && hb H j)%bool) -> NoDup H' ->
    core sl' lg' ts vars H' cr.
Proof.
  intros C I. apply hb_true in I. destruct (c_H _ _ _ _ _ _ C i) as [w E]; [apply hb_true, I|].
  destruct (c_slot _ _ _ _ _ _ C i w E) as [(_ & _ & P & _)|[(_ & _ & P & _)|(t & P1 & P2 & P3 & P4 & P5)]]; try congruence.
  pose proof (c_ts _ _ _ _ _ _ C) as TS. rewrite tmax_val in TS.
  unfold hc in P1. rewrite I in P1. rewrite two32_val in P4.
  assert (LL : exists f, nth_error lg i = Some f).
  { assert (L : (i < length lg)%nat) by (rewrite (c_len _ _ _ _ _ _ C); apply nth_error_Some; congruence).
    apply nth_error_Some in L. destruct (nth_error lg i); [eauto|congruence]. }
  destruct LL as [f F]. pose proof (c_log _ _ _ _ _ _ C i f F) as FF. rewrite I in FF. subst f.
  unfold dereference, tx_deref. rewrite E, F. do 3 eexists. split; [reflexivity|]. split; [reflexivity|]. split; [reflexivity|].
  assert (DW : w_dec w = word t (cr i)).
  { subst w. rewrite word_dec; [f_equal; lia|rewrite two32_val; lia|lia|rewrite two32_val; lia]. }
  assert (TW : ts_of (w_dec w) = ts_of w) by (rewrite DW; subst w; rewrite !ts_word; auto; rewrite two32_val; lia).
  split; [exact TW|]. split; [subst w; rewrite ts_word; [exact P2|rewrite two32_val; lia]|].
  intros H' HH ND. constructor.
  - rewrite !lset_length. apply C.
  - exact ND.
  - apply C.
  - intros j x E1. apply nth_lset_inv in E1 as [(-> & -> & _)|(N & E1)].
    + right; right. exists t. unfold hc. rewrite HH, Nat.eqb_refl. cbn [negb andb].
      rewrite N.add_0_r, two32_val. repeat split; auto.
    + pose proof (c_slot _ _ _ _ _ _ C j x E1) as S. unfold slot_ok, hc in *. rewrite HH.
      apply Nat.eqb_neq in N. rewrite N. exact S.
  - intros j f E1. apply nth_lset_inv in E1 as [(-> & -> & _)|(N & E1)].
    + rewrite HH, Nat.eqb_refl. reflexivity.
    + rewrite HH. pose proof (c_log _ _ _ _ _ _ C j f E1) as S. apply Nat.eqb_neq in N. rewrite N. exact S.
  - intros u j E1. pose proof (c_var _ _ _ _ _ _ C u j E1) as S.
    assert (N : j <> i) by (intros ->; destruct (P5 _ E1)). rewrite lset_nth_neq by auto. exact S.
  - intros j J. apply hb_true in J. rewrite HH in J. apply andb_prop in J as [_ J].
    apply hb_true in J. destruct (c_H _ _ _ _ _ _ C j J) as [x X].
    destruct (Nat.eq_dec j i) as [->|N]; [eexists; eapply lset_some; eauto|]. exists x. rewrite lset_nth_neq by auto. exact X.
  - apply C.
  - intros j k wj wk N E1 E2 TT.
    apply nth_lset_inv in E1 as [(-> & -> & _)|(N1 & E1)]; apply nth_lset_inv in E2 as [(-> & -> & _)|(N2 & E2)].
    + congruence.
    + rewrite TW in *. dsolve C.
    + rewrite TW. dsolve C.
    + dsolve C.
Qed.

(** consumers *)
Lemma core_cons sl lg ts vars H cr i w w' cr' :
  core sl lg ts vars H cr -> nth_error sl i = Some w -> 0 < ts_of w ->
  (forall j, j <> i -> cr' j = cr j) -> cr' i + 2 < two32 - 1 ->
  (forall t, w = word t (cr i + hc H i) -> t < two32 -> w' = word t (cr' i + hc H i)) ->
  core (lset sl i w') lg ts vars H cr' /\ ts_of w' = ts_of w.
Proof.
  intros C E T HO HB HW.
  destruct (c_slot _ _ _ _ _ _ C i w E) as [(P1 & _)|[(P1 & _)|(t & P1 & P2 & P3 & P4 & P5)]].
  { subst. change (ts_of 0) with 0 in T. lia. } { subst. rewrite ts_in_writing in T. lia. }
  pose proof (c_ts _ _ _ _ _ _ C) as TS. rewrite tmax_val in TS.
  pose proof (hc_le H i). rewrite two32_val in P4, HB.
  assert (W' : w' = word t (cr' i + hc H i)) by (apply HW; [exact P1|rewrite two32_val; lia]).
  assert (TW : ts_of w' = ts_of w) by (subst w w'; rewrite !ts_word; auto; rewrite two32_val; lia).
  split; [|exact TW]. constructor.
  - rewrite !lset_length. apply C.
  - apply C.
  - apply C.
  - intros j x E1. apply nth_lset_inv in E1 as [(-> & -> & _)|(N & E1)].
    + right; right. exists t. rewrite two32_val. repeat split; auto.
    + pose proof (c_slot _ _ _ _ _ _ C j x E1) as S. unfold slot_ok in *. rewrite HO by auto. exact S.
  - apply C.
  - intros u j E1. pose proof (c_var _ _ _ _ _ _ C u j E1) as S.
    assert (N : j <> i) by (intros ->; destruct (P5 _ E1)). rewrite lset_nth_neq by auto. exact S.
  - intros j J. destruct (c_H _ _ _ _ _ _ C j J) as [x X].
    destruct (Nat.eq_dec j i) as [->|N]; [eexists; eapply lset_some; eauto|]. exists x. rewrite lset_nth_neq by auto. exact X.
  - apply C.
  - intros j k wj wk N E1 E2 TT.
    apply nth_lset_inv in E1 as [(-> & -> & _)|(N1 & E1)]; apply nth_lset_inv in E2 as [(-> & -> & _)|(N2 & E2)].
    + congruence.
    + rewrite TW in *. dsolve C.
    + rewrite TW. dsolve C.
    + dsolve C.
Qed.

Lemma core_vars_ext sl lg ts vars vars' H cr : core sl lg ts vars H cr -> (forall v, vars' v = vars v) -> core sl lg ts vars' H cr.
Proof.
  intros C E. constructor; try apply C.
  - intros a b i. rewrite !E. apply C.
  - intros i w X. destruct (c_slot _ _ _ _ _ _ C i w X) as [(P1 & P2 & P3 & P4)|[(P1 & P2 & P3 & u & P4)|(t & P1 & P2 & P3 & P4 & P5)]].
    + left. repeat split; auto. intros v. rewrite E. auto.
    + right; left. repeat split; auto. exists u. rewrite E. auto.
    + right; right. exists t. repeat split; auto. intros v. rewrite E. auto.
  - intros v i. rewrite E. apply C.
Qed.

Lemma core_swap sl lg ts vars H cr a b : core sl lg ts vars H cr ->
  core sl lg ts (vset (vset vars a (vars b)) b (vars a)) H cr.
Proof.
  intros C. set (vars' := vset (vset vars a (vars b)) b (vars a)).
  set (pi := fun v => if (v =? b)%nat then a else if (v =? a)%nat then b else v).
  assert (E : forall v, vars' v = vars (pi v)).
  { intros v. unfold vars', vset, pi. destruct (v =? b)%nat; [reflexivity|]. destruct (v =? a)%nat; reflexivity. }
  assert (PP : forall v, pi (pi v) = v).
  { intros v. unfold pi. destruct (Nat.eqb_spec v b).
    - subst. destruct (Nat.eqb_spec a b); [congruence|]. rewrite Nat.eqb_refl. reflexivity.
    - destruct (Nat.eqb_spec v a).
      + subst. rewrite Nat.eqb_refl. reflexivity.
      + destruct (Nat.eqb_spec v b); [congruence|]. destruct (Nat.eqb_spec v a); congruence. }
  constructor; try apply C.
  - intros x y i. rewrite !E. intros E1 E2.
    assert (pi x = pi y) by (eapply (c_inj _ _ _ _ _ _ C); eauto). rewrite <- (PP x), <- (PP y). congruence.
  - intros i w X. destruct (c_slot _ _ _ _ _ _ C i w X) as [(P1 & P2 & P3 & P4)|[(P1 & P2 & P3 & u & P4)|(t & P1 & P2 & P3 & P4 & P5)]].
    + left. repeat split; auto. intros v. rewrite E. auto.
    + right; left. repeat split; auto. exists (pi u). rewrite E, PP. auto.
    + right; right. exists t. repeat split; auto. intros v. rewrite E. auto.
  - intros v i. rewrite E. apply C.
Qed.

Lemma lset_comm {A} (l : list A) i j (a b : A) : i <> j -> lset (lset l i a) j b = lset (lset l j b) i a.
Proof.
  revert i j. induction l as [|x l IH]; intros [|i] [|j] N; cbn; try reflexivity; [congruence|].
  f_equal. apply IH. congruence.
Qed.

Lemma vset_same f v x y : forall u, vset (vset f v x) v y u = vset f v y u.
Proof. intros u. unfold vset. destruct (u =? v)%nat; reflexivity. Qed.

(** the abort conditions *)
Definition newest_traced (s : prov) : Prop :=
  exists i w, In i (p_traced s) /\ nth_error (p_slots s) i = Some w /\ 0 < ts_of w /\
    forall j x, nth_error (p_slots s) j = Some x -> ts_of x <= ts_of w.
Definition orderly (s : prov) (o : pop) : Prop := o = PStop -> forall v, p_vars s v = None.

Lemma Hof_nodup_getter s i : NoDup (Hof s) -> p_getter s = Some i -> ~ In i (p_traced s) /\ NoDup (p_traced s).
Proof.
  unfold Hof. intros N G. rewrite G in N. split.
  - intros I. apply NoDup_remove_2 with (l' := []) in N. rewrite app_nil_r in N. contradiction.
  - apply NoDup_remove_1 with (l' := []) in N. rewrite app_nil_r in N. exact N.
Qed.

Lemma find_newest_core s : good s ->
  match find_newest 0 TIMESTAMP_MAX (p_slots s) 0 None with
  | None => forall j x, nth_error (p_slots s) j = Some x -> ts_of x = 0
  | Some (i, w) => nth_error (p_slots s) i = Some w /\ 0 < ts_of w /\
      forall j x, nth_error (p_slots s) j = Some x -> ts_of x <= ts_of w
  end.
Proof.
  intros [C _]. pose proof (c_ts _ _ _ _ _ _ C) as TS.
  assert (B : forall j x, nth_error (p_slots s) j = Some x -> ts_of x < TIMESTAMP_MAX).
  { intros j x E. destruct (c_slot _ _ _ _ _ _ C j x E) as [(P1 & _)|[(P1 & _)|(t & P1 & P2 & P3 & P4 & P5)]].
    - subst. reflexivity.
    - subst. rewrite ts_in_writing. reflexivity.
    - pose proof (hc_le (Hof s) j). subst x. rewrite ts_word; [lia|rewrite two32_val in *; lia]. }
  destruct (find_newest 0 TIMESTAMP_MAX (p_slots s) 0 None) as [[i w]|] eqn:F.
  - pose proof (find_newest_spec 0 TIMESTAMP_MAX (p_slots s) 0%nat None _ ltac:(discriminate) F) as (S1 & S2 & S3 & _).
    destruct S2 as [S2|[_ S2]]; [discriminate|]. rewrite Nat.sub_0_r in S2. apply btw_true in S1.
    split; [exact S2|]. split; [lia|]. intros j x E.
    destruct (N.eq_dec (ts_of x) 0) as [Z|Z]; [lia|]. apply S3; [eapply nth_error_In; eauto|].
    apply btw_true. specialize (B j x E). lia.
  - pose proof (find_newest_spec 0 TIMESTAMP_MAX (p_slots s) 0%nat None _ ltac:(discriminate) F) as (_ & S).
    intros j x E. specialize (S x (nth_error_In _ _ E)). apply btw_false in S. specialize (B j x E). lia.
Qed.

Lemma hb_app A B j : hb (A ++ B) j = (hb A j || hb B j)%bool.
Proof.
  destruct (hb (A ++ B) j) eqn:E.
  - apply hb_true, in_app_iff in E as [E|E]; apply hb_true in E; rewrite E; [reflexivity|symmetry; apply Bool.orb_true_r].
  - apply hb_false in E. rewrite in_app_iff in E. symmetry. apply Bool.orb_false_iff.
    split; apply hb_false; tauto.
Qed.

Lemma remove_nth_spec k (l : list nat) i : nth_error l k = Some i -> NoDup l ->
  NoDup (remove_nth k l) /\ forall j, hb (remove_nth k l) j = (negb (Nat.eqb j i) && hb l j)%bool.
Proof.
  revert k. induction l as [|a l IH]; intros [|k] E ND; cbn in E; try discriminate; inversion ND; subst.
  - injection E as <-. cbn [remove_nth]. split; [assumption|]. intros j. rewrite hb_cons.
    destruct (Nat.eqb_spec j a); cbn; [subst; apply hb_false; assumption|reflexivity].
  - destruct (IH k E H2) as [A B]. cbn [remove_nth]. split.
    + constructor; [|exact A]. intros X. apply hb_true in X. rewrite B in X. apply andb_prop in X as [_ X].
      apply hb_true in X. contradiction.
    + intros j. rewrite !hb_cons, B. destruct (Nat.eqb_spec j a); cbn; [|reflexivity].
      subst. destruct (Nat.eqb_spec a i); [|reflexivity]. subst. apply nth_error_In in E. contradiction.
Qed.

Lemma NoDup_app_getter A (x : option nat) : NoDup A -> (forall i, x = Some i -> ~ In i A) ->
  NoDup (A ++ match x with Some i => [i] | None => [] end).
Proof.
  intros N D. destruct x as [i|]; [|rewrite app_nil_r; exact N].
  apply NoDup_Add with (a := i) (l := A); [|split; [exact N|auto]].
  pose proof (Add_app i A []) as X. rewrite app_nil_r in X. exact X.
Qed.

Lemma good_getter_out s : NoDup (Hof s) -> forall i, p_getter s = Some i -> ~ In i (p_traced s).
Proof. intros N i G. eapply Hof_nodup_getter; eauto. Qed.
Lemma good_traced_nodup s : NoDup (Hof s) -> NoDup (p_traced s).
Proof.
  intros N. destruct (p_getter s) as [i|] eqn:G.
  - eapply Hof_nodup_getter; eauto.
  - unfold Hof in N. rewrite G, app_nil_r in N. exact N.
Qed.

(** releasing all tracing pointers *)
Lemma core_deref_all G ts vars cr : forall T sl lg,
  core sl lg ts vars (T ++ G) cr ->
  exists sl' lg', dereference_all sl lg T = Some (sl', lg') /\ core sl' lg' ts vars G cr.
Proof.
  induction T as [|i T IH]; intros sl lg C; cbn [dereference_all app] in *; [eauto|].
  destruct (core_deref _ _ _ _ _ _ i C (or_introl eq_refl)) as (sl1 & lg1 & w & D & _ & _ & _ & _ & K).
  rewrite D. apply IH. apply K.
  - intros j. rewrite hb_cons. pose proof (c_nodup _ _ _ _ _ _ C) as ND. inversion ND; subst.
    destruct (Nat.eqb_spec j i); cbn; [subst; apply hb_false; assumption|reflexivity].
  - pose proof (c_nodup _ _ _ _ _ _ C) as ND. inversion ND; subst. assumption.
Qed.

Lemma core_log_empty sl lg ts vars H cr : core sl lg ts vars H cr ->
  existsb (fun f : bool * bool => fst f || snd f)%bool lg = match H with [] => false | _ => true end.
Proof.
  intros C. destruct H as [|i H].
  - match goal with |- existsb ?f lg = _ => destruct (existsb f lg) eqn:E end; [|reflexivity]. apply existsb_exists in E as [f [I X]].
    apply In_nth_error in I as [k K]. rewrite (c_log _ _ _ _ _ _ C k f K) in X. discriminate.
  - apply existsb_exists. destruct (c_H _ _ _ _ _ _ C i (or_introl eq_refl)) as [w E].
    assert (L : (i < length lg)%nat) by (rewrite (c_len _ _ _ _ _ _ C); apply nth_error_Some; congruence).
    apply nth_error_Some in L. destruct (nth_error lg i) as [f|] eqn:F; [|congruence].
    exists f. split; [eapply nth_error_In; eauto|]. rewrite (c_log _ _ _ _ _ _ C i f F).
    rewrite hb_cons, Nat.eqb_refl. reflexivity.
Qed.

Lemma latest_ge : forall sl acc, acc <= fold_left latest_acc sl acc /\
  (forall w, In w sl -> is_invalid w = false -> is_in_writing w = false -> ts_of w <= fold_left latest_acc sl acc).
Proof.
  induction sl as [|a sl IH]; intros acc; cbn [fold_left]; [split; [lia|intros w []]|].
  destruct (IH (latest_acc acc a)) as [I1 I2].
  assert (A : acc <= latest_acc acc a).
  { unfold latest_acc. destruct (_ && _)%bool eqn:E; [|lia]. rewrite !Bool.andb_true_iff in E.
    destruct E as [_ E]. apply N.ltb_lt in E. lia. }
  split; [lia|]. intros w [<-|I] X Y; [|auto].
  enough (ts_of a <= latest_acc acc a) by lia. unfold latest_acc. rewrite X, Y. cbn [negb andb].
  destruct (acc <? ts_of a) eqn:E; [lia|]. apply N.ltb_ge in E. exact E.
Qed.

Lemma latest_lt : forall sl acc b, acc < b -> (forall w, In w sl -> ts_of w < b) -> fold_left latest_acc sl acc < b.
Proof.
  induction sl as [|a sl IH]; intros acc b A B; cbn [fold_left]; [exact A|].
  apply IH; [|intros w I; apply B; right; exact I]. unfold latest_acc.
  destruct (_ && _)%bool; [apply B; left; reflexivity|exact A].
Qed.

Lemma step_good s o : good s -> orderly s o ->
  let '(s', r) := pstep s o in
  (fatal r = false -> good s') /\ r <> OUndefined /\
  (r = OAbort <-> (o = PGet /\ p_offered s = true /\ p_getter s = None /\ newest_traced s) \/
                  (o = PStop /\ p_offered s = true /\ p_getter s <> None)).
Proof.
  intros G ORD. pose proof G as [C OFF].
  assert (TRIV : forall r : pout, r <> OUndefined -> r <> OAbort ->
     forall o', o = o' -> (match o' with PGet | PStop => False | _ => True end) ->
     r <> OUndefined /\ (r = OAbort <-> (o = PGet /\ p_offered s = true /\ p_getter s = None /\ newest_traced s) \/
                  (o = PStop /\ p_offered s = true /\ p_getter s <> None))).
  { intros r R1 R2 o' E X. split; [exact R1|]. split; [contradiction|].
    intros [[Y _]|[Y _]]; subst o; subst o'; contradiction. }
  destruct o as [v|a b|v|v tr|k| | |i|i| |fresh]; cbn [pstep].
  - destruct (p_offered s) eqn:O.
    2:{ split; [auto|]. eapply TRIV; [discriminate|discriminate|reflexivity|exact I]. }
    destruct (AllocateNextSlot_quiet (p_slots s)) as [[i|] sl] eqn:A.
    2:{ split; [auto|]. eapply TRIV; [discriminate|discriminate|reflexivity|exact I]. }
    destruct (core_alloc _ _ _ _ _ _ _ _ C A) as ((w & E & _) & K1 & K2 & K3 & ->).
    destruct (p_vars s v) as [x|] eqn:V; cbn [discard_ptr].
    + assert (N : x <> i) by (intros ->; destruct (K3 _ V)).
      destruct (core_discard _ _ _ _ _ _ v x C V) as (sl1 & _ & C1 & ->).
      assert (D : Discard (lset (p_slots s) i IN_WRITING) x = Some (lset (lset (p_slots s) x 0) i IN_WRITING)).
      { unfold Discard. rewrite lset_nth_neq by auto. rewrite (c_var _ _ _ _ _ _ C v x V).
        change (is_in_writing IN_WRITING) with true. cbv iota. rewrite lset_comm by auto. reflexivity. }
      cbn [p_slots p_offered]. rewrite D.
      split; [|eapply TRIV; [discriminate|discriminate|reflexivity|exact I]].
      intros _. split; [|discriminate]. cbn.
      eapply core_vars_ext; [eapply (core_take (lset (p_slots s) x 0) _ _ (vset (p_vars s) v None) _ _ i w v C1); auto|].
      * rewrite lset_nth_neq by auto. exact E.
      * intros u. unfold vset. destruct (u =? v)%nat; [discriminate|auto].
      * unfold vset. rewrite Nat.eqb_refl. reflexivity.
      * intros u. symmetry. apply vset_same.
    + split; [|eapply TRIV; [discriminate|discriminate|reflexivity|exact I]].
      intros _. split; [|discriminate]. cbn. eapply core_take; eauto.
  - split; [|eapply TRIV; [discriminate|discriminate|reflexivity|exact I]].
    intros _. split; [cbn; apply core_swap; exact C|]. cbn. intros O. destruct (OFF O) as [O1 O2]. split; [|exact O2].
    intros v. unfold vset. destruct (v =? b)%nat; [auto|]. destruct (v =? a)%nat; auto.
  - destruct (p_vars s v) as [x|] eqn:V; cbn [discard_ptr].
    + cbn [set_vars p_offered p_slots]. destruct (p_offered s) eqn:O.
      * destruct (core_discard _ _ _ _ _ _ v x C V) as (sl1 & D & C1 & ->). rewrite D.
        split; [|eapply TRIV; [discriminate|discriminate|reflexivity|exact I]].
        intros _. split; [exact C1|discriminate].
      * exfalso. destruct (OFF eq_refl) as [O1 _]. rewrite O1 in V. discriminate.
    + split; [|eapply TRIV; [discriminate|discriminate|reflexivity|exact I]].
      intros _. split.
      * eapply core_vars_ext; [exact C|]. intros u. cbn. unfold vset. destruct (Nat.eqb_spec u v); [subst; auto|reflexivity].
      * cbn. intros O. destruct (OFF O) as [O1 O2]. split; [|exact O2]. intros u. unfold vset. destruct (u =? v)%nat; auto.
  - destruct (p_vars s v) as [i|] eqn:V.
    2:{ split; [auto|]. eapply TRIV; [discriminate|discriminate|reflexivity|exact I]. }
    destruct (p_offered s) eqn:O.
    2:{ exfalso. destruct (OFF eq_refl) as [O1 _]. rewrite O1 in V. discriminate. }
    destruct (p_ts s + 1 <? TIMESTAMP_MAX) eqn:B.
    2:{ split; [auto|]. eapply TRIV; [discriminate|discriminate|reflexivity|exact I]. }
    apply N.ltb_lt in B.
    destruct (core_publish _ _ _ _ _ _ v i C V B) as [R C1]. rewrite R.
    pose proof (c_var _ _ _ _ _ _ C v i V) as W.
    pose proof (slot_writing _ _ _ _ _ (c_slot _ _ _ _ _ _ C i _ W)) as (A1 & A2 & _).
    destruct tr; cbn [discard_ptr set_vars p_vars p_slots p_offered].
    + assert (E1 : nth_error (lset (p_slots s) i (word (p_ts s + 1) 0)) i = Some (word (p_ts s + 1) 0)) by (eapply lset_some; eauto).
      assert (T1 : ts_of (word (p_ts s + 1) 0) = p_ts s + 1) by (apply ts_word; reflexivity).
      destruct (core_ref _ _ _ _ _ _ i _ C1 E1) as (Q1 & Q2 & Q3 & Q4 & lg1 & Q5 & lg2 & Q6 & Q7); [rewrite T1; lia|exact A2|].
      unfold reference_specific. rewrite E1, Q1, Q2, Q5. cbn [orb].
      apply N.eqb_neq in Q3. rewrite Q3, Q6.
      assert (C2 := Q7 (i :: Hof s) (hb_cons (Hof s) i)).
      assert (ND : NoDup (i :: Hof s)) by (constructor; [apply hb_false, A2|apply C]).
      specialize (C2 ND).
      assert (DD : Discard (lset (lset (p_slots s) i (word (p_ts s + 1) 0)) i (w_inc (word (p_ts s + 1) 0))) i =
                   Some (lset (lset (p_slots s) i (word (p_ts s + 1) 0)) i (w_inc (word (p_ts s + 1) 0)))).
      { rewrite tmax_val in B. rewrite word_inc; [|rewrite two32_val; lia|reflexivity].
        eapply discard_published; [eapply lset_some; exact E1|lia|reflexivity]. }
      rewrite DD.
      split; [|eapply TRIV; [discriminate|discriminate|reflexivity|exact I]].
      intros _. split; [|discriminate]. exact C2.
    + assert (DD : Discard (lset (p_slots s) i (word (p_ts s + 1) 0)) i = Some (lset (p_slots s) i (word (p_ts s + 1) 0))).
      { eapply discard_published; [eapply lset_some; exact W|lia|reflexivity]. }
      rewrite DD.
      split; [|eapply TRIV; [discriminate|discriminate|reflexivity|exact I]].
      intros _. split; [|discriminate]. exact C1.
  - destruct (nth_error (p_traced s) k) as [i|] eqn:K.
    2:{ split; [auto|]. eapply TRIV; [discriminate|discriminate|reflexivity|exact I]. }
    assert (IN : In i (Hof s)) by (apply in_or_app; left; eapply nth_error_In; eauto).
    destruct (core_deref _ _ _ _ _ _ i C IN) as (sl' & lg' & w & D & _ & _ & _ & _ & Q). rewrite D.
    split; [|eapply TRIV; [discriminate|discriminate|reflexivity|exact I]].
    pose proof (c_nodup _ _ _ _ _ _ C) as ND.
    destruct (remove_nth_spec _ _ _ K (good_traced_nodup s ND)) as [R1 R2].
    intros _. split; [|cbn; intros O; destruct (OFF O) as (_ & T & _); rewrite T in K; destruct k; discriminate].
    cbn. apply Q.
    + intros j. unfold Hof. cbn [p_traced p_getter]. rewrite !hb_app, R2.
      destruct (Nat.eqb_spec j i); cbn; [|reflexivity]. subst.
      destruct (p_getter s) as [g|] eqn:GG; [|reflexivity].
      apply hb_false. intros [->|[]]. apply (good_getter_out s ND _ GG). eapply nth_error_In; eauto.
    + unfold Hof. cbn [p_traced p_getter]. apply NoDup_app_getter; [exact R1|].
      intros j J X. apply hb_true in X. rewrite R2 in X. apply andb_prop in X as [_ X]. apply hb_true in X.
      exact (good_getter_out s ND _ J X).
  - destruct (p_offered s) eqn:O.
    2:{ split; [auto|]. split; [discriminate|]. split; [discriminate|]. intros [(_ & X & _)|(X & _)]; discriminate. }
    destruct (p_getter s) as [g|] eqn:GG.
    { split; [auto|]. split; [discriminate|]. split; [discriminate|]. intros [(_ & _ & X & _)|(X & _)]; discriminate. }
    pose proof (find_newest_core s G) as F.
    destruct (find_newest 0 TIMESTAMP_MAX (p_slots s) 0 None) as [[i w]|].
    2:{ split; [auto|]. split; [discriminate|]. split; [discriminate|]. intros [(_ & _ & _ & X)|(X & _)]; [|discriminate].
        destruct X as (j & x & _ & X1 & X2 & _). rewrite (F _ _ X1) in X2. lia. }
    destruct F as (F1 & F2 & F3).
    destruct (hb (Hof s) i) eqn:HB.
    + (* held by tracing *)
      assert (TR : In i (p_traced s)).
      { apply hb_true in HB. unfold Hof in HB. rewrite GG, app_nil_r in HB. exact HB. }
      assert (W64 : (w =? two64 - 1) = false).
      { apply N.eqb_neq. destruct (c_slot _ _ _ _ _ _ C i w F1) as [(P1 & _)|[(P1 & _)|(t & P1 & P2 & P3 & P4 & P5)]].
        - subst. discriminate. - subst. discriminate.
        - pose proof (hc_le (Hof s) i). pose proof (c_ts _ _ _ _ _ _ C) as TS. rewrite tmax_val in TS.
          subst w. unfold word, two64. rewrite two32_val in *. lia. }
      rewrite W64.
      assert (TB : tx_begin (p_log s) i = None).
      { unfold tx_begin. destruct (nth_error (p_log s) i) as [f|] eqn:FF; [|reflexivity].
        rewrite (c_log _ _ _ _ _ _ C i f FF), HB. reflexivity. }
      rewrite TB. split; [discriminate|]. split; [discriminate|]. split; [|reflexivity].
      intros _. left. repeat split; auto. exists i, w. auto.
    + destruct (core_ref _ _ _ _ _ _ i w C F1 F2 HB) as (Q1 & Q2 & Q3 & Q4 & lg1 & Q5 & lg2 & Q6 & Q7).
      apply N.eqb_neq in Q4. rewrite Q4, Q5, Q6.
      split.
      * intros _. split; [|discriminate]. cbn.
        assert (GT : p_traced s = Hof s) by (unfold Hof; rewrite GG, app_nil_r; reflexivity).
        apply Q7.
        -- intros j. transitivity (hb (p_traced s ++ [i]) j); [reflexivity|]. rewrite hb_app, hb_cons, GT.
           change (hb [] j) with false. rewrite Bool.orb_false_r. apply Bool.orb_comm.
        -- unfold Hof. cbn [p_traced p_getter]. apply (NoDup_app_getter _ (Some i)).
           ++ rewrite GT. apply C.
           ++ intros j [= <-]. rewrite GT. apply hb_false, HB.
      * split; [discriminate|]. split; [discriminate|]. intros [(_ & _ & _ & X)|(X & _)]; [|discriminate].
        destruct X as (j & x & X1 & X2 & X3 & X4).
        assert (j = i).
        { destruct (Nat.eq_dec j i) as [|N]; [assumption|exfalso].
          apply (c_dist _ _ _ _ _ _ C j i x w N X2 F1 X3). specialize (X4 _ _ F1). specialize (F3 _ _ X2). lia. }
        subst j. apply hb_false in HB. exfalso. apply HB. apply in_or_app. left. exact X1.
  - destruct (p_getter s) as [i|] eqn:GG.
    2:{ split; [auto|]. eapply TRIV; [discriminate|discriminate|reflexivity|exact I]. }
    assert (IN : In i (Hof s)) by (apply in_or_app; right; rewrite GG; left; reflexivity).
    destruct (core_deref _ _ _ _ _ _ i C IN) as (sl' & lg' & w & D & _ & _ & _ & _ & Q). rewrite D.
    split; [|eapply TRIV; [discriminate|discriminate|reflexivity|exact I]].
    pose proof (c_nodup _ _ _ _ _ _ C) as ND.
    intros _. split; [|cbn; intros O; destruct (OFF O) as (_ & _ & X); congruence].
    cbn. apply Q.
    + intros j. unfold Hof. cbn [p_traced p_getter]. rewrite GG, app_nil_r, hb_app, hb_cons.
      destruct (Nat.eqb_spec j i); cbn; [subst; apply hb_false; eapply good_getter_out; eauto|].
      change (hb [] j) with false. rewrite Bool.orb_false_r. reflexivity.
    + unfold Hof. cbn [p_traced p_getter]. rewrite app_nil_r. apply good_traced_nodup, ND.
  - destruct (nth_error (p_slots s) i) as [w|] eqn:E.
    2:{ split; [auto|]. eapply TRIV; [discriminate|discriminate|reflexivity|exact I]. }
    destruct (negb (is_in_writing w) && negb (is_invalid w) && (p_crefs s i + 3 <? two32 - 1))%bool eqn:B.
    2:{ split; [auto|]. eapply TRIV; [discriminate|discriminate|reflexivity|exact I]. }
    rewrite !Bool.andb_true_iff, !Bool.negb_true_iff in B. destruct B as [[B1 B2] B3]. apply N.ltb_lt in B3.
    split; [|eapply TRIV; [discriminate|discriminate|reflexivity|exact I]].
    intros _. split; [|exact OFF]. cbn.
    destruct (core_cons _ _ _ _ _ _ i w (w_inc w) (fun j => if (j =? i)%nat then p_crefs s i + 1 else p_crefs s j) C E) as [K _]; [| | | |exact K].
    + destruct (c_slot _ _ _ _ _ _ C i w E) as [(P1 & _)|[(P1 & _)|(t & P1 & P2 & P3 & P4 & P5)]].
      * subst. discriminate. * subst. discriminate.
      * pose proof (hc_le (Hof s) i). subst w. rewrite ts_word; [exact P2|rewrite two32_val in *; lia].
    + intros j N. apply Nat.eqb_neq in N. rewrite N. reflexivity.
    + rewrite Nat.eqb_refl. rewrite two32_val in *. lia.
    + intros t Et Tt. rewrite Nat.eqb_refl. rewrite Et. pose proof (hc_le (Hof s) i).
      rewrite word_inc; [f_equal; lia|exact Tt|rewrite two32_val in *; lia].
  - destruct (nth_error (p_slots s) i) as [w|] eqn:E.
    2:{ split; [auto|]. eapply TRIV; [discriminate|discriminate|reflexivity|exact I]. }
    destruct (0 <? p_crefs s i) eqn:B.
    2:{ split; [auto|]. eapply TRIV; [discriminate|discriminate|reflexivity|exact I]. }
    apply N.ltb_lt in B.
    split; [|eapply TRIV; [discriminate|discriminate|reflexivity|exact I]].
    intros _. split; [|exact OFF]. cbn.
    destruct (c_slot _ _ _ _ _ _ C i w E) as [(_ & P1 & _)|[(_ & P1 & _)|(t & P1 & P2 & P3 & P4 & P5)]]; [lia|lia|].
    pose proof (hc_le (Hof s) i).
    destruct (core_cons _ _ _ _ _ _ i w (w_dec w) (fun j => if (j =? i)%nat then p_crefs s i - 1 else p_crefs s j) C E) as [K _]; [| | | |exact K].
    + subst w. rewrite ts_word; [exact P2|rewrite two32_val in *; lia].
    + intros j N. apply Nat.eqb_neq in N. rewrite N. reflexivity.
    + rewrite Nat.eqb_refl. rewrite two32_val in *. lia.
    + intros t' Et Tt. rewrite Nat.eqb_refl. rewrite Et.
      rewrite word_dec; [f_equal; lia|exact Tt|lia|rewrite two32_val in *; lia].
  - destruct (p_offered s) eqn:O.
    2:{ split; [auto|]. split; [discriminate|]. split; [discriminate|]. intros [(X & _)|(_ & X & _)]; discriminate. }
    destruct (core_deref_all (match p_getter s with Some i => [i] | None => [] end) _ _ _ (p_traced s) _ _ C) as (sl & lg & D & C1).
    rewrite D. rewrite (core_log_empty _ _ _ _ _ _ C1).
    destruct (p_getter s) as [g|] eqn:GG.
    + split; [discriminate|]. split; [discriminate|]. split; [|reflexivity]. intros _. right. repeat split; congruence.
    + split; [|split; [discriminate|]].
      * intros _. split; [cbn; unfold Hof; cbn; exact C1|]. cbn. intros _. split; [|auto]. apply ORD. reflexivity.
      * split; [discriminate|]. intros [(X & _)|(_ & _ & X)]; [discriminate|congruence].
  - destruct (p_offered s) eqn:O.
    { split; [auto|]. eapply TRIV; [discriminate|discriminate|reflexivity|exact I]. }
    destruct (OFF eq_refl) as (O1 & O2 & O3).
    destruct fresh.
    + split; [|eapply TRIV; [discriminate|discriminate|reflexivity|exact I]].
      intros _. split; [|discriminate]. unfold Hof. cbn. rewrite O2, O3. cbn [app]. constructor.
      * rewrite !map_length. apply C.
      * constructor.
      * intros a b j E. rewrite O1 in E. discriminate.
      * intros j w E. rewrite nth_error_map in E. destruct (nth_error (p_slots s) j); [|discriminate].
        injection E as <-. left. repeat split; auto. intros v. rewrite O1. discriminate.
      * intros j f E. rewrite nth_error_map in E. destruct (nth_error (p_log s) j); [|discriminate].
        injection E as <-. reflexivity.
      * intros v j E. rewrite O1 in E. discriminate.
      * intros j [].
      * reflexivity.
      * intros j k wj wk _ E1 _ T. rewrite nth_error_map in E1. destruct (nth_error (p_slots s) j); [|discriminate].
        injection E1 as <-. change (ts_of INVALID_EVENT) with 0 in T. lia.
    + split; [|eapply TRIV; [discriminate|discriminate|reflexivity|exact I]].
      intros _. split; [|discriminate]. cbn.
      assert (NW : RemoveAllocationsForWriting (p_slots s) = p_slots s).
      { unfold RemoveAllocationsForWriting. rewrite <- (map_id (p_slots s)) at 2. apply map_ext_in.
        intros w I. apply In_nth_error in I as [j E].
        destruct (is_in_writing w) eqn:Z; [|reflexivity]. apply is_in_writing_true in Z. subst w.
        destruct (slot_writing _ _ _ _ _ (c_slot _ _ _ _ _ _ C j _ E)) as (_ & _ & v & V). rewrite O1 in V. discriminate. }
      rewrite NW.
      assert (TB : forall j w, nth_error (p_slots s) j = Some w -> ts_of w < TIMESTAMP_MAX).
      { intros j x E. pose proof (c_ts _ _ _ _ _ _ C). destruct (c_slot _ _ _ _ _ _ C j x E) as [(P1 & _)|[(P1 & _)|(t & P1 & P2 & P3 & P4 & P5)]].
        - subst. reflexivity.
        - subst. rewrite ts_in_writing. reflexivity.
        - pose proof (hc_le (Hof s) j). subst x. rewrite ts_word; [lia|rewrite two32_val in *; lia]. }
      constructor; try apply C.
      * intros j w E. destruct (c_slot _ _ _ _ _ _ C j w E) as [P|[P|(t & P1 & P2 & P3 & P4 & P5)]]; [left; exact P|right; left; exact P|].
        right; right. exists t. repeat split; auto.
        pose proof (hc_le (Hof s) j).
        assert (TT : ts_of w = t) by (subst w; apply ts_word; rewrite two32_val in *; lia).
        rewrite <- TT. unfold GetLatestTimestamp. apply latest_ge.
        -- eapply nth_error_In; eauto.
        -- subst w. apply word_not_invalid, P2.
        -- subst w. apply word_not_writing; [exact P2|rewrite two32_val in *; lia].
      * unfold GetLatestTimestamp. apply latest_lt; [reflexivity|].
        intros w I. apply In_nth_error in I as [j E]. eauto.
Qed.

Lemma good_init n : good (pinit n).
Proof.
  split; [|discriminate]. unfold Hof. cbn. constructor.
  - rewrite !repeat_length. reflexivity.
  - constructor.
  - discriminate.
  - intros i w E. apply nth_error_In, repeat_spec in E. subst. left. repeat split; auto. discriminate.
  - intros i f E. apply nth_error_In, repeat_spec in E. subst. reflexivity.
  - discriminate.
  - intros i [].
  - reflexivity.
  - intros i j wi wj _ E _ T. apply nth_error_In, repeat_spec in E. subst. change (ts_of INVALID_EVENT) with 0 in T. lia.
Qed.
