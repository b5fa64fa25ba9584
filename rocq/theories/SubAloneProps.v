(** C14, second half: Subscribe succeeds whenever the limits allow it, and fails with
    the right error and without a trace when they do not (calls that nobody disturbs). *)
From Verif Require Import SubModel SubProofs SubProps.
Ltac Zify.zify_post_hook ::= idtac.
Local Open Scope N_scope.

(** ** Specification *)
(** one of the M transaction logs has no owner *)
Definition log_free (M : nat) (s : zst) : Prop := exists k, (k < M)%nat /\ zown (logs s k) = None.
(** p calls Subscribe(c) and takes n steps; nobody else moves *)
Definition subscribe (p : nat) (c : N) (n : nat) : list zlabel := ZSubscribe p c :: repeat (ZStep p) n.

Section Props.
Variables (M : nat) (S : N) (enforce : bool).
Hypothesis HM : (M <= 255)%nat.
Hypothesis HS : S < two16.
Notation at_ ls := (zrun M S enforce zinit ls).

Lemma go_trans s p a b : zrun M S enforce s (runs p (a + b)) = zrun M S enforce (zrun M S enforce s (runs p a)) (runs p b).
Proof. unfold runs. rewrite repeat_app. unfold zrun. apply fold_left_app. Qed.
Lemma go_one s p : zrun M S enforce s (runs p 1) = zstep1 M S enforce s p.
Proof. reflexivity. Qed.

(** search for a log: the first free one *)
Lemma acquire_alone s p r c : forall m i, (i + m = M)%nat -> pcs s p = ZAcq r i c ->
  (exists k n, (i <= k)%nat /\ (k < M)%nat /\ zown (logs s k) = None /\
     (forall j, (i <= j)%nat -> (j < k)%nat -> zown (logs s j) <> None) /\
     let s' := zrun M S enforce s (runs p n) in
     ctl s' = ctl s /\ pcs s' p = ZBegin k c /\ resu s' = resu s /\
     (forall q, q <> p -> pcs s' q = pcs s q) /\
     logs s' k = mkZL (Some p) (zbeg (logs s k)) (zend (logs s k)) (zcnt (logs s k)) /\
     (forall j, j <> k -> logs s' j = logs s j)) \/
  ((forall j, (i <= j)%nat -> (j < M)%nat -> zown (logs s j) <> None) /\
   exists n, let s' := zrun M S enforce s (runs p n) in
     ctl s' = ctl s /\ pcs s' p = ZAcq r M c /\ resu s' = resu s /\ (forall q, q <> p -> pcs s' q = pcs s q) /\ logs s' = logs s).
Proof.
  intros m. revert s. induction m as [|m IH]; intros s i E HP.
  - right. split; [intros j H1 H2; lia|]. exists 0%nat. cbn. rewrite HP. repeat split. f_equal. lia.
  - destruct (zown (logs s i)) as [o|] eqn:EO.
    + set (s1 := zstep1 M S enforce s p).
      assert (E1 : s1 = z_pc s p (ZAcq r (Datatypes.S i) c)).
      { unfold s1, zstep1. rewrite HP, (proj2 (Nat.ltb_lt i M)) by lia. rewrite EO. reflexivity. }
      destruct (IH s1 (Datatypes.S i)) as [(k & n & A1 & A2 & A3 & A4 & A5 & A6 & A7 & A8 & A9 & A10)|(B1 & n & B2 & B3 & B4 & B5 & B6)].
      * lia.
      * rewrite E1. cbn. apply fupd_eq.
      * left. exists k, (1 + n)%nat. cbn zeta. rewrite go_trans, go_one. fold s1.
        rewrite A5, A6, A7, A9. rewrite E1 in *. cbn [ctl logs resu z_pc] in *.
        split; [lia|]. split; [exact A2|]. split; [exact A3|]. split.
        { intros j J1 J2. destruct (Nat.eq_dec j i) as [->|]; [congruence|apply A4; lia]. }
        repeat split; auto. intros q Hq. rewrite A8 by exact Hq. cbn. apply fupd_neq. exact Hq.
      * right. split.
        { intros j J1 J2. destruct (Nat.eq_dec j i) as [->|]; [congruence|]. specialize (B1 j). rewrite E1 in B1. apply B1; lia. }
        exists (1 + n)%nat. cbn zeta. rewrite go_trans, go_one. fold s1. rewrite B2, B3, B4, B6. rewrite E1 in *. cbn [ctl logs resu z_pc] in *.
        repeat split; auto. intros q Hq. rewrite B5 by exact Hq. cbn. apply fupd_neq. exact Hq.
    + left. exists i, 1%nat. split; [lia|]. split; [lia|]. split; [exact EO|]. split; [intros j J1 J2; lia|]. cbn zeta. rewrite go_one.
      assert (E1 : zstep1 M S enforce s p = z_pc (z_log s i (mkZL (Some p) (zbeg (logs s i)) (zend (logs s i)) (zcnt (logs s i)))) p (ZBegin i c)).
      { unfold zstep1. rewrite HP, (proj2 (Nat.ltb_lt i M)) by lia. rewrite EO. reflexivity. }
      rewrite E1. cbn. rewrite !fupd_eq. repeat split; [intros q Hq; apply fupd_neq; exact Hq|intros j Hj; apply fupd_neq; exact Hj].
Qed.

(** what happens once the log is acquired *)
Lemma begin_alone s p k c : Inv M S enforce s -> pcs s p = ZBegin k c -> c <= 255 ->
  let ok := negb enforce || (n_samples s + c <=? S) in
  exists n, let s' := zrun M S enforce s (runs p n) in
    (forall q, q <> p -> pcs s' q = pcs s q) /\ (forall j, j <> k -> logs s' j = logs s j) /\
    if ok then pcs s' p = ZSub k c /\ resu s' p = ZOk /\ zown (logs s' k) = Some p /\
               n_subscribers s' = n_subscribers s + 1 /\ n_samples s' = n_samples s + c
    else pcs s' p = ZNot /\ resu s' p = ZMaxSampleCountNotRealizable /\ zown (logs s' k) = None /\ ctl s' = ctl s.
Proof.
  intros HI Hpc Hc255. pose proof HI as (HC & HE & HO & HLT & HF & HL).
  destruct (ctl_subs M S enforce HM HS _ HI) as (A & B & LT). destruct (totals M S enforce HM HS _ HI) as [TM TB].
  pose proof (HL p) as (HB & _ & _). rewrite Hpc in HB. cbn in HB. destruct HB as (B1 & B2).
  assert (OWN : zown (logs s k) = Some p) by (apply HO; rewrite Hpc; reflexivity).
  assert (Hkm : (k < M)%nat) by (apply (HLT k p OWN)).
  assert (V : via s k = None) by (unfold via; rewrite OWN, Hpc; reflexivity).
  assert (SL : total_subs M s < N.of_nat M).
  { unfold total_subs. apply nsum_lt1 with (i := k); [exact Hkm|cbn beta; rewrite V; reflexivity|]. intros j _. destruct (via s j); cbn; lia. }
  cbv zeta. unfold n_samples, n_subscribers. rewrite B.
  set (s1 := z_pc (z_log s k (mkZL (Some p) true false c)) p (ZLoad k c 0)).
  assert (E1 : zstep1 M S enforce s p = s1).
  { unfold zstep1. rewrite Hpc. cbv zeta. rewrite B1, B2, OWN. reflexivity. }
  assert (P1 : pcs s1 p = ZLoad k c 0) by (cbn; apply fupd_eq).
  assert (E2 : zstep1 M S enforce s1 p = if enforce && (S <? total_slots M s + c) then z_pc s1 p (ZAbort k) else z_pc s1 p (ZCas k c 0 (ctl s))).
  { unfold zstep1. rewrite P1. cbv zeta. change (ctl s1) with (ctl s). rewrite A, B.
    destruct (N.leb_spec (N.of_nat M) (total_subs M s)) as [X|X]; [lia|]. reflexivity. }
  assert (OK : enforce && (S <? total_slots M s + c) = negb (negb enforce || (total_slots M s + c <=? S))).
  { rewrite negb_orb, negb_involutive. f_equal. rewrite N.leb_antisym, negb_involutive. reflexivity. }
  rewrite OK in E2. destruct (negb enforce || (total_slots M s + c <=? S)) eqn:EOK; cbn [negb] in E2.
  - set (s2 := z_pc s1 p (ZCas k c 0 (ctl s))) in *.
    assert (P2 : pcs s2 p = ZCas k c 0 (ctl s)) by (cbn; apply fupd_eq).
    set (s3 := z_pc (z_ctl s2 (mk_state (subs_of (ctl s) + 1) (slots_of (ctl s) + c))) p (ZCommit k c)).
    assert (E3 : zstep1 M S enforce s2 p = s3).
    { unfold zstep1. rewrite P2. change (ctl s2) with (ctl s). rewrite N.eqb_refl. reflexivity. }
    assert (P3 : pcs s3 p = ZCommit k c) by (cbn; apply fupd_eq).
    assert (L3 : logs s3 k = mkZL (Some p) true false c) by (cbn; apply fupd_eq).
    set (s4 := z_res (z_pc (z_log s3 k (mkZL (Some p) true true c)) p (ZSub k c)) p ZOk).
    assert (E4 : zstep1 M S enforce s3 p = s4).
    { unfold zstep1. rewrite P3. cbv zeta. rewrite L3. reflexivity. }
    exists 4%nat. change (zrun M S enforce s (runs p 4)) with (zstep1 M S enforce (zstep1 M S enforce (zstep1 M S enforce (zstep1 M S enforce s p) p) p) p).
    rewrite E1, E2, E3, E4.
    split; [intros q Hq; cbn; rewrite !fupd_neq by exact Hq; reflexivity|].
    split; [intros j Hj; cbn; rewrite !fupd_neq by exact Hj; reflexivity|].
    split; [cbn; apply fupd_eq|]. split; [cbn; apply fupd_eq|]. split; [cbn; rewrite fupd_eq; reflexivity|].
    change (ctl s4) with (mk_state (subs_of (ctl s) + 1) (slots_of (ctl s) + c)). rewrite A, B.
    assert (BD : total_slots M s + c < two16) by (unfold two16 in *; lia).
    rewrite (mk_word M S HM HS) by lia. rewrite (subs_word M S HM HS), slots_word by lia. split; reflexivity.
  - set (s2 := z_pc s1 p (ZAbort k)) in *.
    assert (P2 : pcs s2 p = ZAbort k) by (cbn; apply fupd_eq).
    assert (L2 : logs s2 k = mkZL (Some p) true false c) by (cbn; apply fupd_eq).
    set (s3 := z_res (z_pc (z_log s2 k (mkZL (Some p) false false c)) p (ZRel k)) p ZMaxSampleCountNotRealizable).
    assert (E3 : zstep1 M S enforce s2 p = s3).
    { unfold zstep1. rewrite P2. cbv zeta. rewrite L2. reflexivity. }
    assert (P3 : pcs s3 p = ZRel k) by (cbn; apply fupd_eq).
    assert (L3 : logs s3 k = mkZL (Some p) false false c) by (cbn; apply fupd_eq).
    set (s4 := z_pc (z_log s3 k (mkZL None false false c)) p ZNot).
    assert (E4 : zstep1 M S enforce s3 p = s4).
    { unfold zstep1. rewrite P3. cbv zeta. rewrite L3. reflexivity. }
    exists 4%nat. change (zrun M S enforce s (runs p 4)) with (zstep1 M S enforce (zstep1 M S enforce (zstep1 M S enforce (zstep1 M S enforce s p) p) p) p).
    rewrite E1, E2, E3, E4.
    split; [intros q Hq; cbn; rewrite !fupd_neq by exact Hq; reflexivity|].
    split; [intros j Hj; cbn; rewrite !fupd_neq by exact Hj; reflexivity|].
    split; [cbn; apply fupd_eq|]. split; [cbn; apply fupd_eq|]. split; [cbn; rewrite fupd_eq; reflexivity|reflexivity].
Qed.

Lemma start_alone s p c : pcs s p = ZNot -> c <= 255 -> (0 < M)%nat ->
  zstep M S enforce s (ZSubscribe p c) = z_pc s p (ZAcq 0 0 c).
Proof. intros H1 H2 H3. unfold zstep. rewrite H1, (proj2 (N.leb_le _ _) H2), (proj2 (Nat.ltb_lt _ _) H3). reflexivity. Qed.

(** A log is free and the samples fit (or the limit is not enforced): Subscribe succeeds,
    the counters go up by exactly one subscriber and c samples, nobody else is affected. *)
Theorem C14_subscribe_within_limits_succeeds ls p c :
  let s := at_ ls in
  pcs s p = ZNot -> c <= 255 -> log_free M s -> (enforce = true -> n_samples s + c <= S) ->
  exists n, let s' := zrun M S enforce s (subscribe p c n) in
    subscribed s' p c /\ resu s' p = ZOk /\
    n_subscribers s' = n_subscribers s + 1 /\ n_samples s' = n_samples s + c /\
    (forall q, q <> p -> pcs s' q = pcs s q).
Proof.
  intros s HP Hc (k0 & K1 & K2) HE. pose proof (Inv_reach M S enforce HM HS ls) as HI. fold s in HI.
  assert (E0 := start_alone s p c HP Hc ltac:(lia)). set (s0 := z_pc s p (ZAcq 0 0 c)) in *.
  destruct (acquire_alone s0 p 0 c M 0 eq_refl) as [(k & n & _ & A2 & A3 & _ & A5 & A6 & A7 & A8 & A9 & A10)|(B1 & _)];
    [cbn; apply fupd_eq| |exfalso; exact (B1 k0 ltac:(lia) K1 K2)].
  set (s1 := zrun M S enforce s0 (runs p n)) in *.
  assert (HI1 : Inv M S enforce s1).
  { unfold s1. apply Inv_run; [assumption..|]. rewrite <- E0. apply Inv_step; assumption. }
  destruct (begin_alone s1 p k c HI1 A6 Hc) as (m & C1 & C2 & C3).
  assert (OK : negb enforce || (n_samples s1 + c <=? S) = true).
  { unfold n_samples in *. rewrite A5. change (ctl s0) with (ctl s). destruct enforce; [|reflexivity].
    cbn. apply N.leb_le. apply HE. reflexivity. }
  rewrite OK in C3. destruct C3 as (D1 & D2 & D3 & D4 & D5).
  exists (n + m)%nat. cbn zeta. unfold subscribe. rewrite zrun_cons, E0. fold (runs p (n + m)). rewrite go_trans. fold s1.
  unfold n_subscribers, n_samples in *. rewrite A5 in D4, D5. change (ctl s0) with (ctl s) in *.
  split; [exists k; exact D1|]. do 3 (split; [assumption|]).
  intros q Hq. rewrite C1, A8 by exact Hq. cbn. apply fupd_neq. exact Hq.
Qed.

(** A log is free but the samples do not fit: the error is kMaxSampleCountNotRealizable,
    the log is free again and the counters are as before. *)
Theorem C14_subscribe_too_many_samples ls p c :
  let s := at_ ls in
  pcs s p = ZNot -> c <= 255 -> log_free M s -> enforce = true -> S < n_samples s + c ->
  exists n, let s' := zrun M S enforce s (subscribe p c n) in
    pcs s' p = ZNot /\ resu s' p = ZMaxSampleCountNotRealizable /\
    n_subscribers s' = n_subscribers s /\ n_samples s' = n_samples s /\
    (forall k, zown (logs s' k) = zown (logs s k)) /\
    (forall q, q <> p -> pcs s' q = pcs s q).
Proof.
  intros s HP Hc (k0 & K1 & K2) HE HX. pose proof (Inv_reach M S enforce HM HS ls) as HI. fold s in HI.
  assert (E0 := start_alone s p c HP Hc ltac:(lia)). set (s0 := z_pc s p (ZAcq 0 0 c)) in *.
  destruct (acquire_alone s0 p 0 c M 0 eq_refl) as [(k & n & _ & A2 & A3 & _ & A5 & A6 & A7 & A8 & A9 & A10)|(B1 & _)];
    [cbn; apply fupd_eq| |exfalso; exact (B1 k0 ltac:(lia) K1 K2)].
  set (s1 := zrun M S enforce s0 (runs p n)) in *.
  assert (HI1 : Inv M S enforce s1).
  { unfold s1. apply Inv_run; [assumption..|]. rewrite <- E0. apply Inv_step; assumption. }
  destruct (begin_alone s1 p k c HI1 A6 Hc) as (m & C1 & C2 & C3).
  assert (OK : negb enforce || (n_samples s1 + c <=? S) = false).
  { unfold n_samples in *. rewrite A5. change (ctl s0) with (ctl s). rewrite HE. cbn. apply N.leb_gt. exact HX. }
  rewrite OK in C3. destruct C3 as (D1 & D2 & D3 & D4).
  exists (n + m)%nat. cbn zeta. unfold subscribe. rewrite zrun_cons, E0. fold (runs p (n + m)). rewrite go_trans. fold s1.
  unfold n_subscribers, n_samples in *. rewrite D4, A5. change (ctl s0) with (ctl s) in *.
  do 4 (split; [assumption||reflexivity|]). split.
  - intros j. destruct (Nat.eq_dec j k) as [->|Hj]; [rewrite D3; symmetry; exact A3|].
    rewrite C2, A10 by exact Hj. reflexivity.
  - intros q Hq. rewrite C1, A8 by exact Hq. cbn. apply fupd_neq. exact Hq.
Qed.

(** All logs have an owner: the error is kMaxSubscribersExceeded and nothing changes. *)
Theorem C14_subscribe_too_many_subscribers ls p c :
  let s := at_ ls in
  pcs s p = ZNot -> c <= 255 -> ~ log_free M s ->
  exists n, let s' := zrun M S enforce s (subscribe p c n) in
    pcs s' p = ZNot /\ resu s' p = ZMaxSubscribersExceeded /\
    ctl s' = ctl s /\ (forall k, logs s' k = logs s k) /\ (forall q, q <> p -> pcs s' q = pcs s q).
Proof.
  intros s HP Hc HN.
  assert (ROUND : forall m r t, (r + m = M)%nat -> (0 < m)%nat -> ctl t = ctl s -> logs t = logs s -> (forall q, q <> p -> pcs t q = pcs s q) ->
     pcs t p = ZAcq r 0 c -> exists n, let s' := zrun M S enforce t (runs p n) in
     pcs s' p = ZNot /\ resu s' p = ZMaxSubscribersExceeded /\ ctl s' = ctl s /\ logs s' = logs s /\ (forall q, q <> p -> pcs s' q = pcs s q)).
  { induction m as [|m IH]; intros r t ER Hm T1 T2 T3 TP; [lia|].
    destruct (acquire_alone t p r c M 0 eq_refl TP) as [(k & n & _ & A2 & A3 & _)|(_ & n & B2 & B3 & B4 & B5 & B6)].
    { exfalso. apply HN. exists k. rewrite <- T2. split; assumption. }
    set (t1 := zrun M S enforce t (runs p n)) in *.
    assert (E1 : zstep1 M S enforce t1 p = if (Datatypes.S r <? M)%nat then z_pc t1 p (ZAcq (Datatypes.S r) 0 c)
                  else z_res (z_pc t1 p ZNot) p ZMaxSubscribersExceeded).
    { unfold zstep1. rewrite B3, Nat.ltb_irrefl. reflexivity. }
    destruct (Nat.ltb_spec (Datatypes.S r) M) as [L|L].
    - destruct (IH (Datatypes.S r) (z_pc t1 p (ZAcq (Datatypes.S r) 0 c))) as (n' & D).
      + lia.
      + lia.
      + cbn. congruence.
      + cbn. congruence.
      + intros q Hq. cbn. rewrite fupd_neq by exact Hq. rewrite B5 by exact Hq. apply T3. exact Hq.
      + cbn. apply fupd_eq.
      + exists (n + (1 + n'))%nat. cbn zeta. rewrite !go_trans. fold t1. rewrite go_one, E1. exact D.
    - exists (n + 1)%nat. cbn zeta. rewrite go_trans, go_one. fold t1. rewrite E1. cbn. rewrite !fupd_eq.
      do 2 (split; [reflexivity|]). split; [congruence|]. split; [congruence|].
      intros q Hq. rewrite fupd_neq by exact Hq. rewrite B5 by exact Hq. apply T3. exact Hq. }
  destruct (Nat.eq_dec M 0) as [Z|Z].
  { exists 0%nat. unfold subscribe. cbn [repeat zrun fold_left]. unfold zstep. rewrite HP, (proj2 (N.leb_le _ _) Hc), Z. cbn. rewrite fupd_eq. repeat split; auto. }
  assert (E0 := start_alone s p c HP Hc ltac:(lia)).
  destruct (ROUND M 0%nat (z_pc s p (ZAcq 0 0 c)) eq_refl ltac:(lia) eq_refl eq_refl) as (n & D1 & D2 & D3 & D4 & D5).
  - intros q Hq. cbn. apply fupd_neq. exact Hq.
  - cbn. apply fupd_eq.
  - exists n. cbn zeta. unfold subscribe. rewrite zrun_cons, E0. fold (runs p n).
    repeat split; auto. intros k. rewrite D4. reflexivity.
Qed.
End Props.

(** ** Concrete cases *)
Example ex_within : let s := zrun 3 10 true zinit two_subscribed in
  pcs s 2 = ZNot /\ log_free 3 s /\ n_samples s + 3 <= 10 /\ 10 < n_samples s + 4.
Proof. cbn zeta. split; [vm_compute; reflexivity|]. split; [exists 2%nat; split; [lia|vm_compute; reflexivity]|split; vm_compute; congruence]. Qed.
Example ex_full : let s := zrun 2 10 true zinit two_subscribed in pcs s 2 = ZNot /\ ~ log_free 2 s.
Proof.
  cbn zeta. split; [vm_compute; reflexivity|]. intros (k & K1 & K2). destruct k as [|[|k]]; [vm_compute in K2; discriminate|vm_compute in K2; discriminate|lia].
Qed.

Print Assumptions C14_subscribe_within_limits_succeeds.
Print Assumptions C14_subscribe_too_many_samples.
Print Assumptions C14_subscribe_too_many_subscribers.
