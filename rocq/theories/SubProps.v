(** C12 (subscription part), C14, C15, C18 (concurrent part). *)
From Verif Require Import SubModel SubProofs.
From Coq Require Import Permutation.
Ltac Zify.zify_post_hook ::= idtac.
Local Open Scope N_scope.

(** * Specification vocabulary *)
(** consumer p is subscribed with c samples *)
Definition subscribed (s : zst) (p : nat) (c : N) : Prop := exists k, pcs s p = ZSub k c.
(** consumer p is counted: its successful Subscribe has been entered into the shared
    counter and not yet been taken out (this includes dead consumers) *)
Definition counted (s : zst) (p : nat) (c : N) : Prop := held (pcs s p) = Some c.
(** no call is running and nobody is dead *)
Definition quiet (s : zst) : Prop := forall p, pcs s p = ZNot \/ exists c, subscribed s p c.
Fixpoint sumc (l : list (nat * N)) : N := match l with [] => 0 | (_, c) :: r => c + sumc r end.
(** number of subscribers and samples in the shared counter *)
Definition n_subscribers (s : zst) : N := subs_of (ctl s).
Definition n_samples (s : zst) : N := slots_of (ctl s).

Section Props.
Variables (M : nat) (S : N) (enforce : bool).
Hypothesis HM : (M <= 255)%nat.
Hypothesis HS : S < two16.
Notation at_ ls := (zrun M S enforce zinit ls).

(** C14: the limits hold at every moment. *)
Theorem C14_limits ls :
  n_subscribers (at_ ls) <= N.of_nat M /\ (enforce = true -> n_samples (at_ ls) <= S).
Proof.
  pose proof (Inv_reach M S enforce HM HS ls) as HI. unfold n_subscribers, n_samples.
  destruct (ctl_subs M S enforce HM HS _ HI) as (A & B & _). rewrite A, B.
  split; [apply (totals M S enforce HM HS _ HI)|]. apply HI.
Qed.

Definition entry (s : zst) (k : nat) : list (nat * N) :=
  match zown (logs s k) with
  | Some p => match held (pcs s p) with Some c => [(p, c)] | None => [] end
  | None => []
  end.
Definition canon (s : zst) : list (nat * N) := flat_map (entry s) (seq 0 M).

Lemma sumc_app a b : sumc (a ++ b) = sumc a + sumc b.
Proof. induction a as [|[p c] a IH]; cbn [sumc app]; [lia|]. rewrite IH. lia. Qed.

Lemma nsum_seq f n : nsum f n = fold_right (fun k a => f k + a) 0 (seq 0 n).
Proof.
  induction n as [|n IH]; [reflexivity|]. rewrite seq_S, fold_right_app. cbn [nsum fold_right plus].
  rewrite IH. generalize (seq 0 n) as l. induction l as [|x l IHl]; cbn [fold_right]; lia.
Qed.

Lemma canon_totals s : N.of_nat (length (canon s)) = total_subs M s /\ sumc (canon s) = total_slots M s.
Proof.
  unfold total_subs, total_slots, canon. rewrite !nsum_seq. generalize (seq 0 M) as l.
  induction l as [|k l [IH1 IH2]]; cbn [flat_map fold_right]; [auto|].
  rewrite app_length, sumc_app, Nat2N.inj_add, IH1, IH2.
  unfold via, entry. destruct (zown (logs s k)) as [p|]; [|cbn; lia].
  destruct (held (pcs s p)) as [c|]; cbn; lia.
Qed.

Lemma canon_in s : Inv M S enforce s -> forall p c, In (p, c) (canon s) <-> counted s p c.
Proof.
  intros (_ & _ & HO & HLT & _ & HL) p c. unfold canon, counted. rewrite in_flat_map. split.
  - intros (k & _ & H). unfold entry in H. destruct (zown (logs s k)) as [q|]; [|destruct H].
    destruct (held (pcs s q)) as [d|] eqn:E; [|destruct H]. destruct H as [H|[]]. congruence.
  - intros H. destruct (HL p) as (X & _). destruct (klog (pcs s p)) as [k|] eqn:EK; [|congruence].
    apply HO in EK. exists k. split; [apply in_seq; pose proof (HLT k p EK); lia|].
    unfold entry. rewrite EK, H. left. reflexivity.
Qed.

Lemma canon_nodup s : Inv M S enforce s -> NoDup (canon s).
Proof.
  intros (_ & _ & HO & _). unfold canon.
  assert (G : forall l, NoDup l -> NoDup (flat_map (entry s) l)).
  { induction l as [|k l IH]; intros HN; [constructor|]. inversion HN as [|? ? H1 H2]; subst. cbn [flat_map].
    unfold entry at 1. destruct (zown (logs s k)) as [p|] eqn:E; [|apply IH, H2].
    destruct (held (pcs s p)) as [c|]; [|apply IH, H2]. cbn. constructor; [|apply IH, H2].
    rewrite in_flat_map. intros (j & Hj & X). unfold entry in X. destruct (zown (logs s j)) as [q|] eqn:E2; [|destruct X].
    destruct (held (pcs s q)) as [d|]; [|destruct X]. destruct X as [X|[]]. injection X as -> _.
    apply HO in E, E2. rewrite E in E2. injection E2 as ->. contradiction. }
  apply G, seq_NoDup.
Qed.

Lemma perm_sumc a b : Permutation a b -> sumc a = sumc b.
Proof. induction 1 as [|[? ?] ? ? ? ?|[? ?] [? ?] ?|]; cbn [sumc]; lia. Qed.

(** C14: the counters are the number of counted consumers and the sum of their
    sample counts, at every moment of every interleaving, with crashes. *)
Theorem C14_counters_exact ls ps :
  let s := at_ ls in
  NoDup ps -> (forall p c, In (p, c) ps <-> counted s p c) ->
  n_subscribers s = N.of_nat (length ps) /\ n_samples s = sumc ps.
Proof.
  intros s HN HIN. pose proof (Inv_reach M S enforce HM HS ls) as HI. fold s in HI.
  destruct (ctl_subs M S enforce HM HS _ HI) as (A & B & _). unfold n_subscribers, n_samples. rewrite A, B.
  destruct (canon_totals s) as [C D]. rewrite <- C, <- D.
  assert (P : Permutation (canon s) ps).
  { apply NoDup_Permutation; [apply canon_nodup, HI|exact HN|].
    intros [p c]. rewrite (canon_in s HI). symmetry. apply HIN. }
  split; [rewrite (Permutation_length P); reflexivity|apply perm_sumc, P].
Qed.

(** … in particular, when no call is running, of the subscribed consumers *)
Corollary C14_counters_exact_quiet ls ps :
  let s := at_ ls in
  quiet s -> NoDup ps -> (forall p c, In (p, c) ps <-> subscribed s p c) ->
  n_subscribers s = N.of_nat (length ps) /\ n_samples s = sumc ps.
Proof.
  intros s HQ HN HIN. apply C14_counters_exact; auto. intros p c. rewrite HIN. unfold counted, subscribed.
  fold s. destruct (HQ p) as [->|[d [k ->]]]; cbn; split; intros H.
  - destruct H; discriminate.
  - discriminate.
  - destruct H as [j H]. congruence.
  - exists k. congruence.
Qed.

(** C15: once nobody is counted any more, the counter has its initial value. *)
Theorem C15_all_gone ls :
  (forall p c, ~ counted (at_ ls) p c) -> ctl (at_ ls) = ctl zinit.
Proof.
  intros H. destruct (C14_counters_exact ls [] ltac:(constructor)) as [A B].
  { intros p c. split; [intros []|]. intros X. destruct (H p c X). }
  pose proof (Inv_reach M S enforce HM HS ls) as HI. destruct (ctl_subs M S enforce HM HS _ HI) as (C & D & _).
  unfold n_subscribers, n_samples in *. destruct HI as (E & _). rewrite E, <- C, <- D, A, B. reflexivity.
Qed.

(** C15 / C18: the only way a consumer is terminated by Subscribe, Unsubscribe or
    rollback is that Unsubscribe runs out of retries; the checks for a counter
    underflow, the assertion on the number of subscribers and the preconditions of
    the transaction log are never violated. *)
Theorem C15_terminates_only_on_retries_partial ls p why k g :
  pcs (at_ ls) p = ZTerm why k g -> why = RRetry.
Proof.
  intros H. pose proof (Inv_reach M S enforce HM HS ls) as (_ & _ & _ & _ & _ & HL).
  destruct (HL p) as (_ & F & _). rewrite H in F. exact F.
Qed.

(** C18: a Subscribe call is never terminated: a consumer that is terminated was
    inside Unsubscribe (or the rollback of its subscription). *)
Theorem C18_subscribe_never_terminates ls l p why k g :
  pcs (at_ ls) p <> ZTerm why k g -> pcs (at_ (ls ++ [l])) p = ZTerm why k g ->
  exists k0 c r old, pcs (at_ ls) p = ZUCas k0 c r old.
Proof.
  unfold zrun. rewrite fold_left_app. fold (at_ ls). cbn [fold_left]. intros H1 H2.
  assert (HR : why = RRetry).
  { apply (C15_terminates_only_on_retries_partial (ls ++ [l]) p why k g). unfold zrun. rewrite fold_left_app. exact H2. }
  subst why. set (s := at_ ls) in *.
  destruct l as [q c|q|q|q|q|q]; cbn [zstep] in H2.
  - destruct (pcs s q) eqn:E; try contradiction.
    destruct (c <=? 255); [|contradiction]. destruct (0 <? M)%nat; [|contradiction].
    cbn in H2. destruct (Nat.eq_dec p q) as [->|Hne]; [rewrite fupd_eq in H2; discriminate|rewrite fupd_neq in H2 by exact Hne; contradiction].
  - destruct (pcs s q) eqn:E; try contradiction.
    cbn in H2. destruct (Nat.eq_dec p q) as [->|Hne]; [rewrite fupd_eq in H2; discriminate|rewrite fupd_neq in H2 by exact Hne; contradiction].
  - destruct (Nat.eq_dec p q) as [->|Hne].
    + unfold zstep1, retry_sub, retry_unsub, terminate in H2. destruct (pcs s q) eqn:E; try contradiction;
        try (eexists _, _, _, _; reflexivity); exfalso.
      all: repeat match type of H2 with
        | context [if ?c then _ else _] => destruct c
        | context [match zown ?x with _ => _ end] => destruct (zown x)
        end; cbn in H2; rewrite ?fupd_eq in H2; try discriminate H2; try contradiction; congruence.
    + exfalso. apply H1. rewrite <- H2. unfold zstep1, retry_sub, retry_unsub, terminate. destruct (pcs s q); try reflexivity.
      all: repeat match goal with
        | |- context [if ?c then _ else _] => destruct c
        | |- context [match zown ?x with _ => _ end] => destruct (zown x)
        end; cbn; rewrite ?fupd_neq by exact Hne; reflexivity.
  - destruct (pcs s q) eqn:E; try contradiction; unfold retry_sub, retry_unsub, terminate in H2.
    + exfalso. destruct (_ <? _)%nat; cbn in H2;
        (destruct (Nat.eq_dec p q) as [->|Hne]; [rewrite fupd_eq in H2; discriminate|rewrite fupd_neq in H2 by exact Hne; contradiction]).
    + destruct (Nat.eq_dec p q) as [->|Hne]; [eexists _, _, _, _; exact E|].
      exfalso. destruct (_ <? _)%nat; cbn in H2; rewrite fupd_neq in H2 by exact Hne; contradiction.
  - exfalso. destruct (pcs s q) eqn:E; try contradiction; cbn in H2;
      (destruct (Nat.eq_dec p q) as [->|Hne]; [rewrite fupd_eq in H2; discriminate|rewrite fupd_neq in H2 by exact Hne; contradiction]).
  - exfalso. destruct (pcs s q) eqn:E; try contradiction.
    all: destruct k0; cbn in H2.
    all: repeat match type of H2 with context [if ?c then _ else _] => destruct c end; cbn in H2; try contradiction.
    all: destruct (Nat.eq_dec p q) as [->|Hne]; [rewrite fupd_eq in H2; discriminate|rewrite fupd_neq in H2 by exact Hne; contradiction].
Qed.

(** Unsubscribe (or rollback) that is not disturbed completes and gives back
    exactly what Subscribe took. *)
Definition runs (p n : nat) : list zlabel := repeat (ZStep p) n.

Lemma unsub_alone s p k c :
  Inv M S enforce s -> pcs s p = ZUBegin k c ->
  let s' := zrun M S enforce s (runs p 5) in
  pcs s' p = ZNot /\ zown (logs s' k) = None /\
  n_subscribers s' = n_subscribers s - 1 /\ n_samples s' = n_samples s - c /\
  1 <= n_subscribers s /\ c <= n_samples s /\
  (forall q, q <> p -> pcs s' q = pcs s q) /\ (forall j, j <> k -> logs s' j = logs s j).
Proof.
  intros HI Hpc. pose proof HI as (HC & HE & HO & HLT & HF & HL).
  destruct (ctl_subs M S enforce HM HS _ HI) as (A & B & LT). destruct (totals M S enforce HM HS _ HI) as [TM TB].
  pose proof (HL p) as (HB & _ & _). rewrite Hpc in HB. cbn in HB. destruct HB as (B1 & B2 & B3).
  assert (OWN : zown (logs s k) = Some p) by (apply HO; rewrite Hpc; reflexivity).
  assert (Hkm : (k < M)%nat) by (apply (HLT k p OWN)).
  assert (V : via s k = Some c) by (unfold via; rewrite OWN, Hpc; reflexivity).
  assert (GA : 1 <= total_subs M s). { pose proof (nsum_ge (fun k => one (via s k)) M k Hkm) as X. cbn beta in X. rewrite V in X. exact X. }
  assert (GB : c <= total_slots M s). { pose proof (nsum_ge (fun k => cnt (via s k)) M k Hkm) as X. cbn beta in X. rewrite V in X. exact X. }
  cbv zeta. unfold runs. cbn [repeat zrun fold_left zstep].
  assert (E1 : zstep1 M S enforce s p = z_pc (z_log s k (mkZL (Some p) false true (zcnt (logs s k)))) p (ZULoad k c 0)).
  { unfold zstep1. rewrite Hpc. cbv zeta. rewrite B1, B2, OWN. reflexivity. }
  rewrite E1. clear E1.
  set (s1 := z_pc (z_log s k (mkZL (Some p) false true (zcnt (logs s k)))) p (ZULoad k c 0)).
  assert (E2 : zstep1 M S enforce s1 p = z_pc s1 p (ZUCas k c 0 (ctl s))).
  { unfold zstep1. assert (pcs s1 p = ZULoad k c 0) as -> by (cbn; apply fupd_eq). cbv zeta. change (ctl s1) with (ctl s). rewrite A, B.
    destruct (N.eqb_spec (total_subs M s) 0) as [X|X]; [lia|]. destruct (N.ltb_spec (total_slots M s) c); [lia|reflexivity]. }
  rewrite E2. clear E2.
  set (s2 := z_pc s1 p (ZUCas k c 0 (ctl s))).
  assert (E3 : zstep1 M S enforce s2 p = z_pc (z_ctl s2 (mk_state (subs_of (ctl s) - 1) (slots_of (ctl s) - c))) p (ZUCommit k)).
  { unfold zstep1. assert (pcs s2 p = ZUCas k c 0 (ctl s)) as -> by (cbn; apply fupd_eq). change (ctl s2) with (ctl s). rewrite N.eqb_refl. reflexivity. }
  rewrite E3. clear E3.
  set (s3 := z_pc (z_ctl s2 (mk_state (subs_of (ctl s) - 1) (slots_of (ctl s) - c))) p (ZUCommit k)).
  assert (L3 : logs s3 k = mkZL (Some p) false true (zcnt (logs s k))) by (cbn; apply fupd_eq).
  assert (E4 : zstep1 M S enforce s3 p = z_pc (z_log s3 k (mkZL (Some p) false false 0)) p (ZRel k)).
  { unfold zstep1. assert (pcs s3 p = ZUCommit k) as -> by (cbn; apply fupd_eq). cbv zeta. rewrite L3. reflexivity. }
  rewrite E4. clear E4.
  set (s4 := z_pc (z_log s3 k (mkZL (Some p) false false 0)) p (ZRel k)).
  assert (L4 : logs s4 k = mkZL (Some p) false false 0) by (cbn; apply fupd_eq).
  assert (E5 : zstep1 M S enforce s4 p = z_pc (z_log s4 k (mkZL None false false 0)) p ZNot).
  { unfold zstep1. assert (pcs s4 p = ZRel k) as -> by (cbn; apply fupd_eq). cbv zeta. rewrite L4. reflexivity. }
  rewrite E5. clear E5.
  unfold n_subscribers, n_samples. change (ctl (z_pc (z_log s4 k (mkZL None false false 0)) p ZNot)) with (mk_state (subs_of (ctl s) - 1) (slots_of (ctl s) - c)).
  rewrite A, B. rewrite (mk_word M S HM HS) by (unfold two16 in *; lia).
  rewrite (subs_word M S HM HS), slots_word by (unfold two16 in *; lia).
  repeat split; auto.
  - cbn. apply fupd_eq.
  - cbn. rewrite fupd_eq. reflexivity.
  - intros q Hq. cbn. rewrite !fupd_neq by exact Hq. reflexivity.
  - intros j Hj. cbn. rewrite !fupd_neq by exact Hj. reflexivity.
Qed.

Lemma zrun_cons s l ls : zrun M S enforce s (l :: ls) = zrun M S enforce (zstep M S enforce s l) ls.
Proof. reflexivity. Qed.

Theorem C15_unsubscribe_gives_back ls p c :
  let s := at_ ls in
  subscribed s p c ->
  let s' := zrun M S enforce s (ZUnsubscribe p :: runs p 5) in
  pcs s' p = ZNot /\
  n_subscribers s' + 1 = n_subscribers s /\ n_samples s' + c = n_samples s /\
  (forall q, q <> p -> pcs s' q = pcs s q).
Proof.
  intros s [k Hs] s'. pose proof (Inv_reach M S enforce HM HS ls) as HI. fold s in HI.
  assert (E : zstep M S enforce s (ZUnsubscribe p) = z_pc s p (ZUBegin k c)) by (cbn; rewrite Hs; reflexivity).
  assert (HI' : Inv M S enforce (z_pc s p (ZUBegin k c))) by (rewrite <- E; apply Inv_step; auto).
  assert (E' : s' = zrun M S enforce (z_pc s p (ZUBegin k c)) (runs p 5)).
  { unfold s'. rewrite zrun_cons, E. reflexivity. }
  clearbody s'. subst s'.
  destruct (unsub_alone (z_pc s p (ZUBegin k c)) p k c HI') as (A & B & C & D & F & G & H & _); [cbn; apply fupd_eq|].
  change (n_subscribers (z_pc s p (ZUBegin k c))) with (n_subscribers s) in *.
  change (n_samples (z_pc s p (ZUBegin k c))) with (n_samples s) in *.
  split; [exact A|]. split; [rewrite C; lia|]. split; [rewrite D; lia|].
  intros q Hq. rewrite H by exact Hq. cbn. rewrite fupd_neq by exact Hq. reflexivity.
Qed.

(** C12, subscription part: the rollback of a dead consumer either reports an
    error, or removes exactly its subscription. *)
Theorem C12_subscription_rollback_exact ls p k g :
  let s := at_ ls in
  pcs s p = ZDead (Some k) g ->
  let s1 := zstep M S enforce s (ZRollback p) in
  (resu s1 p = ZCouldNotRestartProxy /\ pcs s1 = pcs s /\ ctl s1 = ctl s) \/
  (exists n, let s' := zrun M S enforce s1 (runs p n) in
    pcs s' p = ZNot /\ zown (logs s' k) = None /\
    n_subscribers s' + one g = n_subscribers s /\ n_samples s' + cnt g = n_samples s /\
    (forall q, q <> p -> pcs s' q = pcs s q)).
Proof.
  intros s Hs s1. pose proof (Inv_reach M S enforce HM HS ls) as HI. fold s in HI.
  pose proof HI as (_ & _ & HO & _ & _ & HL).
  assert (HI1 : Inv M S enforce s1) by (apply Inv_step; auto).
  pose proof (HL p) as (HB & _ & _). rewrite Hs in HB. cbn in HB.
  assert (OWN : zown (logs s k) = Some p) by (apply HO; rewrite Hs; reflexivity).
  unfold s1 in *. cbn [zstep] in *. rewrite Hs in *. cbv zeta in *.
  destruct (zbeg (logs s k)) eqn:B1, (zend (logs s k)) eqn:B2; cbn [andb orb] in *.
  - right. rewrite HB by reflexivity. exists 5%nat.
    destruct (unsub_alone _ p k (zcnt (logs s k)) HI1) as (A & B & C & D & F & G & H & _); [cbn; apply fupd_eq|].
    cbv zeta. change (n_subscribers (z_pc s p (ZUBegin k (zcnt (logs s k))))) with (n_subscribers s) in *.
    change (n_samples (z_pc s p (ZUBegin k (zcnt (logs s k))))) with (n_samples s) in *.
    split; [exact A|]. split; [exact B|]. rewrite C, D. cbn [one cnt]. split; [lia|]. split; [lia|].
    intros q Hq. rewrite H by exact Hq. cbn. apply fupd_neq, Hq.
  - left. split; [cbn; apply fupd_eq|]. auto.
  - left. split; [cbn; apply fupd_eq|]. auto.
  - right. rewrite HB by reflexivity. exists 1%nat. cbv zeta. cbn [runs repeat zrun fold_left zstep].
    assert (E : zstep1 M S enforce (z_pc s p (ZRel k)) p = z_pc (z_log (z_pc s p (ZRel k)) k (mkZL None false false (zcnt (logs s k)))) p ZNot).
    { unfold zstep1. assert (pcs (z_pc s p (ZRel k)) p = ZRel k) as -> by (cbn; apply fupd_eq). cbv zeta.
      change (logs (z_pc s p (ZRel k))) with (logs s). rewrite B1, B2. reflexivity. }
    rewrite E. unfold n_subscribers, n_samples. cbn. rewrite !fupd_eq.
    split; [reflexivity|]. split; [reflexivity|]. split; [apply N.add_0_r|]. split; [apply N.add_0_r|].
    intros q Hq. rewrite !fupd_neq by exact Hq. reflexivity.
Qed.

(** … and the error is only reported if the consumer died inside Subscribe or
    Unsubscribe (or in an earlier rollback). *)
Definition in_call (pc : zpc) : bool :=
  match pc with ZLoad _ _ _ | ZCas _ _ _ _ | ZAbort _ | ZCommit _ _ | ZULoad _ _ _ | ZUCas _ _ _ _ | ZUCommit _ => true | _ => false end.
Theorem C12_subscription_rollback_error_only_in_call ls p :
  let s := at_ ls in
  in_call (pcs s p) = false -> klog (pcs s p) <> None ->
  (match pcs s p with ZDead _ _ | ZTerm _ _ _ => False | _ => True end) ->
  let s1 := zrun M S enforce s [ZCrash p; ZRollback p] in
  exists k c, pcs s1 p = ZUBegin k c \/ pcs s1 p = ZRel k.
Proof.
  intros s HC HK HD s1. pose proof (Inv_reach M S enforce HM HS ls) as HI. fold s in HI.
  pose proof HI as (_ & _ & HO & _ & _ & HL). pose proof (HL p) as (HB & _ & _).
  destruct (klog (pcs s p)) as [k|] eqn:EK; [|congruence]. clear HK.
  unfold s1. cbn [zrun fold_left]. 
  assert (E : zstep M S enforce s (ZCrash p) = z_pc s p (ZDead (Some k) (held (pcs s p)))).
  { cbn [zstep]. rewrite EK. destruct (pcs s p); try contradiction; reflexivity. }
  rewrite E. cbn [zstep]. cbn [pcs z_pc]. rewrite fupd_eq. cbv zeta. change (logs (z_pc s p (ZDead (Some k) (held (pcs s p))))) with (logs s).
  destruct (pcs s p); try discriminate HC; try contradiction; try discriminate EK; cbn in HB, EK; injection EK as ->.
  - destruct HB as [-> ->]. cbn. exists k, 0. right. apply fupd_eq.
  - destruct HB as [-> ->]. cbn. exists k, 0. right. apply fupd_eq.
  - destruct HB as (-> & -> & _). cbn. exists k, (zcnt (logs s k)). left. apply fupd_eq.
  - destruct HB as (-> & -> & _). cbn. exists k, (zcnt (logs s k)). left. apply fupd_eq.
Qed.
End Props.

(** * C15 refuted: contention alone can terminate Unsubscribe. *)
(** With two subscribers at most, consumer 0 is about to exchange the counter six
    times, each time after consumer 1 has just subscribed or unsubscribed. *)
Definition st (p n : nat) : list zlabel := repeat (ZStep p) n.
Definition toggle : list zlabel := [ZStep 0] ++ ZSubscribe 1 1 :: st 1 6 ++ [ZStep 0; ZStep 0] ++ ZUnsubscribe 1 :: st 1 5 ++ [ZStep 0].
Definition starve : list zlabel :=
  ZSubscribe 0 1 :: st 0 5 ++ ZUnsubscribe 0 :: st 0 1 ++ toggle ++ toggle ++ toggle.
Theorem C15_unsubscribe_retries_refuted :
  exists ls p k g, pcs (zrun 2 10 true zinit ls) p = ZTerm RRetry k g.
Proof. exists starve, 0%nat. eexists _, _. vm_compute. reflexivity. Qed.

(** * Non-vacuity *)
Definition two_subscribed : list zlabel := ZSubscribe 0 3 :: ZSubscribe 7 4 :: st 0 3 ++ st 7 8 ++ st 0 6.
Example two_subscribed_ok :
  let s := zrun 3 10 true zinit two_subscribed in
  subscribed s 0 3 /\ subscribed s 7 4 /\ n_subscribers s = 2 /\ n_samples s = 7.
Proof. vm_compute. repeat split; eexists; reflexivity. Qed.
(** a third Subscribe that would exceed the number of slots is rejected *)
Example third_rejected :
  let s := zrun 3 10 true zinit (two_subscribed ++ ZSubscribe 2 4 :: st 2 20) in
  resu s 2 = ZMaxSampleCountNotRealizable /\ pcs s 2 = ZNot /\ n_samples s = 7.
Proof. vm_compute. auto. Qed.
(** and one that would exceed the number of subscribers *)
Example fourth_rejected :
  let s := zrun 2 10 true zinit (two_subscribed ++ ZSubscribe 2 1 :: st 2 20) in
  resu s 2 = ZMaxSubscribersExceeded /\ pcs s 2 = ZNot /\ n_subscribers s = 2.
Proof. vm_compute. auto. Qed.
Example dead_subscribed :
  pcs (zrun 3 10 true zinit (two_subscribed ++ [ZCrash 7])) 7 = ZDead (Some 1%nat) (Some 4).
Proof. vm_compute. reflexivity. Qed.

Print Assumptions C14_limits.
Print Assumptions C14_counters_exact.
Print Assumptions C15_all_gone.
Print Assumptions C15_terminates_only_on_retries_partial.
Print Assumptions C15_unsubscribe_gives_back.
Print Assumptions C18_subscribe_never_terminates.
Print Assumptions C12_subscription_rollback_exact.
