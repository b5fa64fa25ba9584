(** C82: when an ASIL-B provider stops serving its QM consumers.  An allocation that
    nobody disturbs serves both qualities with the oldest sample free in both; QM
    consumers are dropped only after 100 unsuccessful searches, each of which either
    lost a race or saw every slot in use. *)
From Verif Require Import CompositeModel SlotWord CompositeProofs CompositeAgree CompositeProps.
Ltac Zify.zify_post_hook ::= idtac.

(** ** Specification *)
(** the slot is unused in both controls: not referenced, not being written *)
Definition free_in_both (s : cst) (i : nat) : Prop :=
  rc_of (qm s i) = 0%N /\ qm s i <> IN_WRITING /\ rc_of (cb s i) = 0%N /\ cb s i <> IN_WRITING.

(** the provider is inside an Allocate call that still tries to serve both qualities *)
Definition in_multi (s : cst) : bool :=
  match cpc s with GScanQm _ _ _ | GScanB _ _ _ _ | GCasQm _ _ _ | GCasB _ _ _ | GRestore _ _ _ => true | _ => false end.
Fixpoint inside_multi (ns nr : nat) (s : cst) (ls : list clabel) : Prop :=
  match ls with
  | [] => True
  | l :: r => in_multi s = true /\ inside_multi ns nr (cstep ns nr s l) r
  end.

(** [P] holds of some state of the run and the label executed in it *)
Fixpoint at_some (ns nr : nat) (P : cst -> clabel -> Prop) (s : cst) (ls : list clabel) : Prop :=
  match ls with
  | [] => False
  | l :: r => P s l \/ at_some ns nr P (cstep ns nr s l) r
  end.

(** search number [cnt] looked at slot i and saw it in use in one of the controls:
    the QM word was loaded by the access before, the ASIL-B word is loaded now *)
Definition saw_in_use (cnt i : nat) (s : cst) (l : clabel) : Prop :=
  l = KStep /\ exists vq best, cpc s = GScanB cnt i vq best /\ (is_used vq = true \/ is_used (cb s i) = true).
(** attempt number [cnt] ended early: the two controls contradicted each other, or the
    slot it had found was taken by a consumer in the meantime *)
Definition lost_race (cnt : nat) (s : cst) (l : clabel) : Prop :=
  l = KStep /\
  ((exists i vq best, cpc s = GScanB cnt i vq best /\ cb s i = INVALID_EVENT /\ vq <> INVALID_EVENT) \/
   (exists i v, cpc s = GCasQm cnt i v /\ qm s i <> v) \/
   (exists i v, cpc s = GCasB cnt i v /\ cb s i <> v)).

Section Props.
Variables (ns nr : nat).
Hypothesis Hnr : (N.of_nat nr < two32 - 1)%N.

Lemma crun_app s a b : crun ns nr s (a ++ b) = crun ns nr (crun ns nr s a) b.
Proof. unfold crun. apply fold_left_app. Qed.
Definition ksteps (s s' : cst) : Prop := exists k, crun ns nr s (repeat KStep k) = s'.
Lemma ks_trans s s' s'' : ksteps s s' -> ksteps s' s'' -> ksteps s s''.
Proof. intros [a <-] [b <-]. exists (a + b). rewrite repeat_app. apply crun_app. Qed.
Lemma ks_one s s' : term s = false -> gstep ns s = s' -> ksteps s s'.
Proof. intros HT <-. exists 1. cbn. rewrite HT. reflexivity. Qed.

(** ** undisturbed allocation *)
Definition good (s : cst) (i : nat) (best : option (nat * N)) : Prop :=
  match best with
  | None => forall j, j < i -> ~ free_in_both s j
  | Some (b, v) => b < i /\ free_in_both s b /\ qm s b = v /\ cb s b = v /\
                   forall j, j < i -> free_in_both s j -> (ts_of (cb s b) <= ts_of (cb s j))%N
  end.

Lemma used_iff w : is_used w = false <-> rc_of w = 0%N /\ w <> IN_WRITING.
Proof.
  split; [exact (unused_is_used w)|]. intros [A B]. unfold is_used. rewrite A. cbn.
  destruct (is_in_writing w) eqn:E; [|reflexivity]. apply is_in_writing_true in E. contradiction.
Qed.

Lemma multi_scan s cnt : term s = false ->
  (forall i, i < ns -> (is_invalid (cb s i) = true -> is_invalid (qm s i) = true) /\
                       (free_in_both s i -> qm s i = cb s i /\ (ts_of (cb s i) < TIMESTAMP_MAX)%N)) ->
  forall m i best, i + m = ns -> good s i best ->
  exists best', good s ns best' /\ ksteps (c_pc s (GScanQm cnt i best)) (c_pc s (GScanQm cnt ns best')).
Proof.
  intros HT HA. induction m as [|m IH]; intros i best E HG.
  - exists best. rewrite Nat.add_0_r in E. subst i. split; [exact HG|exists 0; reflexivity].
  - destruct (HA i ltac:(lia)) as [A1 A2].
    assert (X : forall b', good s (S i) b' -> gstep ns (c_pc s (GScanB cnt i (qm s i) best)) = c_pc s (GScanQm cnt (S i) b') ->
       exists best', good s ns best' /\ ksteps (c_pc s (GScanQm cnt i best)) (c_pc s (GScanQm cnt ns best'))).
    { intros b' G' E'. destruct (IH (S i) b' ltac:(lia) G') as (best' & GG & KK). exists best'. split; [exact GG|].
      eapply ks_trans; [|exact KK]. eapply ks_trans; [|apply (ks_one (c_pc s (GScanB cnt i (qm s i) best))); [exact HT|exact E']].
      apply ks_one; [exact HT|]. cbn [gstep cpc c_pc]. rewrite (proj2 (Nat.ltb_lt i ns)) by lia. reflexivity. }
    assert (INV : is_invalid (cb s i) && negb (is_invalid (qm s i)) = false).
    { destruct (is_invalid (cb s i)) eqn:EB; [|reflexivity]. rewrite (A1 eq_refl). reflexivity. }
    destruct (is_used (qm s i)) eqn:UQ; [|destruct (is_used (cb s i)) eqn:UB].
    + apply (X best); [|cbn [gstep cpc c_pc cb]; rewrite INV, UQ; reflexivity].
      assert (NF : ~ free_in_both s i).
      { intros (F1 & F2 & _). rewrite (proj2 (used_iff _) (conj F1 F2)) in UQ. discriminate. }
      destruct best as [[b v]|]; cbn [good] in *.
      * destruct HG as (G1 & G2 & G3 & G4 & G5). split; [lia|]. do 3 (split; [assumption|]). intros j Hj FJ.
        destruct (Nat.eq_dec j i) as [->|]; [contradiction|apply G5; [lia|exact FJ]].
      * intros j Hj. destruct (Nat.eq_dec j i) as [->|]; [exact NF|apply HG; lia].
    + apply (X best); [|cbn [gstep cpc c_pc cb]; rewrite INV, UQ, UB; reflexivity].
      assert (NF : ~ free_in_both s i).
      { intros (_ & _ & F1 & F2). rewrite (proj2 (used_iff _) (conj F1 F2)) in UB. discriminate. }
      destruct best as [[b v]|]; cbn [good] in *.
      * destruct HG as (G1 & G2 & G3 & G4 & G5). split; [lia|]. do 3 (split; [assumption|]). intros j Hj FJ.
        destruct (Nat.eq_dec j i) as [->|]; [contradiction|apply G5; [lia|exact FJ]].
      * intros j Hj. destruct (Nat.eq_dec j i) as [->|]; [exact NF|apply HG; lia].
    + apply used_iff in UQ as UQ'. apply used_iff in UB as UB'. destruct UQ' as [F1 F2]. destruct UB' as [F3 F4].
      assert (FB : free_in_both s i) by (repeat split; assumption). destruct (A2 FB) as [EQ TM].
      destruct (N.ltb_spec (ts_of (cb s i)) (best_ts best)) as [LT|GE].
      * apply (X (Some (i, qm s i))).
        -- cbn [good]. split; [lia|]. split; [exact FB|]. split; [reflexivity|]. split; [congruence|]. intros j Hj FJ.
           destruct (Nat.eq_dec j i) as [->|Hne]; [lia|]. destruct best as [[b v]|]; cbn [best_ts good] in *.
           ++ destruct HG as (G1 & G2 & G3 & G4 & G5). specialize (G5 j ltac:(lia) FJ). rewrite G4 in G5. lia.
           ++ destruct (HG j ltac:(lia) FJ).
        -- cbn [gstep cpc c_pc cb]. rewrite INV, UQ, UB, (proj2 (N.ltb_lt _ _) LT), EQ, N.eqb_refl. reflexivity.
      * apply (X best).
        -- destruct best as [[b v]|]; cbn [best_ts good] in *; [|lia].
           destruct HG as (G1 & G2 & G3 & G4 & G5). split; [lia|]. do 3 (split; [assumption|]). intros j Hj FJ.
           destruct (Nat.eq_dec j i) as [->|]; [rewrite G4; lia|apply G5; [lia|exact FJ]].
        -- cbn [gstep cpc c_pc cb]. rewrite INV, UQ, UB, (proj2 (N.ltb_ge _ _) GE). reflexivity.
Qed.

(** Some slot is unused by the consumers of both qualities: an undisturbed Allocate
    returns such a slot, the one with the oldest sample (a never used one first: its
    time stamp is 0), marks it in both controls and keeps serving QM. *)
Theorem C82_undisturbed_allocate_serves_both ls f :
  (sends_of ls < two32 - 1)%N -> undisturbed_run ns nr cinit ls ->
  let s := after ns nr ls in
  idle s = true -> ignore s = false -> f < ns -> free_in_both s f ->
  exists k i, let s' := crun ns nr s (KAlloc :: repeat KStep k) in
    i < ns /\ free_in_both s i /\ cown s i = false /\
    (forall j, j < ns -> free_in_both s j -> (ts_of (cb s i) <= ts_of (cb s j))%N) /\
    idle s' = true /\ ignore s' = false /\ term s' = false /\ cown s' = fupd (cown s) i true /\
    qm s' = fupd (qm s) i IN_WRITING /\ cb s' = fupd (cb s) i IN_WRITING /\ cdata s' = cdata s.
Proof.
  intros Hs HU s HI HG Hf HF.
  pose proof (IW_reach ns nr Hnr ls Hs HU) as (HT & HQ & HW). pose proof (IB_reach ns nr Hnr ls Hs) as (HS & _ & _).
  fold (after ns nr ls) in HT, HQ, HW, HS. fold s in HT, HQ, HW, HS. rewrite HG in HW.
  apply idle_true in HI. unfold wpc in HW. rewrite HI in HW.
  assert (BR : forall i, (N.of_nat (bref s i) < two32)%N).
  { intros i. destruct (HS i) as [(_ & _ & A)|[(_ & _ & A)|(_ & A & _)]]; rewrite ?A; unfold two32 in *; lia. }
  assert (QR : forall i, i < ns -> (N.of_nat (qref s i) < two32)%N).
  { intros i Hi. specialize (HQ i Hi). unfold two32 in *. lia. }
  assert (HA : forall i, i < ns -> (is_invalid (cb s i) = true -> is_invalid (qm s i) = true) /\
                       (free_in_both s i -> qm s i = cb s i /\ (ts_of (cb s i) < TIMESTAMP_MAX)%N)).
  { intros i Hi. specialize (HW i Hi). specialize (BR i). specialize (QR i Hi).
    destruct HW as [(A & B & C)|[(A & B & C)|(t & Ht & A & B)]].
    - split; [rewrite B; discriminate|]. intros (_ & F & _). contradiction.
    - rewrite A, B. split; [reflexivity|]. intros _. split; [|reflexivity]. destruct (HS i) as [(_ & X & _)|[(_ & X & _)|(_ & _ & _ & t & Ht & X)]].
      + rewrite B in X. discriminate.
      + reflexivity.
      + reflexivity.
    - rewrite A, B. rewrite word_not_invalid by lia. split; [discriminate|]. intros (F1 & _ & F2 & _).
      rewrite A, rc_word in F1 by exact QR. rewrite B, rc_word in F2 by exact BR. rewrite F1, F2. split; [reflexivity|].
      rewrite ts_word by (unfold two32; lia). unfold TIMESTAMP_MAX. lia. }
  destruct (multi_scan s 0 HT HA ns 0 None eq_refl) as (best & GB & KS); [cbn; intros; lia|].
  destruct best as [[i v]|]; cbn [good] in GB; [|destruct (GB f Hf HF)].
  destruct GB as (G1 & G2 & G3 & G4 & G5).
  set (s1 := c_pc s (GCasQm 0 i v)). set (s2 := c_pc (c_qm s (fupd (qm s) i IN_WRITING)) (GCasB 0 i v)).
  set (s3 := c_pc (c_own (c_cb s2 (fupd (cb s) i IN_WRITING)) (fupd (cown s) i true)) GIdle).
  assert (KK : ksteps (c_pc s (GScanQm 0 0 None)) s3).
  { eapply ks_trans; [exact KS|]. eapply ks_trans; [apply (ks_one _ s1); [exact HT|]|].
    - cbn [gstep cpc c_pc]. rewrite Nat.ltb_irrefl. reflexivity.
    - eapply ks_trans; [apply (ks_one _ s2); [exact HT|]|].
      + unfold s1. cbn [gstep cpc c_pc qm]. rewrite G3, N.eqb_refl. reflexivity.
      + apply ks_one; [exact HT|]. unfold s2. cbn [gstep cpc c_pc c_qm cb]. rewrite G4, N.eqb_refl. reflexivity. }
  destruct KK as [k EK]. exists k, i. cbn zeta.
  assert (ES : crun ns nr s (KAlloc :: repeat KStep k) = s3).
  { rewrite <- EK. cbn [crun fold_left]. unfold cstep at 2. rewrite HT. unfold idle. rewrite HI, HG. reflexivity. }
  rewrite ES. split; [exact G1|]. split; [exact G2|]. split.
  { destruct (HS i) as [(_ & X & _)|[(X & _)|(X & _)]]; [|exact X|exact X]. destruct G2 as (_ & _ & _ & G2). contradiction. }
  split; [exact G5|]. unfold s3, s2. cbn. repeat split; auto.
Qed.

(** ** when QM is dropped *)
Lemma at_some_app P s a b : at_some ns nr P s a \/ at_some ns nr P (crun ns nr s a) b <-> at_some ns nr P s (a ++ b).
Proof.
  revert s. induction a as [|l a IH]; intros s; cbn [app at_some crun fold_left]; [tauto|].
  rewrite <- IH. unfold crun. tauto.
Qed.
Lemma at_some_snoc P s a l : at_some ns nr P s (a ++ [l]) <-> at_some ns nr P s a \/ P (crun ns nr s a) l.
Proof. rewrite <- at_some_app. cbn [at_some]. tauto. Qed.
Lemma inside_app s a b : inside_multi ns nr s (a ++ b) <-> inside_multi ns nr s a /\ inside_multi ns nr (crun ns nr s a) b.
Proof.
  revert s. induction a as [|l a IH]; intros s; cbn [app inside_multi crun fold_left]; [tauto|].
  rewrite IH. unfold crun. tauto.
Qed.

Definition attempt_done (s0 : cst) (ls : list clabel) (cnt : nat) : Prop :=
  at_some ns nr (lost_race cnt) s0 ls \/ forall i, i < ns -> at_some ns nr (saw_in_use cnt i) s0 ls.
Lemma done_mono s0 ls l cnt : attempt_done s0 ls cnt -> attempt_done s0 (ls ++ [l]) cnt.
Proof.
  intros [H|H]; [left|right; intros i Hi; specialize (H i Hi)]; apply at_some_snoc; left; exact H.
Qed.

(** what the searches have established so far *)
Definition progress (s0 : cst) (ls : list clabel) (s : cst) : Prop :=
  let before c := forall n, n < c -> attempt_done s0 ls n in
  let partly c i := forall j, j < i -> at_some ns nr (saw_in_use c j) s0 ls in
  match cpc s with
  | GScanQm c i None => before c /\ partly c i /\ i <= ns
  | GScanB c i _ None => before c /\ partly c i /\ i < ns
  | GScanQm c i (Some _) => before c /\ i <= ns
  | GScanB c i _ (Some _) => before c /\ i < ns
  | GCasQm c _ _ | GCasB c _ _ => before c
  | GRestore c _ _ => before (S c)
  | _ => ignore s = true -> before MAX_MULTI
  end.

Lemma progress_next s0 ls s c :
  (forall n, n < S c -> attempt_done s0 ls n) -> progress s0 ls (next_multi s c).
Proof.
  intros HB. unfold next_multi. destruct (Nat.ltb_spec (S c) MAX_MULTI) as [L|L]; unfold progress; cbn [cpc c_pc c_ignore ignore].
  - split; [exact HB|]. split; [intros j Hj; lia|lia].
  - intros _ n Hn. apply HB. lia.
Qed.

Lemma bslot_ts n own b refs d p : (n < two32 - 1)%N -> bslot nr n own b refs d p -> (ts_of b < TIMESTAMP_MAX)%N.
Proof.
  intros Hn [(_ & -> & _)|[(_ & -> & _)|(_ & HR & _ & t & Ht & ->)]]; [reflexivity|reflexivity|].
  rewrite ts_word by (unfold two32 in *; lia). unfold TIMESTAMP_MAX. lia.
Qed.

Lemma progress_step s0 ls l n :
  (n < two32 - 1)%N -> let s := crun ns nr s0 ls in IB nr n s ->
  in_multi s = true -> ignore s = false ->
  progress s0 ls s -> progress s0 (ls ++ [l]) (cstep ns nr s l).
Proof.
  intros Hn s HB HM HG HP.
  assert (KEEP : forall t, cpc t = cpc s -> progress s0 (ls ++ [l]) t).
  { intros t E. unfold progress in *. rewrite E. unfold in_multi in HM. destruct (cpc s) as [|c i best|c i vq best|c i v|c i v|c i v| | | | | | | | | | | | | |] eqn:EP; try discriminate HM.
    - destruct best.
      + destruct HP as [H1 H2]. split; [intros m Hm; apply done_mono, H1, Hm|exact H2].
      + destruct HP as (H1 & H2 & H3). split; [intros m Hm; apply done_mono, H1, Hm|]. split; [|exact H3].
        intros j Hj. apply at_some_snoc. left. apply H2, Hj.
    - destruct best.
      + destruct HP as [H1 H2]. split; [intros m Hm; apply done_mono, H1, Hm|exact H2].
      + destruct HP as (H1 & H2 & H3). split; [intros m Hm; apply done_mono, H1, Hm|]. split; [|exact H3].
        intros j Hj. apply at_some_snoc. left. apply H2, Hj.
    - intros m Hm; apply done_mono, HP, Hm.
    - intros m Hm; apply done_mono, HP, Hm.
    - intros m Hm; apply done_mono, HP, Hm. }
  destruct l; try (cbn [cstep]; apply KEEP; clear - HM;
    repeat match goal with |- context [if ?b then _ else _] => destruct b eqn:? | |- context [match qref ?a ?b with _ => _ end] => destruct (qref a b)
      | |- context [match bref ?a ?b with _ => _ end] => destruct (bref a b) end; try reflexivity; unfold in_multi, idle in *; destruct (cpc s); try discriminate; reflexivity).
  - (* KStep *)
    cbn [cstep]. destruct (term s) eqn:HT; [apply KEEP; reflexivity|]. clear KEEP.
    pose proof HB as (HS & _ & HPC).
    unfold gstep. unfold in_multi in HM. unfold progress in HP.
    destruct (cpc s) as [|c i best|c i vq best|c i v|c i v|c i v| | | | | | | | | | | | | |] eqn:EP; try discriminate HM.
    + destruct (Nat.ltb_spec i ns) as [Hi|Hi].
      * unfold progress. cbn [cpc c_pc]. destruct best.
        -- destruct HP as [H1 H2]. split; [intros m Hm; apply done_mono, H1, Hm|exact Hi].
        -- destruct HP as (H1 & H2 & H3). split; [intros m Hm; apply done_mono, H1, Hm|]. split; [|exact Hi].
           intros j Hj. apply at_some_snoc. left. apply H2, Hj.
      * destruct best as [[j v]|].
        -- unfold progress. cbn [cpc c_pc]. intros m Hm. apply done_mono, (proj1 HP), Hm.
        -- destruct HP as (H1 & H2 & H3). apply progress_next. intros m Hm. destruct (Nat.eq_dec m c) as [->|Hne].
           ++ right. intros j Hj. apply at_some_snoc. left. apply H2. lia.
           ++ apply done_mono, H1. lia.
    + cbv zeta. destruct (is_invalid (cb s i) && negb (is_invalid vq)) eqn:EI.
      * apply progress_next. intros m Hm. destruct (Nat.eq_dec m c) as [->|Hne].
        -- left. apply at_some_snoc. right. split; [reflexivity|]. left. exists i, vq, best.
           apply andb_true_iff in EI. destruct EI as [E1 E2]. apply is_invalid_true in E1. split; [exact EP|]. split; [exact E1|].
           intros Z. rewrite Z in E2. discriminate.
        -- apply done_mono. destruct best; destruct HP as [H1 _]; apply H1; lia.
      * destruct (negb (is_used vq) && negb (is_used (cb s i)) && (ts_of (cb s i) <? best_ts best)%N) eqn:EU.
        -- assert (HB1 : forall m, m < c -> attempt_done s0 (ls ++ [KStep]) m).
           { intros m Hm. apply done_mono. destruct best; destruct HP as [H1 _]; apply H1; exact Hm. }
           assert (Hi : i < ns) by (destruct best; tauto).
           destruct (vq =? cb s i)%N.
           ++ unfold progress. cbn [cpc c_pc]. split; [exact HB1|lia].
           ++ unfold progress. cbn [cpc c_term]. rewrite EP. destruct best; [split; assumption|]. split; [exact HB1|]. split; [|exact Hi].
              intros j Hj. apply at_some_snoc. left. destruct HP as (_ & H2 & _). apply H2, Hj.
        -- unfold progress. cbn [cpc c_pc]. destruct best as [bb|].
           ++ destruct HP as [H1 H2]. split; [intros m Hm; apply done_mono, H1, Hm|lia].
           ++ destruct HP as (H1 & H2 & H3). split; [intros m Hm; apply done_mono, H1, Hm|]. split; [|lia].
              intros j Hj. apply at_some_snoc. destruct (Nat.eq_dec j i) as [->|Hne]; [right|left; apply H2; lia].
              split; [reflexivity|]. exists vq, None. split; [exact EP|].
              pose proof (bslot_ts _ _ _ _ _ _ Hn (HS i)) as TS. cbn [best_ts] in EU. rewrite (proj2 (N.ltb_lt _ _) TS), andb_true_r in EU.
              apply andb_false_iff in EU. rewrite !negb_false_iff in EU. exact EU.
    + destruct (N.eqb_spec (qm s i) v) as [EQ|NE].
      * unfold progress. cbn [cpc c_pc]. intros m Hm. apply done_mono, HP, Hm.
      * apply progress_next. intros m Hm. destruct (Nat.eq_dec m c) as [->|Hne]; [|apply done_mono, HP; lia].
        left. apply at_some_snoc. right. split; [reflexivity|]. right; left. exists i, v. split; assumption.
    + destruct (N.eqb_spec (cb s i) v) as [EQ|NE].
      * unfold progress. cbn [cpc c_pc ignore c_own c_cb]. congruence.
      * unfold progress. cbn [cpc c_pc]. intros m Hm. destruct (Nat.eq_dec m c) as [->|Hne]; [|apply done_mono, HP; lia].
        left. apply at_some_snoc. right. split; [reflexivity|]. right; right. exists i, v. split; assumption.
    + apply progress_next. intros m Hm. apply done_mono, HP. exact Hm.
  - (* KCrash *)
    cbn [cstep]. destruct (term s) eqn:HT; [apply KEEP; reflexivity|]. unfold progress. cbn. congruence.
  - (* KRestart *)
    cbn [cstep]. destruct (term s) eqn:HT; [apply KEEP; reflexivity|].
    assert (E : match cpc s with GDead => c_pc s (GCleanQm 0) | _ => s end = s) by (unfold in_multi in HM; destruct (cpc s); try discriminate HM; reflexivity).
    rewrite E. apply KEEP. reflexivity.
Qed.

Lemma multi_ignore s l : in_multi s = true -> ignore s = false -> in_multi (cstep ns nr s l) = true -> ignore (cstep ns nr s l) = false.
Proof.
  intros HM HG. destruct l; cbn [cstep];
    repeat match goal with |- context [if ?b then _ else _] => destruct b eqn:? | |- context [match qref ?a ?b with _ => _ end] => destruct (qref a b)
      | |- context [match bref ?a ?b with _ => _ end] => destruct (bref a b) end; try (intros _; cbn [ignore c_pc c_data c_qm c_qref c_bref c_cb c_cur]; congruence).
  - unfold gstep, next_multi, next_single, in_multi in *. destruct (cpc s) as [|c i best|c i vq best|c i v|c i v|c i v| | | | | | | | | | | | | |] eqn:EP; try discriminate HM;
      repeat match goal with |- context [if ?b then _ else _] => destruct b | |- context [match ?o with Some _ => _ | None => _ end] => destruct o as [[]|] end;
      cbn; try (intros _; exact HG); discriminate.
  - destruct (cpc s); intros _; cbn [ignore c_pc]; congruence.
Qed.

(** However the schedule looks: when an Allocate call drops the QM consumers, it has
    made 100 attempts to serve both qualities, and each of them either lost a race
    or saw every slot in use. *)
Theorem C82_qm_dropped_only_after_100_attempts ls0 ls :
  (sends_of (ls0 ++ KAlloc :: ls) < two32 - 1)%N ->
  let s := after ns nr ls0 in
  idle s = true -> term s = false -> ignore s = false ->
  let s0 := cstep ns nr s KAlloc in
  inside_multi ns nr s0 ls ->
  ignore (crun ns nr s0 ls) = true ->
  forall cnt, cnt < 100 ->
    at_some ns nr (lost_race cnt) s0 ls \/
    forall i, i < ns -> at_some ns nr (saw_in_use cnt i) s0 ls.
Proof.
  intros Hs s HI HT HG s0 HM HE.
  assert (E0 : s0 = c_pc s (GScanQm 0 0 None)) by (unfold s0; cbn [cstep]; rewrite HT, HI, HG; reflexivity).
  assert (SND : forall a b, sends_of (a ++ b) = (sends_of a + sends_of b)%N).
  { unfold sends_of. induction a as [|x a IH]; intros b; [reflexivity|]. cbn [app csends fold_right].
    fold (csends (a ++ b)) (csends a). rewrite IH. lia. }
  assert (BND : forall a, (exists b, ls = a ++ b) -> IB nr (sends_of (ls0 ++ KAlloc :: a)) (crun ns nr s0 a) /\ (sends_of (ls0 ++ KAlloc :: a) < two32 - 1)%N).
  { intros a [b E]. assert (L : (sends_of (ls0 ++ KAlloc :: a) < two32 - 1)%N).
    { subst ls. replace (ls0 ++ KAlloc :: a ++ b) with ((ls0 ++ KAlloc :: a) ++ b) in Hs by (rewrite <- app_assoc; reflexivity).
      rewrite SND in Hs. lia. }
    split; [|exact L]. pose proof (IB_reach ns nr Hnr (ls0 ++ KAlloc :: a) L) as X. unfold crun in X. rewrite fold_left_app in X. exact X. }
  assert (MAIN : forall a, (exists b, ls = a ++ b) -> progress s0 a (crun ns nr s0 a) /\ (in_multi (crun ns nr s0 a) = true -> ignore (crun ns nr s0 a) = false)).
  { induction a as [|l a IH] using rev_ind; intros [b E].
    - cbn [crun fold_left]. rewrite E0 at 2. split; [|rewrite E0; intros _; exact HG]. unfold progress. cbn [cpc c_pc].
      split; [intros m Hm; lia|]. split; [intros j Hj; lia|lia].
    - rewrite <- app_assoc in E. cbn [app] in E. destruct (IH (ex_intro _ (l :: b) E)) as [H1 H2].
      destruct (BND a (ex_intro _ (l :: b) E)) as [B1 B2].
      assert (IM : in_multi (crun ns nr s0 a) = true).
      { rewrite E in HM. apply inside_app in HM. destruct HM as [_ HM]. cbn [inside_multi] in HM. tauto. }
      rewrite crun_app. cbn [crun fold_left]. split.
      + eapply progress_step; eauto.
      + apply multi_ignore; auto. }
  destruct (MAIN ls) as [P1 P2]; [exists []; rewrite app_nil_r; reflexivity|].
  intros cnt Hc. change 100 with MAX_MULTI in Hc.
  assert (NM : in_multi (crun ns nr s0 ls) = false) by (destruct (in_multi _); [specialize (P2 eq_refl); congruence|reflexivity]).
  unfold progress in P1. unfold in_multi in NM. destruct (cpc (crun ns nr s0 ls)); try discriminate NM; exact (P1 HE cnt Hc).
Qed.
End Props.

(** ** Concrete cases *)
(** three slots; one sample is sent and read by a QM consumer, a second one is sent *)
Definition csend (i : nat) : list clabel := KAlloc :: repeat KStep 9 ++ [KWrite i 7%N; KSend i] ++ repeat KStep 4.
Definition two_sent : list clabel := csend 0 ++ [KQRef 0] ++ csend 1.
Example ex_C82_serves : let s := after 3 2 two_sent in
  idle s = true /\ ignore s = false /\ term s = false /\ ts_of (cb s 1) = 2%N /\ qref s 0 = 1 /\
  ~ free_in_both s 0 /\ free_in_both s 1 /\ free_in_both s 2 /\ undisturbed_run 3 2 cinit two_sent.
Proof.
  cbn zeta. do 5 (split; [vm_compute; reflexivity|]). split; [intros (X & _); vm_compute in X; discriminate|].
  do 2 (split; [repeat split; vm_compute; congruence|]). vm_compute. repeat split.
Qed.
(** one slot, read by a QM consumer: QM is dropped after 100 searches of 3 accesses each *)
Definition held_by_qm : list clabel := csend 0 ++ [KQRef 0].
Example ex_C82_dropped : let s := after 1 2 held_by_qm in let s0 := cstep 1 2 s KAlloc in
  idle s = true /\ ignore s = false /\ term s = false /\
  inside_multi 1 2 s0 (repeat KStep 300) /\ ignore (crun 1 2 s0 (repeat KStep 299)) = false /\
  ignore (crun 1 2 s0 (repeat KStep 300)) = true.
Proof. vm_compute. repeat split. Qed.

Print Assumptions C82_undisturbed_allocate_serves_both.
Print Assumptions C82_qm_dropped_only_after_100_attempts.
