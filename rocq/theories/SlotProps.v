(** C06, C07, C08, C21: the slot array seen by one caller at a time. *)
From Verif Require Import SlotModel SlotWord SlotProofs EventModel EventInv EventProofs EventReach EventSpec EventProps.
From Coq Require Import Sorting.Sorted Permutation.

(** ** Specification *)
(** A consumer whose last seen sequence number is [last] has not seen this sample yet.
    (2^32-1 is never delivered, see C21_unlimited_refuted.) *)
Definition unseen (last w : N) : Prop :=
  w <> INVALID_EVENT /\ w <> IN_WRITING /\ (last < ts_of w)%N /\ (ts_of w < 2 ^ 32 - 1)%N.

(** different slots carry different sequence numbers *)
Definition distinct_samples (slots : list N) : Prop :=
  forall i j wi wj, nth_error slots i = Some wi -> nth_error slots j = Some wj -> i <> j ->
    wi <> INVALID_EVENT -> wi <> IN_WRITING -> ts_of wi <> ts_of wj.
(** no reference count is about to overflow *)
Definition counts_in_range (slots : list N) : Prop :=
  forall w, In w slots -> (w < 2 ^ 64)%N /\ (w = IN_WRITING \/ (rc_of w < 2 ^ 32 - 1)%N).

(** the set of unseen samples as slot numbers *)
Definition unseen_at (slots : list N) (last : N) (i : nat) : Prop :=
  exists w, nth_error slots i = Some w /\ unseen last w.

Lemma unseen_btw last w : unseen last w <-> btw last TIMESTAMP_MAX w = true.
Proof.
  rewrite btw_true. unfold unseen, TIMESTAMP_MAX, two32. change (2 ^ 32 - 1)%N with (4294967296 - 1)%N.
  split; [tauto|]. intros [H1 H2]. repeat split; try assumption; intros ->; vm_compute in H1; destruct last; discriminate.
Qed.

Lemma count_new slots last : GetNumNewEvents slots last = count_btw last TIMESTAMP_MAX slots.
Proof.
  unfold GetNumNewEvents, count_btw. f_equal. apply filter_ext. intros w. apply is_between_btw.
Qed.

Lemma ts_lt32 w : (w < 2 ^ 64)%N -> (ts_of w < two32)%N.
Proof. intros H. unfold ts_of, two32. change (2^64)%N with (4294967296 * 4294967296)%N in H. apply N.div_lt_upper_bound; lia. Qed.

(** GetNewSamples(n) on a quiet event: exactly the min(n, free, k) newest of the k
    unseen samples, oldest first, each referenced once more, nothing else touched,
    and the last seen sequence number becomes that of the newest delivered one. *)
Theorem C06_get_new_samples_delivers_newest_unseen slots last n free_count :
  distinct_samples slots -> counts_in_range slots ->
  exists idx slots' last',
    GetNewSamplesSlotIndices_quiet n free_count slots last = Some (idx, slots', last') /\
    length idx = Nat.min (Nat.min n free_count) (GetNumNewEvents slots last) /\
    NoDup idx /\
    (forall i, In i idx -> unseen_at slots last i) /\
    StronglySorted (fun i j => (ts_at slots i < ts_at slots j)%N) idx /\
    (forall i j, In i idx -> unseen_at slots last j -> ~ In j idx -> (ts_at slots j < ts_at slots i)%N) /\
    (length slots' = length slots /\
     forall i w, nth_error slots i = Some w -> exists w', nth_error slots' i = Some w' /\
       ts_of w' = ts_of w /\ (In i idx -> rc_of w' = (rc_of w + 1)%N) /\ (~ In i idx -> w' = w)) /\
    last' = match rev idx with [] => last | i :: _ => ts_at slots i end.
Proof.
  intros HD HC.
  assert (D' : distinct last slots).
  { intros i j wi wj Hi Hj Hij Hb. apply unseen_btw in Hb. destruct Hb as (B1 & B2 & _). eapply HD; eassumption. }
  assert (O' : forall i w, nth_error slots i = Some w -> btw last TIMESTAMP_MAX w = true -> inc_ok w).
  { intros i w Hi Hb. apply unseen_btw in Hb. destruct Hb as (B1 & B2 & _).
    destruct (HC w (nth_error_In _ _ Hi)) as [W1 [W2|W2]]; [contradiction|]. split; [apply ts_lt32; exact W1|exact W2]. }
  destruct (collect_spec last n free_count slots TIMESTAMP_MAX [] D' ltac:(lia) O')
    as (idx & slots' & E & L & S & IN & MX & ND & RL & RW).
  rewrite app_nil_r in E. exists idx, slots', (newest_delivered slots' last idx).
  unfold GetNewSamplesSlotIndices_quiet. rewrite E. split; [reflexivity|].
  rewrite count_new. split; [exact L|]. split; [exact ND|].
  split; [|split; [exact S|split; [|split; [split; [exact RL|]|]]]].
  - intros i Hi. destruct (IN i Hi) as (w & H1 & H2). exists w. split; [exact H1|apply unseen_btw; exact H2].
  - intros i j Hi (w & Hw & Hu) Hj. rewrite (ts_at_nth _ _ _ Hw). apply (MX i j w Hi Hj Hw). apply unseen_btw. exact Hu.
  - intros i w Hi. destruct (RW i w Hi) as (w' & H1 & H2 & H3). exists w'. split; [exact H1|]. split; [exact H2|].
    split; intros Hin.
    + assert (Z : existsb (Nat.eqb i) idx = true) by (apply existsb_exists; exists i; split; [exact Hin|apply Nat.eqb_refl]).
      rewrite Z in H3. exact H3.
    + assert (Z : existsb (Nat.eqb i) idx = false).
      { destruct (existsb (Nat.eqb i) idx) eqn:Z; [|reflexivity]. apply existsb_exists in Z. destruct Z as (b & Hb & Eb).
        apply Nat.eqb_eq in Eb. subst b. contradiction. }
      rewrite Z in H3. exact H3.
  - assert (TS : forall i, In i idx -> ts_of (nth i slots' 0%N) = ts_at slots i /\ (last < ts_at slots i)%N).
    { intros i Hi. destruct (IN i Hi) as (w & H1 & H2). destruct (RW i w H1) as (w' & W1 & W2 & _).
      rewrite (nth_error_nth _ _ _ W1), W2, (ts_at_nth _ _ _ H1). rewrite btw_true in H2. split; [reflexivity|lia]. }
    unfold newest_delivered.
    assert (G : forall l a, (forall i, In i l -> ts_of (nth i slots' 0%N) = ts_at slots i /\ (a < ts_at slots i)%N) ->
       StronglySorted (fun i j => (ts_at slots i < ts_at slots j)%N) l ->
       fold_left (fun acc i => N.max acc (ts_of (nth i slots' 0%N))) l a = match rev l with [] => a | i :: _ => ts_at slots i end).
    { induction l as [|x l IH]; intros a HT HS; [reflexivity|].
      inversion HS as [|? ? HS' HF]; subst. cbn [fold_left rev].
      destruct (HT x (or_introl eq_refl)) as [T1 T2]. rewrite T1, N.max_r by lia. rewrite IH.
      - destruct (rev l) as [|y r] eqn:Er; reflexivity.
      - intros i Hi. destruct (HT i (or_intror Hi)) as [T3 T4]. split; [exact T3|]. rewrite Forall_forall in HF. exact (HF i Hi).
      - exact HS'. }
    apply G; [exact TS|exact S].
Qed.

(** The hypotheses hold in every reachable state of the event machine. *)
Theorem C06_hypotheses_hold_when_reachable ns nc caps ls :
  in_range nc ls ->
  let slots := map (slots (reach ns nc caps ls)) (seq 0 ns) in
  distinct_samples slots /\ counts_in_range slots.
Proof.
  intros R. set (s := reach ns nc caps ls). cbn zeta.
  pose proof (Inv_r ns nc caps ls R) as HI. fold s in HI.
  assert (NE : forall i w, nth_error (map (slots s) (seq 0 ns)) i = Some w -> i < ns /\ w = slots s i).
  { intros i w H. assert (Hi : i < ns).
    { assert (i < length (map (slots s) (seq 0 ns))) by (apply nth_error_Some; congruence).
      rewrite map_length, seq_length in H0. exact H0. }
    split; [exact Hi|]. rewrite nth_error_map in H. rewrite (nth_error_nth' (seq 0 ns) 0) in H by (rewrite seq_length; exact Hi).
    rewrite seq_nth in H by exact Hi. cbn in H. congruence. }
  split.
  - intros i j wi wj Hi Hj Hij H1 H2. destruct (NE i wi Hi) as [Li ->]. destruct (NE j wj Hj) as [Lj ->].
    assert (Hts : (0 < ts_of (slots s i))%N).
    { destruct (slot_ok_pub nc _ (proj1 R) (HB_r _ _ R) s i (I_hist _ _ _ _ HI) (I_slot _ _ _ _ HI i Li) (conj H1 H2))
        as (t & _ & _ & _ & V & T & _). unfold vts in V. rewrite V. exact T. }
    destruct (N.eq_dec (slots s j) INVALID_EVENT) as [E|N1]; [rewrite E; vm_compute (ts_of INVALID_EVENT); lia|].
    destruct (N.eq_dec (slots s j) IN_WRITING) as [E|N2]; [rewrite E; vm_compute (ts_of IN_WRITING); lia|].
    apply (C04_sequence_numbers_ordered ns nc caps ls R i j Li Lj (conj H1 H2) (conj N1 N2) Hij).
  - intros w Hw. apply In_nth_error in Hw. destruct Hw as [i Hw]. destruct (NE i w Hw) as [Li ->].
    destruct (I_slot _ _ _ _ HI i Li) as [(E & _)|[(E & _)|(t & H1 & H2 & _)]].
    + rewrite E. split; [reflexivity|left; reflexivity].
    + rewrite E. split; [reflexivity|right; reflexivity].
    + destruct (I_hist _ _ _ _ HI _ _ (nth_error_In _ _ H1)) as [T1 T2].
      pose proof (HB_r _ _ R) as HB. pose proof (refs_small nc _ (proj1 R) HB s i) as HR.
      rewrite H2. split; [unfold word, two32 in *; change (2^64)%N with (4294967296 * 4294967296)%N; lia|].
      right. rewrite rc_word by (unfold two32 in *; lia). exact HR.
Qed.

(** 5 slots: published 7 (referenced), invalid, in writing, published 9 and 4 *)
Definition ex_slots : list N := [word 7 1; INVALID_EVENT; IN_WRITING; word 9 0; word 4 0].
Example ex_C06 : GetNewSamplesSlotIndices_quiet 2 5 ex_slots 3 =
  Some ([0; 3], [word 7 2; INVALID_EVENT; IN_WRITING; word 9 1; word 4 0], 9%N) /\ GetNumNewEvents ex_slots 3 = 3.
Proof. vm_compute. split; reflexivity. Qed.
Example ex_C06_hyp : distinct_samples ex_slots /\ counts_in_range ex_slots.
Proof.
  split.
  - intros i j wi wj Hi Hj Hij.
    assert (forall k w, nth_error ex_slots k = Some w -> k < 5) as HL
      by (intros k w H; change 5 with (length ex_slots); apply nth_error_Some; congruence).
    pose proof (HL _ _ Hi). pose proof (HL _ _ Hj).
    do 5 (destruct i as [|i]; [do 5 (destruct j as [|j]; [cbn in Hi, Hj; injection Hi as <-; injection Hj as <-; vm_compute; congruence|]); lia|]); lia.
  - intros w [<-|[<-|[<-|[<-|[<-|[]]]]]]; (split; [reflexivity|]); try (right; reflexivity); left; reflexivity.
Qed.

(** ** C07 *)
(** Neither referenced nor being written. *)
Definition free_slot (w : N) : Prop := rc_of w = 0%N /\ w <> IN_WRITING.

Theorem C07_allocate_takes_unused_or_oldest_free slots :
  (forall w, In w slots -> free_slot w -> (ts_of w < 2 ^ 32 - 1)%N) ->
  (exists w, In w slots /\ free_slot w) ->
  exists i w, nth_error slots i = Some w /\ free_slot w /\
    AllocateNextSlot_quiet slots = (Some i, lset slots i IN_WRITING) /\
    ((exists w', In w' slots /\ w' = INVALID_EVENT) -> w = INVALID_EVENT) /\
    (~ (exists w', In w' slots /\ w' = INVALID_EVENT) ->
     forall w', In w' slots -> free_slot w' -> (ts_of w <= ts_of w')%N).
Proof.
  intros HB (w0 & Hw0 & HF0). unfold AllocateNextSlot_quiet, FindOldestUnusedSlot.
  pose proof (find_oldest_spec slots 0 None _ (fun i w E => ltac:(discriminate E)) eq_refl) as HS.
  assert (CH : forall w, In w slots -> free_slot w -> choosable w = true).
  { intros w Hw HF. unfold choosable. rewrite (proj2 (N.eqb_eq _ _) (proj1 HF)). unfold is_in_writing.
    rewrite (proj2 (N.eqb_neq _ _) (proj2 HF)). cbn [negb andb]. apply N.ltb_lt. exact (HB w Hw HF). }
  destruct (find_oldest slots 0 None) as [[i w]|].
  - exists i, w. destruct HS as [(H1 & _ & H3)|(H1 & H2 & [H3|[_ H3]] & H4 & _)]; [| discriminate |].
    + rewrite Nat.sub_0_r in H3. apply N.eqb_eq in H1. subst w.
      split; [exact H3|]. split; [split; [reflexivity|discriminate]|]. split; [reflexivity|]. split; [reflexivity|].
      intros Hn. destruct Hn. exists INVALID_EVENT. split; [eapply nth_error_In; exact H3|reflexivity].
    + rewrite Nat.sub_0_r in H3. split; [exact H3|]. split.
      * unfold choosable in H2. rewrite !andb_true_iff in H2. destruct H2 as [[E1 E2] _]. apply N.eqb_eq in E1.
        split; [exact E1|]. intros ->. discriminate.
      * split; [reflexivity|]. split.
        -- intros (w' & Hw' & ->). specialize (H1 _ Hw'). discriminate.
        -- intros _ w' Hw' HF. apply H4; [exact Hw'|apply CH; assumption].
  - destruct HS as [_ HS]. destruct (HS w0 Hw0) as [HS1 _]. rewrite (CH w0 Hw0 HF0) in HS1. discriminate.
Qed.

Theorem C07_allocate_fails_only_without_free_slot slots :
  (forall w, In w slots -> ~ free_slot w) -> AllocateNextSlot_quiet slots = (None, slots).
Proof.
  intros H. unfold AllocateNextSlot_quiet, FindOldestUnusedSlot.
  pose proof (find_oldest_spec slots 0 None _ (fun i w E => ltac:(discriminate E)) eq_refl) as HS.
  destruct (find_oldest slots 0 None) as [[i w]|]; [exfalso|reflexivity].
  destruct HS as [(H1 & _ & H3)|(H1 & H2 & [H3|[_ H3]] & H4 & _)]; [| discriminate |].
  - apply N.eqb_eq in H1. subst w. apply (H _ (nth_error_In _ _ H3)). split; [reflexivity|discriminate].
  - apply (H _ (nth_error_In _ _ H3)). unfold choosable in H2. rewrite !andb_true_iff in H2. destruct H2 as [[E1 E2] _].
    apply N.eqb_eq in E1. split; [exact E1|]. intros ->. discriminate.
Qed.

Example ex_C07 : AllocateNextSlot_quiet ex_slots = (Some 1, lset ex_slots 1 IN_WRITING) /\
  AllocateNextSlot_quiet (lset ex_slots 1 (word 5 3)) = (Some 4, [word 7 1; word 5 3; IN_WRITING; word 9 0; IN_WRITING]).
Proof. vm_compute. split; reflexivity. Qed.
Example ex_C07_hyp : (forall w, In w ex_slots -> free_slot w -> (ts_of w < 2 ^ 32 - 1)%N) /\
  (exists w, In w ex_slots /\ free_slot w).
Proof.
  split; [intros w [<-|[<-|[<-|[<-|[<-|[]]]]]] _; reflexivity|].
  exists (word 4 0). split; [do 4 right; left; reflexivity|]. split; [reflexivity|discriminate].
Qed.
