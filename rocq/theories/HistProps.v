(** C08 (history depth) and C21 (number of sends). *)
From Verif Require Import SlotModel SlotWord SlotProofs SlotProps HistModel HistProofs.
From Coq Require Import Sorting.Sorted Permutation.

(** What a fresh subscriber that may hold every sample gets: sequence numbers in
    the order of delivery. *)
Definition fresh_subscriber_gets (slots : list N) : option (list N) :=
  match GetNewSamplesSlotIndices_quiet (length slots) (length slots) slots 0 with
  | Some (idx, _, _) => Some (map (ts_at slots) idx)
  | None => None
  end.

Lemma sorted_perm_eq (a b : list N) :
  StronglySorted N.lt a -> StronglySorted N.lt b -> Permutation a b -> a = b.
Proof.
  revert b. induction a as [|x a IH]; intros b Ha Hb HP.
  - apply Permutation_nil in HP. congruence.
  - destruct b as [|y b]; [apply Permutation_sym, Permutation_nil in HP; discriminate|].
    inversion Ha as [|? ? Ha' Fa]; inversion Hb as [|? ? Hb' Fb]; subst. rewrite Forall_forall in *.
    assert (x = y).
    { assert (H1 : In x (y :: b)) by (eapply Permutation_in; [exact HP|left; reflexivity]).
      assert (H2 : In y (x :: a)) by (eapply Permutation_in; [symmetry; exact HP|left; reflexivity]).
      destruct H1 as [->|H1]; [reflexivity|]. destruct H2 as [->|H2]; [reflexivity|].
      specialize (Fa y H2). specialize (Fb x H1). lia. }
    subst y. f_equal. apply IH; try assumption. eapply Permutation_cons_inv; exact HP.
Qed.

Lemma SS_map {A} (f : A -> N) (l : list A) :
  StronglySorted (fun i j => (f i < f j)%N) l -> StronglySorted N.lt (map f l).
Proof.
  induction 1 as [|a l H IH HF]; cbn [map]; constructor; [exact IH|].
  rewrite Forall_map. exact HF.
Qed.

(** Distinct sequence numbers from a sorted permutation *)
Lemma NoDup_distinct (l : list N) :
  NoDup (avs l) -> (forall w, In w l -> av w = true -> (0 < ts_of w)%N) -> distinct_samples l.
Proof.
  intros HN HP i j wi wj Hi Hj Hij H1 H2 E.
  assert (Ai : av wi = true).
  { unfold av, is_invalid, is_in_writing. rewrite (proj2 (N.eqb_neq _ _) H1), (proj2 (N.eqb_neq _ _) H2). reflexivity. }
  assert (Aj : av wj = true).
  { pose proof (HP wi (nth_error_In _ _ Hi) Ai) as HH. rewrite E in HH. unfold av.
    destruct (is_invalid wj) eqn:E1; [apply is_invalid_true in E1; subst; vm_compute in HH; discriminate|].
    destruct (is_in_writing wj) eqn:E2; [apply is_in_writing_true in E2; subst; vm_compute in HH; discriminate|]. reflexivity. }
  revert i j Hi Hj Hij HN. clear HP H1 H2. induction l as [|a l IH]; intros i j Hi Hj Hij HN.
  - destruct i; discriminate.
  - unfold avs in HN. cbn [filter] in HN. destruct i as [|i], j as [|j]; cbn in Hi, Hj.
    + lia.
    + injection Hi as ->. rewrite Ai in HN. cbn [map] in HN. inversion HN as [|? ? HN1 HN2]; subst. apply HN1.
      rewrite E. apply in_map. apply filter_In. split; [eapply nth_error_In; exact Hj|exact Aj].
    + injection Hj as ->. rewrite Aj in HN. cbn [map] in HN. inversion HN as [|? ? HN1 HN2]; subst. apply HN1.
      rewrite <- E. apply in_map. apply filter_In. split; [eapply nth_error_In; exact Hi|exact Ai].
    + apply (IH i j Hi Hj); [lia|]. destruct (av a); [inversion HN; assumption|exact HN].
Qed.

Lemma SS_NoDup (l : list N) : StronglySorted N.lt l -> NoDup l.
Proof.
  induction 1 as [|a l H IH HF]; constructor; [|exact IH].
  intros Hin. rewrite Forall_forall in HF. specialize (HF a Hin). lia.
Qed.

Lemma rel_fresh n p b : Rel n p b -> (sent b < two32 - 1)%N -> fresh_subscriber_gets (p_slots p) = Some (q b).
Proof.
  intros HR HS. destruct HR as [HL HQ HRC HO HND HP HW HSo HRg HC].
  assert (IQ : forall w, In w (p_slots p) -> av w = true -> In (ts_of w) (q b)).
  { intros w Hw Ha. eapply Permutation_in; [exact HQ|]. apply in_map_iff. exists w. split; [reflexivity|]. apply filter_In; auto. }
  assert (AV : forall w, In w (p_slots p) -> w <> INVALID_EVENT -> w <> IN_WRITING -> av w = true).
  { intros w Hw H1 H2. unfold av, is_invalid, is_in_writing. rewrite (proj2 (N.eqb_neq _ _) H1), (proj2 (N.eqb_neq _ _) H2). reflexivity. }
  assert (D : distinct_samples (p_slots p)).
  { apply NoDup_distinct; [eapply Permutation_NoDup; [symmetry; exact HQ|apply SS_NoDup; exact HSo]|].
    intros w Hw Ha. apply HRg. apply IQ; assumption. }
  assert (C : counts_in_range (p_slots p)).
  { intros w Hw. destruct (N.eq_dec w IN_WRITING) as [->|N2]; [split; [reflexivity|left; reflexivity]|].
    destruct (N.eq_dec w INVALID_EVENT) as [->|N1]; [split; [reflexivity|right; reflexivity]|].
    pose proof (AV w Hw N1 N2) as Ha. pose proof (HRC w Hw Ha) as Hr. pose proof (HRg _ (IQ w Hw Ha)) as Ht.
    split; [|right; rewrite Hr; reflexivity].
    rewrite (word_split w), Hr. unfold word, two32 in *. change (2^64)%N with (4294967296 * 4294967296)%N. lia. }
  destruct (C06_get_new_samples_delivers_newest_unseen (p_slots p) 0 (length (p_slots p)) (length (p_slots p)) D C)
    as (idx & sl' & last' & E & L & ND & IN & SO & MX & _ & _).
  unfold fresh_subscriber_gets. rewrite E. f_equal.
  apply sorted_perm_eq; [apply SS_map; exact SO|exact HSo|].
  (* lengths agree and everything delivered is in q, without duplicates *)
  assert (LQ : length idx = length (q b)).
  { rewrite L, Nat.min_id. rewrite <- (Permutation_length HQ), avs_length.
    assert (EN : GetNumNewEvents (p_slots p) 0 = length (filter av (p_slots p))).
    { unfold GetNumNewEvents. f_equal. apply filter_ext_in. intros w Hw.
      rewrite is_between_ts. destruct (av w) eqn:Ha.
      - pose proof (HRg _ (IQ w Hw Ha)). apply andb_true_iff. rewrite !N.ltb_lt. unfold TIMESTAMP_MAX. lia.
      - unfold av in Ha. apply andb_false_iff in Ha. destruct Ha as [Ha|Ha]; apply negb_false_iff in Ha.
        + apply is_invalid_true in Ha. subst w. reflexivity.
        + apply is_in_writing_true in Ha. subst w. reflexivity. }
    rewrite EN. pose proof (filter3 (p_slots p)). lia. }
  apply NoDup_Permutation_bis.
  - apply SS_NoDup. apply SS_map. exact SO.
  - rewrite map_length. lia.
  - intros t Ht. apply in_map_iff in Ht. destruct Ht as (i & <- & Hi). destruct (IN i Hi) as (w & Hw & U).
    rewrite (ts_at_nth _ _ _ Hw). destruct U as (U1 & U2 & _). apply IQ; [eapply nth_error_In; exact Hw|].
    apply AV; [eapply nth_error_In; exact Hw|assumption|assumption].
Qed.

(** C08, general form: after any sequence of Allocate, Send and destruction of
    unsent samples, a fresh subscriber gets exactly the content of the bounded
    queue specification [brun] (HistProofs.v): Send appends, Allocate drops the
    oldest sample only when no slot is free. *)
Theorem C08_history_is_bounded_queue n os :
  (N.of_nat (osends os) < 2 ^ 32 - 1)%N ->
  exists p, prun (pinit n) os = Some p /\
    fresh_subscriber_gets (p_slots p) = Some (q (brun n (mkBq [] 0 0) os)).
Proof.
  intros HS. destruct (run_rel n os (pinit n) (mkBq [] 0 0) (Rel_init n) HS) as (p & E & HR & HL).
  exists p. split; [exact E|]. apply (rel_fresh n p _ HR). cbn [sent] in HL.
  change (2 ^ 32 - 1)%N with (two32 - 1)%N in HS. lia.
Qed.

(** k plain sends: allocate and send, k times *)
Fixpoint plain_sends (k : nat) : list pop :=
  match k with O => [] | S k => plain_sends k ++ [OAlloc; OSend 0] end.

Lemma osends_plain k : osends (plain_sends k) = k.
Proof.
  induction k as [|k IH]; [reflexivity|]. cbn [plain_sends]. unfold osends in *. rewrite filter_app, app_length, IH.
  cbn. lia.
Qed.

(** the last min(k,n) sequence numbers, oldest first *)
Definition last_sends (k n : nat) : list N := map N.of_nat (seq (k - Nat.min k n + 1) (Nat.min k n)).

Lemma brun_plain n k : 0 < n -> brun n (mkBq [] 0 0) (plain_sends k) = mkBq (last_sends k n) 0 (N.of_nat k).
Proof.
  intros Hn. induction k as [|k IH]; [reflexivity|].
  cbn [plain_sends]. unfold brun in *. rewrite fold_left_app, IH. cbn [fold_left].
  assert (LL : length (last_sends k n) = Nat.min k n) by (unfold last_sends; rewrite map_length, seq_length; reflexivity).
  unfold bstep at 2. cbn [q pend sent]. rewrite LL, Nat.add_0_r.
  assert (E1 : (N.of_nat k + 1 = N.of_nat (S k))%N) by lia.
  destruct (Nat.ltb_spec (Nat.min k n) n) as [H|H].
  - unfold bstep. cbn [q pend sent Nat.ltb Nat.leb]. change (1 - 1) with 0. rewrite E1. f_equal.
    unfold last_sends. rewrite !Nat.min_l by lia. replace (S k - S k + 1) with 1 by lia. replace (k - k + 1) with 1 by lia.
    rewrite (seq_S k 1), map_app. cbn [map]. do 3 f_equal.
  - unfold last_sends. rewrite !Nat.min_r by lia. destruct n as [|n]; [lia|].
    cbn [seq map]. unfold bstep. cbn [q pend sent Nat.ltb Nat.leb]. change (1 - 1) with 0. rewrite E1. f_equal.
    replace (S k - S n + 1) with (S (k - S n + 1)) by lia.
    change (N.of_nat (S (k - S n + 1)) :: map N.of_nat (seq (S (S (k - S n + 1))) n))
      with (map N.of_nat (seq (S (k - S n + 1)) (S n))).
    rewrite seq_S, map_app. cbn [map]. do 3 f_equal. lia.
Qed.

(** C08: with n slots, after k sends the available samples are the newest min(k,n). *)
Theorem C08_history_depth n k :
  0 < n -> (N.of_nat k < 2 ^ 32 - 1)%N ->
  exists p, prun (pinit n) (plain_sends k) = Some p /\
    fresh_subscriber_gets (p_slots p) = Some (last_sends k n).
Proof.
  intros Hn Hk. destruct (C08_history_is_bounded_queue n (plain_sends k)) as (p & E & F).
  - rewrite osends_plain. exact Hk.
  - exists p. split; [exact E|]. rewrite F, brun_plain by assumption. reflexivity.
Qed.

Example ex_C08 : exists p, prun (pinit 3) (plain_sends 5) = Some p /\
  fresh_subscriber_gets (p_slots p) = Some [3; 4; 5]%N.
Proof. eexists. split; vm_compute; reflexivity. Qed.
Example ex_C08_discard : exists p, prun (pinit 3) (plain_sends 4 ++ [OAlloc; OAlloc; ODrop 0; OSend 0]) = Some p /\
  fresh_subscriber_gets (p_slots p) = Some [4; 5]%N.
Proof. eexists. split; vm_compute; reflexivity. Qed.

(** C21, the part that holds: up to 2^32-2 sends every Send succeeds, gets the
    next sequence number and is delivered to a fresh subscriber as the newest. *)
Theorem C21_sends_below_wrap_partial n k :
  0 < n -> 0 < k -> (N.of_nat k < 2 ^ 32 - 1)%N ->
  exists p l, prun (pinit n) (plain_sends k) = Some p /\ p_cur p = N.of_nat k /\
    fresh_subscriber_gets (p_slots p) = Some (l ++ [N.of_nat k]).
Proof.
  intros Hn Hk0 Hk.
  destruct (run_rel n (plain_sends k) (pinit n) (mkBq [] 0 0) (Rel_init n)) as (p & E & HR & HL).
  { rewrite osends_plain. exact Hk. }
  rewrite brun_plain in HR by assumption.
  exists p, (map N.of_nat (seq (k - Nat.min k n + 1) (Nat.min k n - 1))). split; [exact E|].
  split; [exact (R_cur _ _ _ HR)|].
  rewrite (rel_fresh n p _ HR); [|exact Hk]. cbn [q]. f_equal. unfold last_sends.
  destruct (Nat.min k n) as [|m] eqn:Em; [lia|]. rewrite seq_S, map_app. cbn [map]. replace (S m - 1) with m by lia.
  do 3 f_equal. lia.
Qed.

Lemma wrap_aux k : N.of_nat k = (2 ^ 32 - 2)%N ->
  exists p, prun (pinit 1) (plain_sends (S k)) = Some p /\
    p_cur p = (2 ^ 32 - 1)%N /\
    (forall last n cap, GetNewSamplesSlotIndices_quiet n cap (p_slots p) last = Some ([], p_slots p, last)) /\
    pstep p OAlloc = Some p.
Proof.
  intros Ek.
  destruct (run_rel 1 (plain_sends k) (pinit 1) (mkBq [] 0 0) (Rel_init 1)) as (p & E & HR & HL).
  { rewrite osends_plain, Ek. reflexivity. }
  rewrite brun_plain in HR by lia.
  assert (LS : last_sends k 1 = [(2 ^ 32 - 2)%N]).
  { unfold last_sends. assert (0 < k) by (destruct k; [discriminate Ek|lia]).
    rewrite Nat.min_r by lia. cbn [seq map]. replace (k - 1 + 1) with k by lia. rewrite Ek. reflexivity. }
  rewrite LS, Ek in HR. destruct HR as [RL RQ RRC RO RND RP RW RS RR RC].
  cbn [q pend sent] in *.
  destruct p as [sl cur ow]. cbn [p_slots p_cur p_own] in *.
  destruct ow; [|discriminate]. destruct sl as [|w [|]]; try discriminate.
  assert (Ew : w = word (2 ^ 32 - 2) 0).
  { apply Permutation_sym, Permutation_length_1_inv in RQ. unfold avs in RQ. cbn [filter] in RQ.
    destruct (av w) eqn:Ha; cbn [map] in RQ; [|discriminate]. injection RQ as T.
    rewrite (word_split w), T, (RRC w (or_introl eq_refl) Ha). reflexivity. }
  subst w cur.
  assert (RUN : forall a b p0, prun (pinit 1) a = Some p0 -> prun (pinit 1) (a ++ b) = prun p0 b).
  { clear. intros a b. generalize (pinit 1). induction a as [|o a IH]; intros p p0 H; cbn [prun app] in *.
    - congruence.
    - destruct (pstep p o); [apply IH; exact H|discriminate]. }
  exists (mkProv [word (2 ^ 32 - 1) 0] (2 ^ 32 - 1) []).
  split; [cbn [plain_sends]; rewrite (RUN _ _ _ E); vm_compute; reflexivity|].
  split; [reflexivity|]. split; [|vm_compute; reflexivity].
  intros last n cap. cbn [p_slots]. unfold GetNewSamplesSlotIndices_quiet.
  assert (EF : find_newest last TIMESTAMP_MAX [word (2 ^ 32 - 1) 0] 0 None = None).
  { cbn [find_newest]. unfold scan_newest. rewrite is_between_ts. change (ts_of (word (2 ^ 32 - 1) 0)) with (2 ^ 32 - 1)%N.
    change TIMESTAMP_MAX with (2 ^ 32 - 1)%N. rewrite N.ltb_irrefl, andb_false_r. reflexivity. }
  destruct n as [|n]; [reflexivity|]. destruct cap as [|cap]; [reflexivity|].
  cbn [CollectSlots_quiet]. unfold ReferenceNextEvent_quiet. rewrite EF. reflexivity.
Qed.

Lemma wrap_count : exists k, N.of_nat k = (2 ^ 32 - 2)%N.
Proof. exists (N.to_nat (2 ^ 32 - 2)). apply N2Nat.id. Qed.

(** C21 refuted at the end of the 32-bit sequence numbers: the 2^32-1-th sample of a
    one-slot event is never delivered to anybody, and no further sample can ever be
    allocated. *)
Theorem C21_unlimited_refuted :
  exists k p, N.of_nat k = (2 ^ 32 - 1)%N /\ prun (pinit 1) (plain_sends k) = Some p /\
    p_cur p = (2 ^ 32 - 1)%N /\
    (forall last n cap, GetNewSamplesSlotIndices_quiet n cap (p_slots p) last = Some ([], p_slots p, last)) /\
    pstep p OAlloc = Some p.
Proof.
  destruct wrap_count as [k Ek]. destruct (wrap_aux k Ek) as (p & H). exists (S k), p.
  split; [|exact H]. rewrite Nat2N.inj_succ, Ek. reflexivity.
Qed.

Print Assumptions C06_get_new_samples_delivers_newest_unseen.
Print Assumptions C06_hypotheses_hold_when_reachable.
Print Assumptions C07_allocate_takes_unused_or_oldest_free.
Print Assumptions C07_allocate_fails_only_without_free_slot.
Print Assumptions C08_history_is_bounded_queue.
Print Assumptions C08_history_depth.
Print Assumptions C21_sends_below_wrap_partial.
Print Assumptions C21_unlimited_refuted.
