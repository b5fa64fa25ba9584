(** C06 and C07 for the event machine: what one GetNewSamples or Allocate call
    does to the running system when nobody else takes a step during the call,
    and how long Allocate tries when others do. *)
From Verif Require Import SlotModel SlotWord SlotProofs EventModel EventInv EventProofs EventReach EventSpec EventProps SlotProps EventAlone.
From Coq Require Import Sorting.Sorted.

(** ** Specification *)
(** The thread of consumer c is between two API calls and none of its SamplePtrs is being destroyed. *)
Definition resting (ns : nat) (s : evst) (c : nat) : Prop :=
  c_pc (cons s c) = CIdle /\
  forall i, i < ns -> match c_ph (cons s c) i with PhD1 _ _ | PhD2 => False | _ => True end.

(** The sample in slot i can be received: it is neither invalid nor being written, and
    its sequence number is above everything consumer c has received so far
    (sequence number 2^32-1 is never received, see C21_unlimited_refuted). *)
Definition receivable (s : evst) (c i : nat) : Prop :=
  available s i /\ (c_last (cons s c) < ts_of (slots s i))%N /\ (ts_of (slots s i) < 2 ^ 32 - 1)%N.

(** consumer c calls GetNewSamples(n) and takes k steps; nobody else moves *)
Definition get_new_samples (c n k : nat) : list label := LCGet c n :: repeat (LC c false) k.
(** the provider calls Allocate and takes k steps; nobody else moves *)
Definition allocate (k : nat) : list label := LPAlloc :: repeat LP k.

Lemma receivable_unseen ns s c i : i < ns -> receivable s c i <-> unseen_at (arr ns s) (c_last (cons s c)) i.
Proof.
  intros Hi. unfold receivable, available, unseen_at, unseen. split.
  - intros ((A & B) & C & D). exists (slots s i). split; [apply arr_nth; exact Hi|]. tauto.
  - intros (w & E & A & B & C & D). apply arr_nth_inv in E. destruct E as [_ ->]. tauto.
Qed.

(** GetNewSamples(n), called by consumer c in any reachable state, while nobody else
    moves: the call returns, the publications handed to the user are those in the slots
    [idx], oldest first; these are receivable, at most n and at most the subscribed
    number; a receivable sample is only left out if it is older than all that were
    delivered and the limit was reached; the user now owns a SamplePtr for each;
    their reference counts went up by one and no other slot changed. *)
Theorem C06_undisturbed_call_delivers_newest ns nc caps ls c n :
  in_range nc ls -> c < nc ->
  let s := reach ns nc caps ls in
  resting ns s c -> 0 < c_cap (cons s c) ->
  exists k idx, let s' := run ns nc s (get_new_samples c n k) in
    c_pc (cons s' c) = CIdle /\
    c_deliv (cons s' c) = c_deliv (cons s c) ++ map (sid s) idx /\
    NoDup idx /\ (forall i, In i idx -> i < ns /\ receivable s c i) /\
    length idx <= n /\ length idx <= c_cap (cons s c) /\
    StronglySorted (fun i j => (ts_of (slots s i) < ts_of (slots s j))%N) idx /\
    (forall j, j < ns -> receivable s c j -> ~ In j idx ->
       length idx = Nat.min n (c_cap (cons s c)) /\
       forall i, In i idx -> (ts_of (slots s j) < ts_of (slots s i))%N) /\
    (forall i, In i idx -> exists id, nth_error (hist s') id = Some (ts_of (slots s i), data s' i) /\ holds s' c i id) /\
    (forall i, i < ns -> ts_of (slots s' i) = ts_of (slots s i) /\
       rc_of (slots s' i) = (rc_of (slots s i) + (if existsb (Nat.eqb i) idx then 1 else 0))%N) /\
    (forall i, i < ns -> receivable s' c i -> receivable s c i /\ idx = []) /\
    data s' = data s /\ hist s' = hist s /\ own s' = own s /\
    (forall d, d <> c -> cons s' d = cons s d).
Proof.
  intros R Hc s [HP HQ] HC.
  destruct (C06_hypotheses_hold_when_reachable ns nc caps ls R) as [HD HR]. fold s in HD, HR. fold (arr ns s) in HD, HR.
  destruct (C06_get_new_samples_delivers_newest_unseen (arr ns s) (c_last (cons s c)) n (c_cap (cons s c)) HD HR)
    as (idx & A' & last' & E & EL & ND & IN & SS & MX & (RL & RW) & EL').
  assert (HRc : Rch ns nc caps s) by (exists ls; split; [exact R|reflexivity]).
  assert (HQ' : quiet_c ns c s).
  { intros i Hi. specialize (HQ i Hi). destruct (c_ph (cons s c) i); try reflexivity; contradiction. }
  destruct (get_alone ns nc caps c Hc s n idx A' last' HRc HQ' HC HP E) as (k & s' & ES & NR & EA & ELS & PI & DL & PH).
  assert (LT : forall i, In i idx -> i < ns).
  { intros i Hi. destruct (IN i Hi) as (w & W & _). exact (proj1 (arr_nth_inv _ _ _ _ W)). }
  assert (TS : forall i, i < ns -> ts_at (arr ns s) i = ts_of (slots s i)).
  { intros i Hi. apply ts_at_nth. apply arr_nth. exact Hi. }
  assert (WD : forall i, i < ns -> ts_of (slots s' i) = ts_of (slots s i) /\
       rc_of (slots s' i) = (rc_of (slots s i) + (if existsb (Nat.eqb i) idx then 1 else 0))%N).
  { intros i Hi. destruct (RW i (slots s i) (arr_nth _ _ _ Hi)) as (w' & W1 & W2 & W3 & W4).
    rewrite <- EA in W1. rewrite arr_nth in W1 by exact Hi. injection W1 as W1. subst w'. split; [exact W2|].
    destruct (existsb (Nat.eqb i) idx) eqn:X.
    - apply existsb_exists in X. destruct X as (x & X1 & X2). apply Nat.eqb_eq in X2. subst x. exact (W3 X1).
    - rewrite W4, N.add_0_r; [reflexivity|]. intros Hin. assert (existsb (Nat.eqb i) idx = true); [|congruence].
      apply existsb_exists. exists i. split; [exact Hin|apply Nat.eqb_refl]. }
  exists k, idx. cbn zeta. unfold get_new_samples. rewrite <- ES.
  split; [exact PI|]. split; [exact DL|]. split; [exact ND|].
  split; [intros i Hi; split; [exact (LT i Hi)|apply (receivable_unseen ns); [exact (LT i Hi)|exact (IN i Hi)]]|].
  split; [rewrite EL; clear; lia|]. split; [rewrite EL; clear; lia|].
  split.
  { clear - SS LT TS. induction SS as [|x l SS IH F]; constructor.
    - apply IH. intros i Hi. apply LT. right. exact Hi.
    - rewrite Forall_forall in *. intros y Hy. specialize (F y Hy). rewrite !TS in F; [exact F|apply LT; right; exact Hy|apply LT; left; reflexivity]. }
  split.
  { intros j Hj HRj HN. apply (receivable_unseen ns) in HRj; [|exact Hj]. split.
    - rewrite EL. (* the limit was reached: otherwise all unseen slots are in idx *)
      assert (GT : length idx < GetNumNewEvents (arr ns s) (c_last (cons s c))); [|rewrite EL in GT; clear - GT; lia].
      unfold GetNumNewEvents.
      assert (GF : length (filter (fun w => is_between w (c_last (cons s c)) TIMESTAMP_MAX) (arr ns s)) =
                   length (filter (fun i => is_between (slots s i) (c_last (cons s c)) TIMESTAMP_MAX) (seq 0 ns))).
      { unfold arr. clear. induction (seq 0 ns) as [|x l IH]; [reflexivity|]. cbn [map filter]. destruct (is_between (slots s x) _ _); cbn [length]; rewrite IH; reflexivity. }
      rewrite GF. apply Nat.lt_le_trans with (length (j :: idx)); [cbn; lia|].
      apply NoDup_incl_length; [constructor; assumption|]. intros i Hi.
      assert (Hi' : i < ns /\ unseen_at (arr ns s) (c_last (cons s c)) i).
      { destruct Hi as [<-|Hi]; [split; assumption|]. split; [exact (LT i Hi)|exact (IN i Hi)]. }
      destruct Hi' as [Li (w & W1 & W2)]. apply arr_nth_inv in W1. destruct W1 as [_ ->].
      apply filter_In. split; [apply in_seq; clear - Li; lia|]. rewrite is_between_btw. apply unseen_btw. exact W2.
    - intros i Hi. specialize (MX i j Hi HRj HN). rewrite !TS in MX; [exact MX|exact (LT i Hi)|exact Hj]. }
  split.
  { intros i Hi. destruct (PH i Hi) as [t Ht]. exists (sid s i).
    pose proof (Inv_r ns nc caps ls R) as HI. fold s in HI.
    destruct (IN i Hi) as (w & W1 & U1 & U2 & _). apply arr_nth_inv in W1. destruct W1 as [Li ->].
    destruct (slot_ok_pub nc _ (proj1 R) (HB_r _ _ R) s i (I_hist _ _ _ _ HI) (I_slot _ _ _ _ HI i Li) (conj U1 U2))
      as (t' & Hn & _ & _ & V & _). unfold vts in V. rewrite V, (n_hist _ _ _ NR), (n_data _ _ _ NR).
    split; [exact Hn|exists t; exact Ht]. }
  split; [exact WD|].
  split.
  { intros i Hi ((V1 & V2) & V3 & V4). destruct (WD i Hi) as [T1 T2]. rewrite T1 in V3, V4.
    assert (LL : (c_last (cons s c) <= c_last (cons s' c))%N).
    { rewrite ELS, EL'. destruct (rev idx) as [|x l] eqn:ER; [clear; lia|].
      assert (Hx : In x idx) by (apply in_rev; rewrite ER; left; reflexivity).
      rewrite TS by exact (LT x Hx). destruct (IN x Hx) as (w & W1 & _ & _ & W2 & _). apply arr_nth_inv in W1. destruct W1 as [_ ->].
      clear - W2. lia. }
    assert (RV : receivable s c i).
    { split; [|split; [clear - V3 LL; lia|exact V4]].
      split; intros Z; rewrite Z in V3; [change (ts_of INVALID_EVENT) with 0%N in V3|rewrite ts_in_writing in V3]; clear - V3; lia. }
    split; [exact RV|].
    destruct (rev idx) as [|x l] eqn:ER; [rewrite <- (rev_involutive idx), ER; reflexivity|exfalso].
    assert (Hx : In x idx) by (apply in_rev; rewrite ER; left; reflexivity).
    rewrite ELS, EL', TS in V3 by exact (LT x Hx).
    destruct (in_dec Nat.eq_dec i idx) as [Hin|Hni].
    + assert (EX : idx = rev l ++ [x]) by (rewrite <- (rev_involutive idx), ER; reflexivity).
      rewrite EX in Hin, SS. apply in_app_or in Hin. destruct Hin as [Hin|[<-|[]]]; [|clear - V3; lia].
      assert (LTX : (ts_at (arr ns s) i < ts_at (arr ns s) x)%N).
      { clear - SS Hin. induction (rev l) as [|y m IH]; [contradiction|]. cbn [app] in SS. inversion SS as [|? ? S1 S2]; subst.
        destruct Hin as [->|Hin]; [rewrite Forall_forall in S2; apply S2; apply in_or_app; right; left; reflexivity|exact (IH S1 Hin)]. }
      rewrite !TS in LTX; [clear - V3 LTX; lia|exact (LT x Hx)|exact Hi].
    + specialize (MX x i Hx (proj1 (receivable_unseen ns s c i Hi) RV) Hni). rewrite !TS in MX; [clear - V3 MX; lia|exact (LT x Hx)|exact Hi]. }
  split; [exact (n_data _ _ _ NR)|]. split; [exact (n_hist _ _ _ NR)|]. split; [exact (n_own _ _ _ NR)|exact (n_cons _ _ _ NR)].
Qed.

(** After Unsubscribe and Subscribe every available sample can be received (again). *)
Theorem C06_resubscription_receives_everything ns nc caps ls c i :
  in_range nc ls -> c < nc ->
  let s := reach ns nc caps ls in
  c_pc (cons s c) = CIdle -> (forall j, j < ns -> untouched s c j) ->
  i < ns -> available s i ->
  let s' := step ns nc s (LCResub c) in
  receivable s' c i /\ c_deliv (cons s' c) = [] /\ resting ns s' c /\ slots s' = slots s.
Proof.
  intros R Hc s HP HU Hi HA s'.
  assert (ES : s' = set_con s c (c_set_deliv (c_set_last (cons s c) 0%N) [])).
  { assert (AB : abort s = false) by (apply C19_no_precondition_violated; exact R).
    unfold s', step. rewrite AB, (proj2 (Nat.ltb_lt _ _) Hc), HP.
    replace (forallb _ (seq 0 ns)) with true; [reflexivity|]. symmetry. apply forallb_forall. intros j Hj. apply in_seq in Hj.
    rewrite (HU j) by (clear - Hj; lia). reflexivity. }
  pose proof (Inv_r ns nc caps ls R) as HI.
  assert (TB : (0 < ts_of (slots s i) /\ ts_of (slots s i) < 2 ^ 32 - 1)%N).
  { destruct (slot_ok_pub nc _ (proj1 R) (HB_r _ _ R) s i (I_hist _ _ _ _ HI) (I_slot _ _ _ _ HI i Hi) HA)
      as (t & H1 & _ & _ & V & T & _). unfold vts in V. rewrite V. split; [exact T|].
    destruct (I_hist _ _ _ _ HI _ _ (nth_error_In _ _ H1)) as [_ T2]. pose proof (HB_r _ _ R) as HB. unfold two32 in HB.
    change (2 ^ 32)%N with 4294967296%N. clear - T2 HB. lia. }
  rewrite ES. split; [|split; [cbn; rewrite fupd_eq; reflexivity|split; [|reflexivity]]].
  - split; [exact HA|]. cbn [cons set_con]. rewrite fupd_eq. cbn. exact TB.
  - split; [cbn; rewrite fupd_eq; exact HP|]. intros j Hj. cbn. rewrite fupd_eq. cbn. rewrite (HU j Hj). exact I.
Qed.

(** ** C07 *)
Lemma lp_run ns nc s : abort s = false -> step ns nc s LP = pstep ns s.
Proof. unfold step. intros ->. reflexivity. Qed.
Definition lps (ns nc : nat) (s s' : evst) : Prop := exists k, s' = run ns nc s (repeat LP k).
Lemma lps_refl ns nc s : lps ns nc s s.
Proof. exists 0. reflexivity. Qed.
Lemma lps_trans ns nc s s' s'' : lps ns nc s s' -> lps ns nc s' s'' -> lps ns nc s s''.
Proof. intros [k ->] [k' ->]. exists (k + k'). rewrite repeat_app. symmetry. apply run_app. Qed.
Lemma lps_one ns nc s s' : abort s = false -> s' = pstep ns s -> lps ns nc s s'.
Proof. intros A ->. exists 1. cbn. symmetry. apply lp_run. exact A. Qed.

Lemma pc_pc s a b : set_pc (set_pc s a) b = set_pc s b.
Proof. reflexivity. Qed.

Lemma pscan_alone ns nc s : abort s = false -> forall m i r best, i + m = ns ->
  lps ns nc (set_pc s (PScan r i best))
     (match find_oldest (map (slots s) (seq i m)) i best with
      | Some (j, w) => set_pc s (PCas r j w)
      | None => set_pc s (PScan r ns None)
      end).
Proof.
  intros AB. induction m as [|m IH]; intros i r best E.
  - cbn [seq map find_oldest]. rewrite Nat.add_0_r in E. subst i. destruct best as [[j w]|]; [|apply lps_refl].
    apply lps_one; [exact AB|]. unfold pstep. cbn [pc set_pc]. rewrite Nat.ltb_irrefl. reflexivity.
  - cbn [seq map find_oldest].
    assert (X : lps ns nc (set_pc s (PScan r i best)) (pstep ns (set_pc s (PScan r i best)))) by (apply lps_one; [exact AB|reflexivity]).
    unfold pstep in X. cbn [pc set_pc slots] in X. rewrite (proj2 (Nat.ltb_lt i ns)) in X by lia. rewrite !pc_pc in X.
    destruct (is_invalid (slots s i)) eqn:EI; [exact X|].
    eapply lps_trans; [exact X|]. apply IH. lia.
Qed.

(** Allocate, called in any reachable state while nobody else moves: if some slot is
    free, it returns one, a never used one if there is one, else the free one with the
    oldest sample; the user then owns it for writing and no other slot changed. *)
Theorem C07_undisturbed_allocate_succeeds ns nc caps ls :
  in_range nc ls ->
  let s := reach ns nc caps ls in
  pc s = PIdle -> (exists j, j < ns /\ free_slot (slots s j)) ->
  exists k i, let s' := run ns nc s (allocate k) in
    i < ns /\ free_slot (slots s i) /\ pc s' = PIdle /\ allocated s' i /\ slots s' i = IN_WRITING /\
    (forall j, j <> i -> slots s' j = slots s j /\ own s' j = own s j) /\
    ((exists j, j < ns /\ slots s j = INVALID_EVENT) -> slots s i = INVALID_EVENT) /\
    (~ (exists j, j < ns /\ slots s j = INVALID_EVENT) ->
       forall j, j < ns -> free_slot (slots s j) -> (ts_of (slots s i) <= ts_of (slots s j))%N) /\
    data s' = data s /\ hist s' = hist s /\ cur s' = cur s /\ cons s' = cons s.
Proof.
  intros R s HP (j0 & Hj0 & HF0).
  assert (AB : abort s = false) by (apply C19_no_precondition_violated; exact R).
  pose proof (Inv_r ns nc caps ls R) as HI. fold s in HI.
  assert (TB : forall w, In w (arr ns s) -> free_slot w -> (ts_of w < 2 ^ 32 - 1)%N).
  { intros w Hw _. apply In_nth_error in Hw. destruct Hw as [i Hw]. apply arr_nth_inv in Hw. destruct Hw as [Hi ->].
    destruct (N.eq_dec (slots s i) INVALID_EVENT) as [->|N1]; [reflexivity|].
    destruct (N.eq_dec (slots s i) IN_WRITING) as [->|N2]; [reflexivity|].
    destruct (slot_ok_pub nc _ (proj1 R) (HB_r _ _ R) s i (I_hist _ _ _ _ HI) (I_slot _ _ _ _ HI i Hi) (conj N1 N2))
      as (t & H1 & _ & _ & V & _). unfold vts in V. rewrite V.
    destruct (I_hist _ _ _ _ HI _ _ (nth_error_In _ _ H1)) as [_ T2]. pose proof (HB_r _ _ R) as HB. unfold two32 in HB.
    change (2 ^ 32)%N with 4294967296%N. clear - T2 HB. lia. }
  destruct (C07_allocate_takes_unused_or_oldest_free (arr ns s) TB) as (i & w & NE & FR & EQ & INV & OLD).
  { exists (slots s j0). split; [|exact HF0]. eapply nth_error_In. apply arr_nth. exact Hj0. }
  apply arr_nth_inv in NE. destruct NE as [Hi ->].
  unfold AllocateNextSlot_quiet, FindOldestUnusedSlot in EQ.
  pose proof (pscan_alone ns nc s AB ns 0 0 None eq_refl) as SC. fold (arr ns s) in SC.
  destruct (find_oldest (arr ns s) 0 None) as [[i' w']|] eqn:FO; [|discriminate].
  injection EQ as ->.
  assert (EW : w' = slots s i).
  { pose proof (find_oldest_spec (arr ns s) 0 None _ (fun i w E => ltac:(discriminate E)) eq_refl) as HS. rewrite FO in HS.
    destruct HS as [(_ & _ & H3)|(_ & _ & [H3|[_ H3]] & _)]; [| discriminate |]; rewrite Nat.sub_0_r in H3;
      apply arr_nth_inv in H3; exact (proj2 H3). }
  assert (X : lps ns nc (set_pc s (PScan 0 0 None)) (pstep ns (set_pc s (PCas 0 i w')))).
  { eapply lps_trans; [exact SC|]. apply lps_one; [exact AB|reflexivity]. }
  unfold pstep in X. cbn [pc set_pc slots own] in X. rewrite EW, N.eqb_refl in X.
  destruct X as [k EK]. exists k, i. unfold allocate. cbn zeta.
  assert (ES : run ns nc s (LPAlloc :: repeat LP k) = run ns nc (set_pc s (PScan 0 0 None)) (repeat LP k)).
  { cbn [run fold_left]. unfold step at 2. rewrite AB, HP. reflexivity. }
  rewrite ES, <- EK. unfold allocated. cbn.
  split; [exact Hi|]. split; [exact FR|]. split; [reflexivity|]. split; [apply fupd_eq|]. split; [apply fupd_eq|].
  split; [intros j Hj; rewrite !fupd_neq by exact Hj; split; reflexivity|].
  split; [|split; [|repeat split; reflexivity]].
  - intros (j & Hj & EJ). apply INV. exists INVALID_EVENT. split; [|reflexivity]. rewrite <- EJ. eapply nth_error_In. apply arr_nth. exact Hj.
  - intros HN j Hj FJ. apply OLD; [|eapply nth_error_In; apply arr_nth; exact Hj|exact FJ].
    intros (x & Hx & EX). apply HN. apply In_nth_error in Hx. destruct Hx as [jj Hx]. apply arr_nth_inv in Hx. destruct Hx as [Hjj ->].
    exists jj. split; assumption.
Qed.

(** ... and if no slot is free it returns without one and changes nothing. *)
Theorem C07_undisturbed_allocate_fails_without_free_slot ns nc caps ls :
  in_range nc ls ->
  let s := reach ns nc caps ls in
  pc s = PIdle -> (forall j, j < ns -> ~ free_slot (slots s j)) ->
  exists k, run ns nc s (allocate k) = s.
Proof.
  intros R s HP HF.
  assert (AB : abort s = false) by (apply C19_no_precondition_violated; exact R).
  assert (FO : find_oldest (arr ns s) 0 None = None).
  { pose proof (C07_allocate_fails_only_without_free_slot (arr ns s)) as X.
    unfold AllocateNextSlot_quiet, FindOldestUnusedSlot in X.
    destruct (find_oldest (arr ns s) 0 None) as [[i w]|]; [|reflexivity].
    discriminate X. intros w' Hw'. apply In_nth_error in Hw'. destruct Hw' as [j Hj]. apply arr_nth_inv in Hj. destruct Hj as [Hj ->]. exact (HF j Hj). }
  assert (P : forall m r, r + m = MAX_ALLOCATE_RETRIES -> lps ns nc (set_pc s (PScan r 0 None)) (set_pc s PIdle)).
  { induction m as [|m IH]; intros r E.
    - pose proof (pscan_alone ns nc s AB ns 0 r None eq_refl) as SC. fold (arr ns s) in SC. rewrite FO in SC.
      eapply lps_trans; [exact SC|]. apply lps_one; [exact AB|]. unfold pstep. cbn [pc set_pc]. rewrite Nat.ltb_irrefl.
      unfold p_retry. replace (S r <=? MAX_ALLOCATE_RETRIES) with false; [reflexivity|]. symmetry. apply Nat.leb_gt. clear - E. lia.
    - pose proof (pscan_alone ns nc s AB ns 0 r None eq_refl) as SC. fold (arr ns s) in SC. rewrite FO in SC.
      eapply lps_trans; [exact SC|]. eapply lps_trans; [|apply (IH (S r)); clear - E; lia].
      apply lps_one; [exact AB|]. unfold pstep. cbn [pc set_pc]. rewrite Nat.ltb_irrefl.
      unfold p_retry. replace (S r <=? MAX_ALLOCATE_RETRIES) with true; [reflexivity|]. symmetry. apply Nat.leb_le. clear - E. lia. }
  destruct (P MAX_ALLOCATE_RETRIES 0 eq_refl) as [k EK]. exists k. unfold allocate.
  assert (ES : run ns nc s (LPAlloc :: repeat LP k) = run ns nc (set_pc s (PScan 0 0 None)) (repeat LP k)).
  { cbn [run fold_left]. unfold step at 2. rewrite AB, HP. reflexivity. }
  rewrite ES, <- EK. clear - HP. destruct s. cbn in *. subst. reflexivity.
Qed.

(** Allocate with others running: the provider is inside the call in every state of the schedule. *)
Definition in_allocate (s : evst) : bool := match pc s with PScan _ _ _ | PCas _ _ _ => true | _ => false end.
Fixpoint inside_allocate (ns nc : nat) (s : evst) (ls : list label) : Prop :=
  match ls with
  | [] => True
  | l :: r => in_allocate s = true /\ inside_allocate ns nc (step ns nc s l) r
  end.
(** The step ends an unsuccessful attempt: the search saw no free slot, or the slot it
    had found is no longer what it was. *)
Definition attempt_lost (ns : nat) (s : evst) (l : label) : bool :=
  match l, pc s with
  | LP, PScan _ i None => ns <=? i
  | LP, PCas _ i w => negb (slots s i =? w)%N
  | _, _ => false
  end.
Fixpoint lost_attempts (ns nc : nat) (s : evst) (ls : list label) : nat :=
  match ls with
  | [] => 0
  | l :: r => (if attempt_lost ns s l then 1 else 0) + lost_attempts ns nc (step ns nc s l) r
  end.

Definition retry_of (s : evst) : nat := match pc s with PScan r _ _ | PCas r _ _ => r | _ => 0 end.

Lemma pstep_alloc ns nc s l : abort s = false -> in_allocate s = true ->
  let s' := step ns nc s l in
  (in_allocate s' = true /\ own s' = own s /\
     retry_of s' = retry_of s + (if attempt_lost ns s l then 1 else 0)) \/
  pc s' = PDead \/
  (pc s' = PIdle /\ ((exists i r w, l = LP /\ pc s = PCas r i w /\ slots s i = w /\ own s' = fupd (own s) i true) \/
                     (own s' = own s /\ attempt_lost ns s l = true /\ MAX_ALLOCATE_RETRIES <= retry_of s))).
Proof.
  intros AB HA s'. assert (G : forall l', l' <> LP -> l' <> LPCrash -> pc (step ns nc s l') = pc s /\ own (step ns nc s l') = own s).
  { intros l' N1 N2. unfold step. rewrite AB. unfold in_allocate in HA. destruct (pc s) eqn:EP; try discriminate HA;
    destruct l'; try congruence; try (split; [exact EP|reflexivity]);
    repeat match goal with |- context [if ?b then _ else _] => destruct b | |- context [match c_ph ?a ?b with _ => _ end] => destruct (c_ph a b)
      | |- context [match c_pc ?a with _ => _ end] => destruct (c_pc a) eqn:?  | |- context [match ?n with O => _ | S _ => _ end] => is_var n; destruct n end; 
      try (split; [exact EP|reflexivity]); try (rewrite <- EP; exact (own_cstep ns s c spur)). }
  destruct l; try (left; unfold s'; match goal with |- context [step ns nc s ?l] => destruct (G l ltac:(discriminate) ltac:(discriminate)) as [G1 G2] end;
    unfold in_allocate, retry_of; rewrite G1, G2; split; [exact HA|split; [reflexivity|cbn; lia]]).
  - unfold s', step. rewrite AB. unfold pstep, attempt_lost, in_allocate, retry_of in *. destruct (pc s) as [|r i best|r i w| | | | | | |] eqn:EP; try discriminate HA.
    + destruct (i <? ns) eqn:EI.
      * left. replace (ns <=? i) with false by (symmetry; apply Nat.leb_gt; apply Nat.ltb_lt in EI; lia).
        destruct (is_invalid (slots s i)), best as [[]|]; cbn; repeat split; lia.
      * replace (ns <=? i) with true by (symmetry; apply Nat.leb_le; apply Nat.ltb_ge in EI; lia).
        destruct best as [[j w]|]; [left; cbn; repeat split; lia|]. unfold p_retry.
        destruct (S r <=? MAX_ALLOCATE_RETRIES) eqn:EM; [left; cbn; repeat split; lia|].
        right; right. split; [reflexivity|]. right. split; [reflexivity|]. split; [reflexivity|]. apply Nat.leb_gt in EM. lia.
    + destruct (slots s i =? w)%N eqn:EW.
      * right; right. split; [reflexivity|]. left. exists i, r, w. apply N.eqb_eq in EW. repeat split; assumption || reflexivity.
      * unfold p_retry. destruct (S r <=? MAX_ALLOCATE_RETRIES) eqn:EM; [left; cbn; repeat split; lia|].
        right; right. split; [reflexivity|]. right. split; [reflexivity|]. split; [reflexivity|]. apply Nat.leb_gt in EM. lia.
  - right. left. unfold s', step. rewrite AB. reflexivity.
Qed.

(** However the schedule interferes, Allocate returns without a slot only after
    101 unsuccessful attempts; otherwise it returns a slot that was not allocated before. *)
Theorem C07_allocate_gives_up_only_after_101_attempts ns nc caps ls ls' :
  in_range nc (ls ++ LPAlloc :: ls') ->
  let s := reach ns nc caps ls in
  pc s = PIdle ->
  let s0 := step ns nc s LPAlloc in
  inside_allocate ns nc s0 ls' ->
  let s' := run ns nc s0 ls' in
  pc s' = PIdle ->
  (exists i, i < ns /\ ~ allocated s i /\ allocated s' i) \/
  (own s' = own s /\ 101 <= lost_attempts ns nc s0 ls').
Proof.
  intros R s HP s0 HI s' HP'.
  assert (RP : forall a b, ls' = a ++ b -> in_range nc (ls ++ LPAlloc :: a)).
  { intros a b E. destruct R as [R1 R2]. split; [exact R1|]. subst ls'. unfold send_calls in *.
    rewrite filter_app, app_length in R2. rewrite filter_app, app_length. cbn [filter is_send_label] in *.
    rewrite filter_app, app_length in R2. clear - R2. lia. }
  assert (AB0 : abort s = false).
  { apply C19_no_precondition_violated. destruct (RP [] ls' eq_refl) as [R1 R2]. split; [exact R1|].
    unfold send_calls in *. rewrite filter_app, app_length in R2. clear - R2. lia. }
  assert (S0 : s0 = set_pc s (PScan 0 0 None)) by (unfold s0, step; rewrite AB0, HP; reflexivity).
  assert (KEY : forall b a t, ls' = a ++ b -> t = run ns nc s0 a -> inside_allocate ns nc t b -> own t = own s ->
     (pc t <> PIdle) -> pc (run ns nc t b) = PIdle ->
     (exists i, i < ns /\ ~ allocated s i /\ allocated (run ns nc t b) i) \/
     (own (run ns nc t b) = own s /\ S MAX_ALLOCATE_RETRIES <= retry_of t + lost_attempts ns nc t b)).
  { induction b as [|l b IH]; intros a t E ET IA OW NI PE; [contradiction|].
    cbn [inside_allocate] in IA. destruct IA as [IA1 IA2]. cbn [run fold_left lost_attempts] in *. fold (run ns nc (step ns nc t l) b) in *.
    assert (RT : in_range nc (ls ++ LPAlloc :: a)) by (exact (RP a (l :: b) E)).
    assert (ET' : t = reach ns nc caps (ls ++ LPAlloc :: a)).
    { rewrite ET. unfold reach. rewrite run_app. reflexivity. }
    assert (ABT : abort t = false) by (rewrite ET'; apply C19_no_precondition_violated; exact RT).
    assert (DONE : in_allocate (step ns nc t l) = false -> b = []).
    { intros X. destruct b as [|x b]; [reflexivity|]. cbn [inside_allocate] in IA2. destruct IA2 as [IA2 _]. congruence. }
    destruct (pstep_alloc ns nc t l ABT IA1) as [(X1 & X2 & X3)|[X|[X [(i & r & w & -> & Y1 & Y2 & Y3)|(Y1 & Y2 & Y3)]]]].
    - assert (ET1 : step ns nc t l = run ns nc s0 (a ++ [l])) by (rewrite run_app, <- ET; reflexivity).
      destruct (IH (a ++ [l]) _ ltac:(rewrite <- app_assoc; exact E) ET1 IA2) as [Z|[Z1 Z2]].
      + congruence.
      + intros Z. unfold in_allocate in X1. rewrite Z in X1. discriminate.
      + exact PE.
      + left. exact Z.
      + right. split; [exact Z1|]. rewrite X3 in Z2. clear - Z2. lia.
    - assert (b = []) by (apply DONE; unfold in_allocate; rewrite X; reflexivity). subst b. cbn [run fold_left] in PE. congruence.
    - assert (b = []) by (apply DONE; unfold in_allocate; rewrite X; reflexivity). subst b. left. exists i. cbn [run fold_left].
      pose proof (Inv_r ns nc caps _ RT) as HI'. rewrite <- ET' in HI'.
      assert (PK : i < ns /\ w <> IN_WRITING).
      { pose proof (I_pc _ _ _ _ HI') as P. unfold pc_p_ok in P. rewrite Y1 in P. tauto. }
      split; [exact (proj1 PK)|]. unfold allocated. rewrite Y3, fupd_eq. split; [|reflexivity].
      rewrite <- OW. intros O. destruct (I_slot _ _ _ _ HI' i (proj1 PK)) as [(Z & _)|[(_ & Z & _)|(z & _ & _ & Z)]]; [|congruence|congruence].
      apply (proj2 PK). congruence.
    - assert (b = []) by (apply DONE; unfold in_allocate; rewrite X; reflexivity). subst b. right. cbn [run fold_left lost_attempts].
      rewrite Y2. split; [congruence|]. clear - Y3. lia. }
  destruct (KEY ls' [] s0 eq_refl eq_refl HI) as [Z|[Z1 Z2]].
  - rewrite S0. reflexivity.
  - rewrite S0. discriminate.
  - exact HP'.
  - left. exact Z.
  - right. split; [exact Z1|]. rewrite S0 in Z2 at 1. exact Z2.
Qed.

(** ** Concrete cases *)
(** three slots, one consumer with two subscribed samples; three samples are sent *)
Definition send_one (i : nat) (v : N) : list label := LPAlloc :: repeat LP 4 ++ [LPWrite i v; LPSend i; LP; LP].
Definition three_sent : list label := send_one 0 70%N ++ [LP] ++ send_one 1 80%N ++ [LP] ++ send_one 2 90%N.
Definition st3 : evst := reach 3 1 (fun _ => 2) three_sent.
Example ex_C06_resting : in_range 1 three_sent /\ resting 3 st3 0 /\ c_cap (cons st3 0) = 2 /\
  length (hist st3) = 3 /\ receivable st3 0 0 /\ receivable st3 0 1 /\ receivable st3 0 2.
Proof.
  split; [split; vm_compute; reflexivity|]. split.
  - split; [vm_compute; reflexivity|]. intros i Hi. do 3 (destruct i as [|i]; [vm_compute; exact I|]). lia.
  - do 2 (split; [vm_compute; reflexivity|]). repeat split; vm_compute; congruence.
Qed.
Example ex_C06_call : c_deliv (cons (run 3 1 st3 (get_new_samples 0 5 100)) 0) = [1; 2] /\
  c_deliv (cons (run 3 1 st3 (get_new_samples 0 1 100)) 0) = [2].
Proof. vm_compute. split; reflexivity. Qed.

(** after that call the consumer destroys its samples and subscribes again *)
Definition deref (c i : nat) : list label := [LDerefBegin c i; LDerefSub c i; LDerefCommit c i].
Definition before_resub : list label := three_sent ++ get_new_samples 0 5 100 ++ deref 0 1 ++ deref 0 2.
Example ex_C06_resub : let s := reach 3 1 (fun _ => 2) before_resub in
  c_pc (cons s 0) = CIdle /\ (forall j, j < 3 -> untouched s 0 j) /\ available s 2 /\
  ~ receivable s 0 2 /\ in_range 1 before_resub.
Proof.
  cbn zeta. split; [vm_compute; reflexivity|]. split.
  - intros i Hi. do 3 (destruct i as [|i]; [vm_compute; reflexivity|]). lia.
  - split; [split; vm_compute; congruence|]. split; [intros (_ & X & _); vm_compute in X; congruence|split; vm_compute; reflexivity].
Qed.

(** the third slot is taken by the oldest sample when all were used; with every slot held Allocate fails *)
Example ex_C07_undisturbed : pc st3 = PIdle /\ free_slot (slots st3 1) /\
  allocated (run 3 1 st3 (allocate 5)) 0.
Proof. split; [vm_compute; reflexivity|]. split; [split; vm_compute; congruence|vm_compute; reflexivity]. Qed.
Definition all_held : list label := send_one 0 70%N ++ [LP] ++ get_new_samples 0 1 20.
Example ex_C07_all_held : let s := reach 1 1 (fun _ => 1) all_held in
  pc s = PIdle /\ (forall j, j < 1 -> ~ free_slot (slots s j)) /\
  inside_allocate 1 1 (step 1 1 s LPAlloc) (repeat LP 202) /\
  pc (run 1 1 s (allocate 202)) = PIdle /\ lost_attempts 1 1 (step 1 1 s LPAlloc) (repeat LP 202) = 101 /\
  in_range 1 (all_held ++ LPAlloc :: repeat LP 202).
Proof.
  cbn zeta. split; [vm_compute; reflexivity|]. split.
  - intros i Hi. destruct i as [|i]; [|lia]. intros [X _]. vm_compute in X. congruence.
  - split; [vm_compute; repeat split|]. repeat split; vm_compute; reflexivity.
Qed.

Print Assumptions C06_undisturbed_call_delivers_newest.
Print Assumptions C06_resubscription_receives_everything.
Print Assumptions C07_undisturbed_allocate_succeeds.
Print Assumptions C07_undisturbed_allocate_fails_without_free_slot.
Print Assumptions C07_allocate_gives_up_only_after_101_attempts.
