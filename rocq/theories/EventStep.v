(** Every step of the event machine preserves the invariant. *)
From Verif Require Import SlotModel SlotWord EventModel EventInv EventProofs.
From Coq Require Import Sorting.Sorted.

Ltac Zify.zify_post_hook ::= Z.div_mod_to_equations.

Section P.
Variables (ns nc : nat) (B : N).
Hypothesis Hnc : (N.of_nat nc < two32 - 1)%N.
Hypothesis HB : (B < two32 - 1)%N.
Notation Inv := (Inv ns nc B).

(** ** Provider *)

Lemma inv_pc s p :
  Inv s -> (alive p = true -> alive (pc s) = true) -> pc_p_ok ns B (set_pc s p) -> Inv (set_pc s p).
Proof.
  intros [Ia Is Ih Isid Iinj Iord Iown Icur Icm Ipc Ic] Hal Hpc.
  split; try assumption.
  - intros Ha. apply Icm. apply Hal. exact Ha.
  - intros c Hc. eapply cons_ok_frame; [exact (Ic c Hc)|auto|intros; left; auto|reflexivity].
Qed.

Lemma not_counted s c i : Inv s -> c < nc -> refs nc s i = 0 -> counted (c_ph (cons s c) i) = false.
Proof. intros _ Hc H. unfold refs in H. rewrite countb_zero in H. auto. Qed.

(** The provider takes slot [i] out of the published set. *)
Lemma inv_unpub s i w' b p :
  Inv s -> i < ns -> refs nc s i = 0 ->
  (w' = IN_WRITING /\ b = true \/ w' = INVALID_EVENT /\ b = false) ->
  (alive p = true -> alive (pc s) = true) ->
  let s' := set_pc (set_own (set_slots s (fupd (slots s) i w')) (fupd (own s) i b)) p in
  pc_p_ok ns B s' -> Inv s'.
Proof.
  intros HI Hi Hr Hw Hal s' Hpc. pose proof HI as HI0.
  destruct HI as [Ia Is Ih Isid Iinj Iord Iown Icur Icm Ipc Ic].
  assert (HSi : forall j, j <> i -> slots s' j = slots s j) by (intros; cbn; apply fupd_neq; assumption).
  assert (HOi : forall j, j <> i -> own s' j = own s j) by (intros; cbn; apply fupd_neq; assumption).
  assert (Hnp : ~ published s' i).
  { intros [P1 P2]. cbn in P1, P2. rewrite fupd_eq in P1, P2. destruct Hw as [[-> _]|[-> _]]; congruence. }
  assert (HP : forall j, published s' j -> j <> i /\ published s j /\ vts s' j = vts s j).
  { intros j Pj. assert (j <> i) by (intros ->; contradiction). split; [assumption|].
    unfold published, vts in *. rewrite HSi in * by assumption. auto. }
  split; try assumption.
  - intros j Hj. destruct (Nat.eq_dec j i) as [->|Hne].
    + unfold slot_ok. change (refs nc s' i) with (refs nc s i). cbn. rewrite !fupd_eq.
      destruct Hw as [[-> ->]|[-> ->]]; [left|right; left]; auto.
    + unfold slot_ok. change (refs nc s' j) with (refs nc s j). rewrite HSi, HOi by assumption. exact (Is j Hj).
  - intros j Hj Pj. destruct (HP j Pj) as (? & ? & ?). exact (Isid j Hj H0).
  - intros j j' Hj Hj' Pj Pj'. destruct (HP j Pj) as (? & ? & ?). destruct (HP j' Pj') as (? & ? & ?). apply Iinj; assumption.
  - intros j j' Hj Hj' Pj Pj'. destruct (HP j Pj) as (? & ? & V). destruct (HP j' Pj') as (? & ? & V').
    rewrite V, V'. apply Iord; assumption.
  - intros j Hj. destruct (Nat.eq_dec j i) as [->|Hne]; [assumption|]. rewrite HOi in Hj by assumption. auto.
  - intros Ha j Hj Pj. destruct (HP j Pj) as (? & ? & V). rewrite V. apply Icm; auto.
  - intros c Hc. eapply cons_ok_frame; [exact (Ic c Hc)| | |reflexivity].
    + intros j Hj Hcj. assert (j <> i).
      { intros ->. pose proof (not_counted s c i HI0 Hc Hr) as Q. cbn in Hcj. congruence. }
      split; [unfold vts; rewrite HSi by assumption; reflexivity|reflexivity].
    + intros j Hj Pj. left. destruct (HP j Pj) as (? & ? & ?). auto.
Qed.

(** The provider publishes the owned slot [i] under the fresh timestamp [t]. *)
Lemma inv_publish s i t :
  Inv s -> i < ns -> own s i = true -> t = cur s -> (0 < t)%N ->
  (forall j, j < ns -> published s j -> (vts s j < t)%N) -> alive (pc s) = true ->
  Inv (set_pc (set_pub (set_own (set_slots s (fupd (slots s) i (mk_status t 0))) (fupd (own s) i false))
        (hist s ++ [(t, data s i)]) (fupd (sid s) i (length (hist s)))) (PDisc i)).
Proof.
  intros HI Hi Ho Et Ht Hlt Hal. pose proof HI as HI0.
  destruct HI as [Ia Is Ih Isid Iinj Iord Iown Icur Icm Ipc Ic].
  assert (Hr : refs nc s i = 0 /\ slots s i = IN_WRITING).
  { destruct (Is i Hi) as [(? & ? & ?)|[(? & ? & ?)|(? & ? & ? & ?)]]; [auto|congruence|congruence]. }
  destruct Hr as [Hr Hw].
  rewrite mk_status_word by (unfold two32 in *; lia).
  set (s' := set_pc _ _).
  assert (HSi : forall j, j <> i -> slots s' j = slots s j) by (intros; cbn; apply fupd_neq; assumption).
  assert (HDi : forall j, j <> i -> sid s' j = sid s j) by (intros; cbn; apply fupd_neq; assumption).
  assert (HOi : forall j, j <> i -> own s' j = own s j) by (intros; cbn; apply fupd_neq; assumption).
  assert (Hsi : sid s' i = length (hist s)) by (cbn; apply fupd_eq).
  assert (Hwi : slots s' i = word t 0) by (cbn; apply fupd_eq).
  assert (Hvi : vts s' i = t) by (unfold vts; rewrite Hwi; apply ts_word; reflexivity).
  assert (HP : forall j, j <> i -> published s' j -> published s j /\ vts s' j = vts s j).
  { intros j Hne Pj. unfold published, vts in *. rewrite HSi in * by assumption. auto. }
  split.
  - exact Ia.
  - intros j Hj. unfold slot_ok. change (refs nc s' j) with (refs nc s j).
    destruct (Nat.eq_dec j i) as [->|Hne].
    + right; right. exists t. rewrite Hsi, Hwi, Hr. cbn. rewrite fupd_eq. split; [|auto].
      rewrite nth_error_app2 by lia. rewrite Nat.sub_diag. reflexivity.
    + rewrite HSi, HOi by assumption. destruct (Is j Hj) as [H|[H|(t' & Hn & E & O)]]; [auto|auto|].
      right; right. exists t'. rewrite HDi by assumption. split; [|auto].
      cbn. rewrite nth_error_app1; [exact Hn|]. apply nth_error_Some. congruence.
  - intros t' v H. cbn in H. apply in_app_or in H. destruct H as [H|[H|[]]]; [exact (Ih _ _ H)|].
    injection H as <- <-. lia.
  - intros j Hj Pj. cbn. rewrite app_length. cbn. destruct (Nat.eq_dec j i) as [->|Hne].
    + rewrite fupd_eq. lia.
    + rewrite fupd_neq by assumption. destruct (HP j Hne Pj) as [P _]. pose proof (Isid j Hj P). lia.
  - intros j j' Hj Hj' Pj Pj' E.
    destruct (Nat.eq_dec j i) as [->|Hne]; destruct (Nat.eq_dec j' i) as [->|Hne']; try reflexivity.
    + rewrite Hsi, HDi in E by assumption. destruct (HP j' Hne' Pj') as [P _]. pose proof (Isid j' Hj' P). lia.
    + rewrite Hsi, HDi in E by assumption. destruct (HP j Hne Pj) as [P _]. pose proof (Isid j Hj P). lia.
    + rewrite !HDi in E by assumption. destruct (HP j Hne Pj) as [P _]. destruct (HP j' Hne' Pj') as [P' _].
      apply Iinj; assumption.
  - intros j j' Hj Hj' Pj Pj' E.
    destruct (Nat.eq_dec j i) as [->|Hne]; destruct (Nat.eq_dec j' i) as [->|Hne'].
    + lia.
    + rewrite Hsi, HDi in E by assumption. destruct (HP j' Hne' Pj') as [P _]. pose proof (Isid j' Hj' P). lia.
    + rewrite Hvi. destruct (HP j Hne Pj) as [P ->]. apply Hlt; assumption.
    + rewrite !HDi in E by assumption. destruct (HP j Hne Pj) as [P ->]. destruct (HP j' Hne' Pj') as [P' ->].
      apply Iord; assumption.
  - intros j Hj. destruct (Nat.eq_dec j i) as [->|Hne]; [assumption|]. rewrite HOi in Hj by assumption. auto.
  - exact Icur.
  - intros _ j Hj Pj. change (cur s') with (cur s). destruct (Nat.eq_dec j i) as [->|Hne].
    + lia.
    + destruct (HP j Hne Pj) as [P ->]. apply Icm; assumption.
  - exact Hi.
  - intros c Hc. eapply cons_ok_frame; [exact (Ic c Hc)| | |].
    + intros j Hj Hcj. assert (j <> i).
      { intros ->. pose proof (not_counted s c i HI0 Hc Hr) as Q. cbn in Hcj. congruence. }
      split; [unfold vts; rewrite HSi by assumption; reflexivity|apply HDi; assumption].
    + intros j Hj Pj. destruct (Nat.eq_dec j i) as [->|Hne].
      * right. lia.
      * left. destruct (HP j Hne Pj). auto.
    + cbn. rewrite app_length. lia.
Qed.

Lemma inv_data s i v : Inv s -> own s i = true -> Inv (set_data s (fupd (data s) i v)).
Proof.
  intros [Ia Is Ih Isid Iinj Iord Iown Icur Icm Ipc Ic] Ho.
  split; try assumption.
  - intros j Hj. unfold slot_ok. change (refs nc (set_data s (fupd (data s) i v)) j) with (refs nc s j).
    destruct (Is j Hj) as [H|[H|(t & Hn & E & O)]]; [auto|auto|].
    right; right. exists t. split; [|auto]. cbn. rewrite fupd_neq; [exact Hn|]. intros ->. congruence.
  - intros c Hc. eapply cons_ok_frame; [exact (Ic c Hc)|auto|intros; left; auto|reflexivity].
Qed.

Lemma inv_p_retry s r : Inv s -> alive (pc s) = true -> Inv (p_retry s r).
Proof.
  intros HI Ha. unfold p_retry. destruct (S r <=? MAX_ALLOCATE_RETRIES);
  (apply inv_pc; [assumption|intros; exact Ha|exact I]).
Qed.

Lemma latest_acc_ge acc w : (acc <= latest_acc acc w)%N.
Proof.
  unfold latest_acc. destruct (negb (is_invalid w) && negb (is_in_writing w) && (acc <? ts_of w)%N) eqn:E; [|lia].
  rewrite !andb_true_iff, N.ltb_lt in E. lia.
Qed.

Lemma inv_pstep s : Inv s -> Inv (pstep ns s).
Proof.
  intros HI. pose proof HI as HI0. destruct HI as [Ia Is Ih Isid Iinj Iord Iown Icur Icm Ipc Ic].
  unfold pstep. unfold pc_p_ok in Ipc. destruct (pc s) eqn:Epc; try assumption.
  - (* PScan *)
    assert (Ha : alive (pc s) = true) by (rewrite Epc; reflexivity).
    destruct (Nat.ltb_spec i ns) as [Hi|Hi].
    + destruct (is_invalid (slots s i)) eqn:Einv.
      * apply inv_pc; [assumption|intros; assumption|]. apply is_invalid_true in Einv. rewrite Einv.
        cbn. repeat split; [assumption|discriminate].
      * apply inv_pc; [assumption|intros; assumption|]. cbn.
        unfold scan_oldest. destruct ((rc_of (slots s i) =? 0)%N && negb (is_in_writing (slots s i)) && _) eqn:E; [|assumption].
        rewrite !andb_true_iff, negb_true_iff, N.eqb_eq in E. destruct E as ((E1 & E2) & _).
        repeat split; [assumption| |assumption]. intros C. rewrite C in E2. discriminate.
    + destruct best as [[j w]|].
      * apply inv_pc; [assumption|intros; assumption|]. cbn. assumption.
      * apply inv_p_retry; assumption.
  - (* PCas *)
    assert (Ha : alive (pc s) = true) by (rewrite Epc; reflexivity).
    destruct Ipc as (Hi & Hw & Hrc).
    destruct (N.eqb_spec (slots s i) w) as [E|]; [|apply inv_p_retry; assumption].
    apply inv_unpub; try assumption.
    + destruct (Is i Hi) as [(? & ? & ?)|[(? & ? & ?)|(t & Hn & E' & Ho)]]; [congruence|assumption|].
      rewrite <- E, E', rc_word in Hrc by (eapply refs_small'; eassumption). lia.
    + auto.
    + intros; assumption.
    + exact I.
  - (* PReady *)
    destruct Ipc as (Hi & Ho & Et & Ht & Hlt).
    apply inv_publish; try assumption. rewrite Epc; reflexivity.
  - (* PDisc *)
    destruct (is_in_writing (slots s i)) eqn:E.
    + apply inv_pc; [assumption|intros; rewrite Epc; reflexivity|]. cbn. split; [assumption|].
      apply is_in_writing_true; assumption.
    + apply inv_pc; [assumption|intros; rewrite Epc; reflexivity|]. exact I.
  - (* PDiscSt *)
    destruct Ipc as (Hi & Hw). apply inv_unpub; try assumption.
    + destruct (Is i Hi) as [(? & ? & ?)|[(? & ? & ?)|(t & Hn & E' & Ho)]]; [assumption|assumption|].
      exfalso. assert (published s i) as [P1 P2] by (eapply slot_ok_third_pub; eauto). congruence.
    + auto.
    + intros; rewrite Epc; reflexivity.
    + exact I.
  - (* PClean *)
    destruct (Nat.ltb_spec i ns) as [Hi|Hi].
    + destruct (is_in_writing (slots s i)) eqn:E.
      * apply inv_pc; [assumption|discriminate|]. cbn. split; [assumption|]. apply is_in_writing_true; assumption.
      * apply inv_pc; [assumption|discriminate|]. exact I.
    + apply inv_pc; [assumption|discriminate|]. cbn. split; [unfold INVALID_TIMESTAMP; lia|intros; lia].
  - (* PCleanCas *)
    destruct Ipc as (Hi & Hw). rewrite (proj2 (N.eqb_eq _ _) Hw).
    apply inv_unpub; try assumption.
    + destruct (Is i Hi) as [(? & ? & ?)|[(? & ? & ?)|(t & Hn & E' & Ho)]]; [assumption|assumption|].
      exfalso. assert (published s i) as [P1 P2] by (eapply slot_ok_third_pub; eauto). congruence.
    + auto.
    + discriminate.
    + exact I.
  - (* PLatest *)
    destruct Ipc as (Hacc & Hmax).
    destruct (Nat.ltb_spec i ns) as [Hi|Hi].
    + apply inv_pc; [assumption|discriminate|]. cbn. split.
      * unfold latest_acc. destruct (negb (is_invalid (slots s i)) && negb (is_in_writing (slots s i)) && _) eqn:E; [|assumption].
        rewrite !andb_true_iff, !negb_true_iff in E. destruct E as ((E1 & E2) & _).
        assert (P : published s i).
        { split; intros C; rewrite C in *; discriminate. }
        destruct (slot_ok_pub nc B Hnc HB s i Ih (Is i Hi) P) as (t & _ & _ & _ & V & _ & HtB). unfold vts in V. lia.
      * intros j Hj Hjn P. destruct (Nat.eq_dec j i) as [->|Hne].
        -- unfold latest_acc. change (vts _ i) with (ts_of (slots s i)).
           destruct P as [P1 P2]. cbn in P1, P2.
           destruct (is_invalid (slots s i)) eqn:E1; [apply is_invalid_true in E1; contradiction|].
           destruct (is_in_writing (slots s i)) eqn:E2; [apply is_in_writing_true in E2; contradiction|].
           cbn. destruct (N.ltb_spec acc (ts_of (slots s i))); lia.
        -- pose proof (latest_acc_ge acc (slots s i)). specialize (Hmax j ltac:(lia) Hjn P).
           change (vts _ j) with (vts s j). lia.
    + split; try assumption.
      * intros _ j Hj P. apply Hmax; [lia|assumption|exact P].
      * exact I.
      * intros c Hc. eapply cons_ok_frame; [exact (Ic c Hc)|auto|intros; left; auto|reflexivity].
Qed.

Lemma inv_send s i : Inv s -> pc s = PIdle -> own s i = true -> (cur s + 1 <= B)%N ->
  Inv (set_pc (set_cur s ((cur s + 1) mod two32)%N) (PReady i ((cur s + 1) mod two32)%N)).
Proof.
  intros HI Epc Ho HcB.
  destruct HI as [Ia Is Ih Isid Iinj Iord Iown Icur Icm Ipc Ic].
  rewrite N.mod_small by (unfold two32 in *; lia).
  assert (Hal : alive (pc s) = true) by (rewrite Epc; reflexivity).
  split; try assumption.
  - intros _ j Hj P. specialize (Icm Hal j Hj P). change (vts _ j) with (vts s j). cbn. lia.
  - cbn. repeat split; [apply Iown; assumption|assumption|lia|].
    intros j Hj P. specialize (Icm Hal j Hj P). change (vts _ j) with (vts s j). lia.
  - intros c Hc. eapply cons_ok_frame; [exact (Ic c Hc)|auto|intros; left; auto|reflexivity].
Qed.

End P.

Lemma Inv_mono ns nc B B' s : (B <= B')%N -> Inv ns nc B s -> Inv ns nc B' s.
Proof.
  intros HB [Ia Is Ih Isid Iinj Iord Iown Icur Icm Ipc Ic]. split; try assumption.
  - intros t v H. destruct (Ih t v H). lia.
  - lia.
  - unfold pc_p_ok in *. destruct (pc s); try assumption. destruct Ipc. split; [lia|assumption].
Qed.
