(** Refinement of the provider to a bounded queue. *)
From Verif Require Import SlotModel SlotWord SlotProofs HistModel.
From Coq Require Import Sorting.Sorted Permutation.

(** The specification: a queue of at most n samples (sequence numbers, oldest
    first) and p samples under construction. *)
Record bq := mkBq { q : list N; pend : nat; sent : N }.

Definition bstep (n : nat) (b : bq) (o : pop) : bq :=
  match o with
  | OAlloc =>
      if length (q b) + pend b <? n then mkBq (q b) (S (pend b)) (sent b)
      else match q b with
           | [] => b                                          (* everything is under construction *)
           | _ :: r => mkBq r (S (pend b)) (sent b)           (* the oldest sample gives way *)
           end
  | OSend k => if k <? pend b then mkBq (q b ++ [sent b + 1]%N) (pend b - 1) (sent b + 1)%N else b
  | ODrop k => if k <? pend b then mkBq (q b) (pend b - 1) (sent b) else b
  end.
Definition brun (n : nat) (b : bq) (os : list pop) : bq := fold_left (bstep n) os b.

Definition av (w : N) : bool := negb (is_invalid w) && negb (is_in_writing w).
Definition avs (l : list N) : list N := map ts_of (filter av l).

Record Rel (n : nat) (p : prov) (b : bq) : Prop := {
  R_len : length (p_slots p) = n;
  R_q : Permutation (avs (p_slots p)) (q b);
  R_rc : forall w, In w (p_slots p) -> av w = true -> rc_of w = 0%N;
  R_own : forall i, In i (p_own p) <-> nth_error (p_slots p) i = Some IN_WRITING;
  R_nd : NoDup (p_own p);
  R_pend : length (p_own p) = pend b;
  R_wr : length (filter is_in_writing (p_slots p)) = pend b;
  R_sorted : StronglySorted N.lt (q b);
  R_range : forall t, In t (q b) -> (0 < t <= sent b)%N;
  R_cur : p_cur p = sent b;
}.

Lemma filter3 (l : list N) :
  length (filter is_invalid l) + length (filter is_in_writing l) + length (filter av l) = length l.
Proof.
  induction l as [|w l IH]; [reflexivity|]. cbn [filter]. unfold av at 1.
  destruct (is_invalid w) eqn:E1, (is_in_writing w) eqn:E2; cbn [negb andb length]; try lia.
  apply is_invalid_true in E1. apply is_in_writing_true in E2. subst w. discriminate.
Qed.

Lemma avs_length l : length (avs l) = length (filter av l).
Proof. unfold avs. apply map_length. Qed.

Lemma ldel_spec {A} (l : list A) k i :
  nth_error l k = Some i -> exists l1 l2, l = l1 ++ i :: l2 /\ ldel l k = l1 ++ l2.
Proof.
  revert k; induction l as [|a l IH]; intros [|k]; cbn; intros H; try discriminate.
  - injection H as ->. exists [], l. auto.
  - destruct (IH k H) as (l1 & l2 & E1 & E2). exists (a :: l1), l2. cbn. split; congruence.
Qed.

Lemma NoDup_mid {A} (l1 l2 : list A) x : NoDup (l1 ++ x :: l2) -> NoDup (l1 ++ l2) /\ ~ In x (l1 ++ l2).
Proof. intros H. split; [eapply NoDup_remove_1; exact H|eapply NoDup_remove_2; exact H]. Qed.

Lemma SS_Nlt_snoc (l : list N) x : StronglySorted N.lt l -> (forall y, In y l -> (y < x)%N) -> StronglySorted N.lt (l ++ [x]).
Proof.
  induction l as [|a l IH]; cbn; intros HS H; [repeat constructor|].
  inversion HS as [|? ? HS' HF]; subst. constructor.
  - apply IH; [assumption|]. intros y Hy; apply H; right; assumption.
  - apply Forall_app; split; [assumption|]. constructor; [|constructor]. apply H; left; reflexivity.
Qed.

Lemma Rel_init n : Rel n (pinit n) (mkBq [] 0 0).
Proof.
  assert (FA : forall f, f INVALID_EVENT = false -> filter f (repeat INVALID_EVENT n) = []).
  { intros f Hf. induction n as [|m IH]; [reflexivity|]. cbn [repeat filter]. rewrite Hf. exact IH. }
  assert (NE : forall i, nth_error (repeat INVALID_EVENT n) i = Some IN_WRITING -> False).
  { intros i H. apply nth_error_In in H. apply repeat_spec in H. discriminate. }
  constructor; cbn [pinit p_slots p_cur p_own q pend sent].
  - apply repeat_length.
  - unfold avs. rewrite (FA av eq_refl). constructor.
  - intros w Hw. apply repeat_spec in Hw. subst w. discriminate.
  - intros i. split; [intros []|intros H; destruct (NE i H)].
  - constructor.
  - reflexivity.
  - rewrite (FA is_in_writing eq_refl). reflexivity.
  - constructor.
  - intros t [].
  - reflexivity.
Qed.

(** in-writing marks and other words of a split array *)
Lemma nth_mid {A} (l1 l2 : list A) x y j :
  nth_error (l1 ++ x :: l2) j = if Nat.eqb j (length l1) then Some x else nth_error (l1 ++ y :: l2) j.
Proof.
  destruct (Nat.eqb_spec j (length l1)) as [->|H].
  - rewrite nth_error_app2 by lia. rewrite Nat.sub_diag. reflexivity.
  - destruct (Nat.lt_ge_cases j (length l1)).
    + rewrite !nth_error_app1 by assumption. reflexivity.
    + rewrite !nth_error_app2 by lia. destruct (j - length l1) eqn:E; [lia|reflexivity].
Qed.

Lemma Perm_mid_inv (a b : list N) t (r : list N) :
  Permutation (a ++ t :: b) (t :: r) -> Permutation (a ++ b) r.
Proof.
  intros H. apply Permutation_cons_inv with t. rewrite <- H. apply Permutation_middle.
Qed.

Lemma In_split_nth {A} (l : list A) i x : nth_error l i = Some x ->
  exists l1 l2, l = l1 ++ x :: l2 /\ length l1 = i.
Proof. intros H. destruct (nth_error_split l i H) as (l1 & l2 & E & L). eauto. Qed.

Lemma step_alloc n p b :
  Rel n p b -> (sent b < two32 - 1)%N ->
  exists p', pstep p OAlloc = Some p' /\ Rel n p' (bstep n b OAlloc).
Proof.
  intros HR HS. destruct HR as [HL HQ HRC HO HND HP HW HSo HRg HC].
  destruct p as [sl cur ow]. destruct b as [qq pp st]. cbn [p_slots p_cur p_own q pend sent] in *.
  cbn [pstep]. unfold AllocateNextSlot_quiet, FindOldestUnusedSlot. cbn [p_slots p_cur p_own].
  pose proof (find_oldest_spec sl 0 None _ (fun i w E => ltac:(discriminate E)) eq_refl) as HF.
  pose proof (filter3 sl) as H3. pose proof (Permutation_length HQ) as PL. rewrite avs_length in PL.
  assert (IQ : forall w, In w sl -> av w = true -> In (ts_of w) qq).
  { intros w Hw Ha. eapply Permutation_in; [exact HQ|]. apply in_map_iff. exists w. split; [reflexivity|]. apply filter_In; auto. }
  assert (CH : forall w, In w sl -> av w = true -> choosable w = true).
  { intros w Hw Ha. unfold choosable. rewrite (HRC w Hw Ha). pose proof (HRg _ (IQ w Hw Ha)) as HH.
    unfold av in Ha. apply andb_true_iff in Ha. destruct Ha as [_ Ha].
    rewrite Ha. cbn [N.eqb andb]. apply N.ltb_lt. unfold TIMESTAMP_MAX. lia. }
  destruct (find_oldest sl 0 None) as [[i w]|].
  - destruct HF as [(E1 & _ & HN)|(H1 & H2 & [E|[_ HN]] & H4 & _)]; [|discriminate|].
    + (* a never used slot *)
      rewrite Nat.sub_0_r in HN. destruct (In_split_nth _ _ _ HN) as (l1 & l2 & -> & <-).
      rewrite lset_split. eexists. split; [reflexivity|].
      apply is_invalid_true in E1. subst w.
      assert (Hlt : length qq + pp < n).
      { rewrite filter_app in H3. cbn [filter] in H3. change (is_invalid 0%N) with true in H3. cbn iota in H3.
        rewrite app_length in H3. cbn [length] in H3. lia. }
      unfold bstep; cbn [q pend sent]. rewrite (proj2 (Nat.ltb_lt _ _) Hlt).
      constructor; cbn [p_slots p_cur p_own q pend sent].
      * rewrite app_length in *. cbn [length] in *. exact HL.
      * unfold avs in *. rewrite !filter_app in *. cbn [filter] in *. exact HQ.
      * intros w Hw Ha. apply in_app_or in Hw. destruct Hw as [Hw|[<-|Hw]]; [|discriminate|];
          apply HRC; try assumption; apply in_or_app; [left|right; right]; assumption.
      * intros i. rewrite (nth_mid l1 l2 IN_WRITING 0%N i), in_app_iff, HO. cbn [In].
        destruct (Nat.eqb_spec i (length l1)) as [->|Hn]; [tauto|]. split; [intros [H|[H|[]]]; [exact H|lia]|tauto].
      * apply NoDup_rev in HND. rewrite <- rev_involutive. apply NoDup_rev. rewrite rev_app_distr. cbn [rev app].
        constructor; [|exact HND]. rewrite <- in_rev, HO. rewrite (nth_mid l1 l2 0%N 0%N), Nat.eqb_refl. discriminate.
      * rewrite app_length. cbn [length]. lia.
      * rewrite filter_app in *. cbn [filter] in *. change (is_in_writing 0%N) with false in HW.
        change (is_in_writing IN_WRITING) with true. cbn iota in *. rewrite app_length in *. cbn [length]. lia.
      * exact HSo.
      * exact HRg.
      * exact HC.
    + (* the oldest sample *)
      rewrite Nat.sub_0_r in HN.
      assert (Hw : In w sl) by (eapply nth_error_In; exact HN).
      assert (Ha : av w = true).
      { unfold av. rewrite (H1 w Hw). unfold choosable in H2. rewrite !andb_true_iff in H2. destruct H2 as [[_ H2] _]. rewrite H2. reflexivity. }
      assert (ZI : filter is_invalid sl = []).
      { destruct (filter is_invalid sl) as [|x r] eqn:EF; [reflexivity|].
        assert (HH : In x (filter is_invalid sl)) by (rewrite EF; left; reflexivity).
        apply filter_In in HH. destruct HH as [HH1 HH2]. rewrite (H1 x HH1) in HH2. discriminate. }
      rewrite ZI in H3. cbn [length] in H3.
      assert (Hge : ~ (length qq + pp < n)) by lia.
      unfold bstep; cbn [q pend sent]. rewrite (proj2 (Nat.ltb_nlt _ _) Hge).
      pose proof (IQ w Hw Ha) as HIn.
      destruct qq as [|t r]; [destruct HIn|].
      assert (Et : ts_of w = t).
      { destruct HIn as [E|HIn]; [symmetry; exact E|].
        inversion HSo as [|? ? _ HFo]; subst. rewrite Forall_forall in HFo. specialize (HFo _ HIn).
        assert (Ht : In t (avs sl)) by (eapply Permutation_in; [symmetry; exact HQ|left; reflexivity]).
        unfold avs in Ht. apply in_map_iff in Ht. destruct Ht as (w' & T' & F'). apply filter_In in F'.
        specialize (H4 w' (proj1 F') (CH w' (proj1 F') (proj2 F'))). lia. }
      destruct (In_split_nth _ _ _ HN) as (l1 & l2 & -> & <-).
      rewrite lset_split. eexists. split; [reflexivity|].
      assert (NW : is_in_writing w = false) by (unfold av in Ha; apply andb_true_iff in Ha; destruct Ha as [_ Ha]; destruct (is_in_writing w); [discriminate|reflexivity]).
      constructor; cbn [p_slots p_cur p_own q pend sent].
      * rewrite app_length in *. cbn [length] in *. exact HL.
      * unfold avs in *. rewrite !filter_app in *. cbn [filter] in *. rewrite Ha in HQ.
        change (av IN_WRITING) with false. cbn iota in *. rewrite map_app in *. cbn [map] in HQ. rewrite Et in HQ.
        eapply Perm_mid_inv; exact HQ.
      * intros x Hx Hax. apply in_app_or in Hx. destruct Hx as [Hx|[<-|Hx]]; [|discriminate|];
          apply HRC; try assumption; apply in_or_app; [left|right; right]; assumption.
      * intros i. rewrite (nth_mid l1 l2 IN_WRITING w i), in_app_iff, HO. cbn [In].
        destruct (Nat.eqb_spec i (length l1)) as [->|Hn]; [tauto|]. split; [intros [H|[H|[]]]; [exact H|lia]|tauto].
      * apply NoDup_rev in HND. rewrite <- rev_involutive. apply NoDup_rev. rewrite rev_app_distr. cbn [rev app].
        constructor; [|exact HND]. rewrite <- in_rev, HO. rewrite (nth_mid l1 l2 w w), Nat.eqb_refl.
        intros C; injection C as ->. discriminate.
      * rewrite app_length. cbn [length]. lia.
      * rewrite filter_app in *. cbn [filter] in *. rewrite NW in HW.
        change (is_in_writing IN_WRITING) with true. cbn iota in *. rewrite app_length in *. cbn [length]. lia.
      * inversion HSo; assumption.
      * intros x Hx. apply HRg. right; exact Hx.
      * exact HC.
  - destruct HF as [_ HF]. eexists. split; [reflexivity|].
    assert (ZA : filter av sl = []).
    { destruct (filter av sl) as [|x r] eqn:EF; [reflexivity|].
      assert (HH : In x (filter av sl)) by (rewrite EF; left; reflexivity).
      apply filter_In in HH. destruct HH as [HH1 HH2]. destruct (HF x HH1) as [HF1 _]. rewrite (CH x HH1 HH2) in HF1. discriminate. }
    assert (ZI : filter is_invalid sl = []).
    { destruct (filter is_invalid sl) as [|x r] eqn:EF; [reflexivity|].
      assert (HH : In x (filter is_invalid sl)) by (rewrite EF; left; reflexivity).
      apply filter_In in HH. destruct HH as [HH1 HH2]. destruct (HF x HH1) as [_ HF1]. congruence. }
    rewrite ZA in *. rewrite ZI in H3. cbn [length] in *.
    unfold bstep; cbn [q pend sent].
    assert (Hge : ~ (length qq + pp < n)) by lia. rewrite (proj2 (Nat.ltb_nlt _ _) Hge).
    destruct qq; [|cbn in PL; lia]. constructor; assumption.
Qed.

Lemma step_send n p b k :
  Rel n p b -> (sent b < two32 - 1)%N ->
  exists p', pstep p (OSend k) = Some p' /\ Rel n p' (bstep n b (OSend k)).
Proof.
  intros HR HS. pose proof HR as HR0. destruct HR as [HL HQ HRC HO HND HP HW HSo HRg HC].
  destruct p as [sl cur ow]. destruct b as [qq pp st]. cbn [p_slots p_cur p_own q pend sent] in *.
  cbn [pstep p_slots p_cur p_own]. unfold bstep; cbn [q pend sent].
  destruct (nth_error ow k) as [i|] eqn:EK.
  - assert (Hk : k < pp) by (rewrite <- HP; apply nth_error_Some; congruence).
    rewrite (proj2 (Nat.ltb_lt _ _) Hk).
    assert (HN : nth_error sl i = Some IN_WRITING) by (apply HO; eapply nth_error_In; exact EK).
    destruct (In_split_nth _ _ _ HN) as (l1 & l2 & -> & <-).
    subst cur. rewrite N.mod_small by (unfold two32 in *; lia).
    unfold EventReady. rewrite (proj2 (Nat.ltb_lt _ _)) by (rewrite app_length; cbn; lia).
    rewrite lset_split. set (t := (st + 1)%N) in *.
    assert (Ew : mk_status t 0 = word t 0) by (apply mk_status_word; unfold t, two32 in *; lia).
    rewrite Ew.
    assert (NI : is_invalid (word t 0) = false) by (apply word_not_invalid; unfold t; lia).
    assert (NW : is_in_writing (word t 0) = false) by (apply word_not_writing; [unfold t; lia|reflexivity]).
    unfold Discard. rewrite (nth_mid l1 l2 (word t 0) (word t 0)), Nat.eqb_refl, NW.
    eexists. split; [reflexivity|].
    destruct (ldel_spec ow k _ EK) as (o1 & o2 & EO & ED). rewrite ED. subst ow.
    apply NoDup_mid in HND. destruct HND as [ND1 ND2].
    constructor; cbn [p_slots p_cur p_own q pend sent].
    + rewrite app_length in *. cbn [length] in *. exact HL.
    + unfold avs in *. rewrite !filter_app in *. cbn [filter] in *.
      change (av IN_WRITING) with false in HQ. assert (Ha : av (word t 0) = true) by (unfold av; rewrite NI, NW; reflexivity).
      rewrite Ha. cbn iota in *. rewrite map_app in *. cbn [map]. rewrite ts_word by reflexivity.
      rewrite <- HQ. rewrite <- Permutation_cons_append. symmetry. apply Permutation_middle.
    + intros x Hx Hax. apply in_app_or in Hx. destruct Hx as [Hx|[<-|Hx]]; [|apply rc_word; reflexivity|];
          apply HRC; try assumption; apply in_or_app; [left|right; right]; assumption.
    + intros i. rewrite (nth_mid l1 l2 (word t 0) IN_WRITING i). specialize (HO i).
      rewrite in_app_iff in *. cbn [In] in HO.
      destruct (Nat.eqb_spec i (length l1)) as [->|Hn].
      * split; [intros H; destruct ND2; exact H|].
        intros C; injection C as C. rewrite C in NW. discriminate.
      * rewrite <- HO. split; [tauto|]. intros [H|[H|H]]; [tauto|lia|tauto].
    + exact ND1.
    + rewrite app_length in *. cbn [length] in HP. lia.
    + rewrite filter_app in *. cbn [filter] in *. rewrite NW.
      change (is_in_writing IN_WRITING) with true in HW. cbn iota in *. rewrite app_length in *. cbn [length] in HW. lia.
    + apply SS_Nlt_snoc; [exact HSo|]. intros y Hy. specialize (HRg y Hy). unfold t. lia.
    + intros x Hx. apply in_app_or in Hx. destruct Hx as [Hx|[<-|[]]]; [specialize (HRg x Hx)|]; unfold t; lia.
    + reflexivity.
  - assert (Hk : ~ k < pp) by (rewrite <- HP; apply nth_error_None in EK; lia).
    rewrite (proj2 (Nat.ltb_nlt _ _) Hk). eexists. split; [reflexivity|exact HR0].
Qed.

Lemma step_drop n p b k :
  Rel n p b -> exists p', pstep p (ODrop k) = Some p' /\ Rel n p' (bstep n b (ODrop k)).
Proof.
  intros HR. pose proof HR as HR0. destruct HR as [HL HQ HRC HO HND HP HW HSo HRg HC].
  destruct p as [sl cur ow]. destruct b as [qq pp st]. cbn [p_slots p_cur p_own q pend sent] in *.
  cbn [pstep p_slots p_cur p_own]. unfold bstep; cbn [q pend sent].
  destruct (nth_error ow k) as [i|] eqn:EK.
  - assert (Hk : k < pp) by (rewrite <- HP; apply nth_error_Some; congruence).
    rewrite (proj2 (Nat.ltb_lt _ _) Hk).
    assert (HN : nth_error sl i = Some IN_WRITING) by (apply HO; eapply nth_error_In; exact EK).
    unfold Discard. rewrite HN. change (is_in_writing IN_WRITING) with true. cbn iota.
    destruct (In_split_nth _ _ _ HN) as (l1 & l2 & -> & <-).
    rewrite lset_split. eexists. split; [reflexivity|].
    destruct (ldel_spec ow k _ EK) as (o1 & o2 & EO & ED). rewrite ED. subst ow.
    apply NoDup_mid in HND. destruct HND as [ND1 ND2].
    constructor; cbn [p_slots p_cur p_own q pend sent].
    + rewrite app_length in *. cbn [length] in *. exact HL.
    + unfold avs in *. rewrite !filter_app in *. cbn [filter] in *. exact HQ.
    + intros x Hx Hax. apply in_app_or in Hx. destruct Hx as [Hx|[<-|Hx]]; [|discriminate|];
          apply HRC; try assumption; apply in_or_app; [left|right; right]; assumption.
    + intros i. rewrite (nth_mid l1 l2 INVALID_EVENT IN_WRITING i). specialize (HO i).
      rewrite in_app_iff in *. cbn [In] in HO.
      destruct (Nat.eqb_spec i (length l1)) as [->|Hn].
      * split; [intros H; destruct ND2; exact H|discriminate].
      * rewrite <- HO. split; [tauto|]. intros [H|[H|H]]; [tauto|lia|tauto].
    + exact ND1.
    + rewrite app_length in *. cbn [length] in HP. lia.
    + rewrite filter_app in *. cbn [filter] in *.
      change (is_in_writing IN_WRITING) with true in HW. change (is_in_writing INVALID_EVENT) with false.
      cbn iota in *. rewrite app_length in *. cbn [length] in HW. lia.
    + exact HSo.
    + exact HRg.
    + exact HC.
  - assert (Hk : ~ k < pp) by (rewrite <- HP; apply nth_error_None in EK; lia).
    rewrite (proj2 (Nat.ltb_nlt _ _) Hk). eexists. split; [reflexivity|exact HR0].
Qed.

Definition osends (os : list pop) : nat := length (filter (fun o => match o with OSend _ => true | _ => false end) os).

Lemma run_rel n os : forall p b,
  Rel n p b -> (sent b + N.of_nat (osends os) < two32 - 1)%N ->
  exists p', prun p os = Some p' /\ Rel n p' (brun n b os) /\ (sent (brun n b os) <= sent b + N.of_nat (osends os))%N.
Proof.
  induction os as [|o os IH]; intros p b HR HS.
  - exists p. cbn. split; [reflexivity|]. split; [exact HR|lia].
  - cbn [prun brun fold_left].
    assert (K : (exists p', pstep p o = Some p' /\ Rel n p' (bstep n b o)) /\
                (sent (bstep n b o) + N.of_nat (osends os) <= sent b + N.of_nat (osends (o :: os)))%N).
    { unfold osends in *. destruct o as [|k|k]; cbn [filter length] in *.
      - split; [|unfold bstep; destruct (_ <? _); [|destruct (q b)]; cbn [sent]; lia].
        apply step_alloc; [exact HR|lia].
      - split; [apply step_send; [exact HR|lia]|]. unfold bstep. destruct (_ <? _); cbn [sent]; lia.
      - split; [apply step_drop; exact HR|]. unfold bstep. destruct (_ <? _); cbn [sent]; lia. }
    destruct K as [(p' & E & HR') HS']. rewrite E.
    destruct (IH p' _ HR' ltac:(lia)) as (p'' & E2 & R2 & S2). exists p''. split; [exact E2|]. split; [exact R2|].
    unfold brun in *. lia.
Qed.
