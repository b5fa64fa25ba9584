(** Functional correctness of the slot scans on a quiet slot array. *)
From Verif Require Import SlotModel SlotWord.
From Coq Require Import Sorting.Sorted Permutation.

(** A word that a consumer with last sequence number [lo] may take, below [hi]. *)
Definition btw (lo hi w : N) : bool := ((lo <? ts_of w) && (ts_of w <? hi))%N.

Lemma btw_true lo hi w : btw lo hi w = true <-> (lo < ts_of w /\ ts_of w < hi)%N.
Proof. unfold btw. rewrite andb_true_iff, !N.ltb_lt. tauto. Qed.
Lemma btw_false lo hi w : btw lo hi w = false <-> ~ (lo < ts_of w /\ ts_of w < hi)%N.
Proof. rewrite <- btw_true. destruct (btw lo hi w); split; congruence. Qed.
Lemma is_between_btw w lo hi : is_between w lo hi = btw lo hi w.
Proof. apply is_between_ts. Qed.

Lemma lset_length {A} (l : list A) i v : length (lset l i v) = length l.
Proof. revert i; induction l as [|a l IH]; intros [|i]; cbn; auto. Qed.
Lemma lset_nth {A} (l : list A) i v : i < length l -> nth_error (lset l i v) i = Some v.
Proof. revert i; induction l as [|a l IH]; intros [|i]; cbn; intros H; try lia; [reflexivity|apply IH; lia]. Qed.
Lemma lset_nth_neq {A} (l : list A) i j v : i <> j -> nth_error (lset l i v) j = nth_error l j.
Proof.
  revert i j; induction l as [|a l IH]; intros [|i] [|j] H; cbn; try reflexivity; try lia.
  apply IH; lia.
Qed.
Lemma lset_split {A} (l1 l2 : list A) w v : lset (l1 ++ w :: l2) (length l1) v = l1 ++ v :: l2.
Proof. induction l1 as [|a l1 IH]; cbn; [reflexivity|rewrite IH; reflexivity]. Qed.

(** ** newest *)
Lemma find_newest_spec last up slots : forall i0 cand r,
  (forall i w, cand = Some (i, w) -> btw last up w = true) ->
  find_newest last up slots i0 cand = r ->
  match r with
  | None => cand = None /\ forall w, In w slots -> btw last up w = false
  | Some (i, w) =>
      btw last up w = true /\
      (cand = Some (i, w) \/ (i0 <= i /\ nth_error slots (i - i0) = Some w)) /\
      (forall w', In w' slots -> btw last up w' = true -> (ts_of w' <= ts_of w)%N) /\
      (forall j w', cand = Some (j, w') -> (ts_of w' <= ts_of w)%N)
  end.
Proof.
  induction slots as [|a slots IH]; intros i0 cand r Hc HR; cbn [find_newest] in HR.
  - subst r. destruct cand as [[i w]|].
    + split; [eauto|]. split; [auto|]. split; [intros w' []|]. intros j w' E. injection E as _ <-. lia.
    + split; [reflexivity|intros w []].
  - set (cand' := scan_newest last up cand i0 a) in *.
    assert (HC' : forall i w, cand' = Some (i, w) -> btw last up w = true).
    { intros i w. unfold cand', scan_newest. rewrite is_between_btw.
      destruct (btw (cand_ts last cand) up a) eqn:EB; [|apply Hc].
      intros E; injection E as <- <-. rewrite btw_true in EB |- *.
      destruct cand as [[j w']|]; cbn [cand_ts] in EB; [|lia].
      specialize (Hc j w' eq_refl). rewrite btw_true in Hc. lia. }
    specialize (IH (S i0) cand' r HC' HR).
    destruct r as [[i w]|].
    + destruct IH as (B & W & M & MC). split; [exact B|]. split; [|split].
      * destruct W as [W|[W1 W2]].
        -- unfold cand', scan_newest in W. rewrite is_between_btw in W.
           destruct (btw (cand_ts last cand) up a) eqn:EB; [|left; exact W].
           injection W as <- <-. right. split; [lia|]. rewrite Nat.sub_diag. reflexivity.
        -- right. split; [lia|]. replace (i - i0) with (S (i - S i0)) by lia. exact W2.
      * intros w' [<-|Hin] Hb; [|apply M; assumption].
        unfold cand', scan_newest in MC. rewrite is_between_btw in MC.
        destruct (btw (cand_ts last cand) up a) eqn:EB; [eapply MC; reflexivity|].
        rewrite btw_true in Hb. rewrite btw_false in EB.
        destruct cand as [[j w']|]; cbn [cand_ts] in EB; [|lia].
        specialize (MC j w' eq_refl). lia.
      * intros j w' E. unfold cand', scan_newest in MC. rewrite is_between_btw in MC.
        destruct (btw (cand_ts last cand) up a) eqn:EB; [|eapply MC; exact E].
        specialize (MC i0 a eq_refl). rewrite btw_true, E in EB. cbn [cand_ts] in EB. lia.
    + destruct IH as (E & M). unfold cand', scan_newest in E. rewrite is_between_btw in E.
      destruct (btw (cand_ts last cand) up a) eqn:EB; [discriminate|]. split; [exact E|].
      intros w [<-|Hin]; [|apply M; exact Hin]. subst cand. exact EB.
Qed.

(** distinct sequence numbers among what a consumer may take *)
Definition distinct (last : N) (slots : list N) : Prop :=
  forall i j wi wj, nth_error slots i = Some wi -> nth_error slots j = Some wj -> i <> j ->
    btw last TIMESTAMP_MAX wi = true -> ts_of wi <> ts_of wj.

Definition count_btw (lo hi : N) (slots : list N) : nat := length (filter (btw lo hi) slots).

Lemma count_app lo hi a b : count_btw lo hi (a ++ b) = count_btw lo hi a + count_btw lo hi b.
Proof. unfold count_btw. rewrite filter_app, app_length. reflexivity. Qed.

Lemma count_ext lo hi lo' hi' l :
  (forall w, In w l -> btw lo hi w = btw lo' hi' w) -> count_btw lo hi l = count_btw lo' hi' l.
Proof.
  unfold count_btw. intros H. f_equal. induction l as [|a l IH]; [reflexivity|].
  cbn [filter]. rewrite (H a (or_introl eq_refl)). rewrite IH; [reflexivity|intros w Hw; apply H; right; exact Hw].
Qed.

Lemma count_pick last up slots i w :
  distinct last slots -> (up <= TIMESTAMP_MAX)%N -> nth_error slots i = Some w ->
  btw last up w = true -> (forall w', In w' slots -> btw last up w' = true -> (ts_of w' <= ts_of w)%N) ->
  count_btw last up slots = S (count_btw last (ts_of w) slots).
Proof.
  intros HD Hup Hn Hb HM.
  destruct (nth_error_split slots i Hn) as (l1 & l2 & E & EL).
  assert (HX : forall w', In w' l1 \/ In w' l2 -> btw last up w' = btw last (ts_of w) w').
  { intros w' Hw'. assert (Hin : In w' slots) by (rewrite E; apply in_or_app; destruct Hw'; [left|right; right]; assumption).
    assert (HNe : btw last up w' = true -> ts_of w' <> ts_of w).
    { intros Hb'. assert (exists j, nth_error slots j = Some w' /\ j <> i) as (j & Hj & Hji).
      { destruct Hw' as [H|H]; apply In_nth_error in H; destruct H as [j Hj].
        - exists j. assert (j < length l1) by (apply nth_error_Some; congruence). split; [|lia].
          rewrite E, nth_error_app1 by assumption. exact Hj.
        - exists (length l1 + S j). split; [|lia].
          rewrite E, nth_error_app2 by lia. replace (length l1 + S j - length l1) with (S j) by lia. exact Hj. }
      apply (HD j i w' w Hj Hn Hji). rewrite btw_true in *. lia. }
    rewrite btw_true in Hb.
    destruct (btw last up w') eqn:EB.
    - specialize (HM w' Hin EB). specialize (HNe eq_refl). symmetry. rewrite btw_true in *. lia.
    - symmetry. rewrite btw_false in *. lia. }
  rewrite E, !count_app.
  rewrite (count_ext last up last (ts_of w) l1) by (intros; apply HX; auto).
  change (w :: l2) with ([w] ++ l2). rewrite !count_app.
  rewrite (count_ext last up last (ts_of w) l2) by (intros; apply HX; auto).
  unfold count_btw at 2. cbn [filter]. rewrite Hb. cbn [length].
  unfold count_btw at 4. cbn [filter].
  assert (E0 : btw last (ts_of w) w = false) by (rewrite btw_false; lia). rewrite E0. cbn [length]. lia.
Qed.

(** words whose counter can be incremented without overflow *)
Definition inc_ok (w : N) : Prop := (ts_of w < two32 /\ rc_of w < two32 - 1)%N.

Lemma w_inc_spec w : inc_ok w -> ts_of (w_inc w) = ts_of w /\ rc_of (w_inc w) = (rc_of w + 1)%N /\ w <> (two64 - 1)%N.
Proof.
  intros [Ht Hr].
  assert (E : w_inc w = word (ts_of w) (rc_of w + 1)).
  { rewrite (word_split w) at 1. apply word_inc; assumption. }
  rewrite E. split; [apply ts_word; unfold two32 in *; lia|]. split; [apply rc_word; unfold two32 in *; lia|].
  intros C. subst w. vm_compute in Hr. discriminate.
Qed.

(** [slots'] is [slots] with one more reference exactly on the slots in [idx] *)
Definition referenced (idx : list nat) (slots slots' : list N) : Prop :=
  length slots' = length slots /\
  forall i w, nth_error slots i = Some w ->
    exists w', nth_error slots' i = Some w' /\ ts_of w' = ts_of w /\
      (if existsb (Nat.eqb i) idx then rc_of w' = (rc_of w + 1)%N else w' = w).

Definition ts_at (slots : list N) (i : nat) : N := ts_of (nth i slots 0%N).

Lemma ts_at_nth slots i w : nth_error slots i = Some w -> ts_at slots i = ts_of w.
Proof. intros H. unfold ts_at. rewrite (nth_error_nth _ _ _ H). reflexivity. Qed.

Lemma collect_spec last : forall count cap slots high acc,
  distinct last slots -> (high <= TIMESTAMP_MAX)%N ->
  (forall i w, nth_error slots i = Some w -> btw last high w = true -> inc_ok w) ->
  exists new slots',
    CollectSlots_quiet count cap slots last high acc = Some (new ++ acc, slots') /\
    length new = Nat.min (Nat.min count cap) (count_btw last high slots) /\
    StronglySorted (fun i j => (ts_at slots i < ts_at slots j)%N) new /\
    (forall i, In i new -> exists w, nth_error slots i = Some w /\ btw last high w = true) /\
    (forall i j w, In i new -> ~ In j new -> nth_error slots j = Some w -> btw last high w = true ->
        (ts_of w < ts_at slots i)%N) /\
    NoDup new /\
    referenced new slots slots'.
Proof.
  induction count as [|count IH]; intros cap slots high acc HD Hh HO.
  { exists [], slots. cbn. repeat split; try constructor; try (intros; contradiction); try lia.
    intros i w H; exists w; cbn; auto. }
  destruct cap as [|cap].
  { exists [], slots. cbn. repeat split; try constructor; try (intros; contradiction); try lia.
    intros i w H; exists w; cbn; auto. }
  cbn [CollectSlots_quiet]. unfold ReferenceNextEvent_quiet.
  pose proof (find_newest_spec last high slots 0 None _ (fun i w E => ltac:(discriminate E)) eq_refl) as HS.
  destruct (find_newest last high slots 0 None) as [[i w]|].
  - destruct HS as (HB & [HC|[_ HN]] & HM & _); [discriminate|]. rewrite Nat.sub_0_r in HN.
    pose proof (HO i w HN HB) as HOK. destruct (w_inc_spec w HOK) as (T & RC & NE).
    rewrite (proj2 (N.eqb_neq _ _) NE).
    assert (Hlt : i < length slots) by (apply nth_error_Some; congruence).
    rewrite lset_nth by assumption. rewrite T.
    rewrite btw_true in HB.
    assert (HD' : distinct last (lset slots i (w_inc w))).
    { intros a b wa wb Ha Hb Hab Hbt.
      assert (Ta : exists wa0, nth_error slots a = Some wa0 /\ ts_of wa0 = ts_of wa).
      { destruct (Nat.eq_dec i a) as [<-|Hn]; [rewrite lset_nth in Ha by assumption; injection Ha as <-; eauto|
        rewrite lset_nth_neq in Ha by assumption; eauto]. }
      assert (Tb : exists wb0, nth_error slots b = Some wb0 /\ ts_of wb0 = ts_of wb).
      { destruct (Nat.eq_dec i b) as [<-|Hn]; [rewrite lset_nth in Hb by assumption; injection Hb as <-; eauto|
        rewrite lset_nth_neq in Hb by assumption; eauto]. }
      destruct Ta as (wa0 & A1 & A2), Tb as (wb0 & B1 & B2). rewrite <- A2, <- B2.
      apply (HD a b wa0 wb0 A1 B1 Hab). rewrite btw_true in *. lia. }
    assert (HO' : forall a v, nth_error (lset slots i (w_inc w)) a = Some v -> btw last (ts_of w) v = true -> inc_ok v).
    { intros a v Ha Hv. destruct (Nat.eq_dec i a) as [<-|Hn].
      - rewrite lset_nth in Ha by assumption. injection Ha as <-. rewrite btw_true, T in Hv. lia.
      - rewrite lset_nth_neq in Ha by assumption. apply (HO a v Ha). rewrite btw_true in *. lia. }
    destruct (IH cap (lset slots i (w_inc w)) (ts_of w) (i :: acc) HD' ltac:(lia) HO')
      as (new & slots' & E & L & S & IN & MX & ND & RF).
    assert (TS : forall a, a < length slots -> ts_at (lset slots i (w_inc w)) a = ts_at slots a).
    { intros a Ha. destruct (Nat.eq_dec i a) as [<-|Hn].
      - rewrite (ts_at_nth _ _ _ (lset_nth slots i (w_inc w) Hlt)), T. symmetry. apply ts_at_nth; assumption.
      - destruct (nth_error slots a) as [v|] eqn:Ev; [|apply nth_error_None in Ev; lia].
        rewrite (ts_at_nth _ _ _ Ev). apply ts_at_nth. rewrite lset_nth_neq by assumption. exact Ev. }
    assert (INn : forall a, In a new -> a < length slots /\ (ts_at slots a < ts_of w)%N /\ (last < ts_at slots a)%N /\ a <> i).
    { intros a Ha. destruct (IN a Ha) as (v & V1 & V2).
      assert (HL : a < length slots) by (rewrite <- (lset_length slots i (w_inc w)); apply nth_error_Some; congruence).
      rewrite <- (TS a HL), (ts_at_nth _ _ _ V1). rewrite btw_true in V2. repeat split; try lia.
      intros ->. rewrite lset_nth in V1 by assumption. injection V1 as <-. lia. }
    exists (new ++ [i]), slots'. split; [rewrite E, <- app_assoc; reflexivity|]. split; [|split; [|split; [|split; [|split]]]].
    + rewrite app_length, L. cbn [length].
      rewrite (count_pick last high slots i w HD Hh HN); [|rewrite btw_true; lia|exact HM].
      assert (EC : count_btw last (ts_of w) (lset slots i (w_inc w)) = count_btw last (ts_of w) slots).
      { destruct (nth_error_split slots i HN) as (l1 & l2 & E1 & E2). rewrite E1, <- E2, lset_split, !count_app.
        f_equal. unfold count_btw. cbn [filter].
        assert (Z1 : btw last (ts_of w) (w_inc w) = false) by (rewrite btw_false, T; lia).
        assert (Z2 : btw last (ts_of w) w = false) by (rewrite btw_false; lia).
        rewrite Z1, Z2. reflexivity. }
      rewrite EC. lia.
    + revert S INn. clear - HN TS. induction new as [|a new IHn]; intros S INn.
      * repeat constructor.
      * inversion S as [|? ? S' F]; subst. cbn [app]. constructor.
        -- apply IHn; [exact S'|]. intros b Hb; apply INn; right; exact Hb.
        -- apply Forall_app. split; [|repeat constructor].
           ++ rewrite Forall_forall in *. intros b Hb. specialize (F b Hb).
              rewrite (TS a), (TS b) in F; [exact F|apply INn; right; exact Hb|apply INn; left; reflexivity].
           ++ rewrite (ts_at_nth _ _ _ HN). apply INn. left; reflexivity.
    + intros a Ha. apply in_app_or in Ha. destruct Ha as [Ha|[<-|[]]].
      * destruct (INn a Ha) as (HL & H1 & H2 & _). destruct (nth_error slots a) as [v|] eqn:Ev; [|apply nth_error_None in Ev; lia].
        exists v. split; [reflexivity|]. rewrite (ts_at_nth _ _ _ Ev) in *. rewrite btw_true. lia.
      * exists w. split; [exact HN|rewrite btw_true; exact HB].
    + intros a j v Ha Hj Hv Hb.
      assert (Hji : j <> i) by (intros ->; apply Hj; apply in_or_app; right; left; reflexivity).
      assert (Hlt2 : (ts_of v < ts_of w)%N).
      { specialize (HM v (nth_error_In _ _ Hv) Hb). 
        assert (ts_of v <> ts_of w); [|lia]. apply (HD j i v w Hv HN Hji). rewrite btw_true in *. lia. }
      apply in_app_or in Ha. destruct Ha as [Ha|[<-|[]]].
      * rewrite <- (TS a) by (apply INn; exact Ha). apply (MX a j v Ha); [intros Hc; apply Hj; apply in_or_app; left; exact Hc| |].
        -- rewrite lset_nth_neq by congruence. exact Hv.
        -- rewrite btw_true in *. lia.
      * rewrite (ts_at_nth _ _ _ HN). exact Hlt2.
    + clear - ND INn.
      assert (Hni : ~ In i new) by (intros H; destruct (INn i H) as (_ & _ & _ & H'); apply H'; reflexivity).
      induction new as [|a new IHn]; cbn; [repeat constructor; intros []|].
      inversion ND; subst. constructor.
      * intros Hc. apply in_app_or in Hc. destruct Hc as [Hc|[->|[]]]; [contradiction|apply Hni; left; reflexivity].
      * apply IHn; [assumption|intros b Hb; apply INn; right; exact Hb|intros Hc; apply Hni; right; exact Hc].
    + destruct RF as (RL & RW). split; [rewrite RL, lset_length; reflexivity|].
      intros a v Hv. rewrite existsb_app. cbn [existsb]. rewrite orb_false_r.
      destruct (Nat.eq_dec a i) as [->|Hn].
      * rewrite HN in Hv. injection Hv as <-.
        destruct (RW i (w_inc w) (lset_nth slots i (w_inc w) Hlt)) as (v' & V1 & V2 & V3).
        exists v'. rewrite Nat.eqb_refl, orb_true_r.
        assert (Z : existsb (Nat.eqb i) new = false).
        { destruct (existsb (Nat.eqb i) new) eqn:Z; [|reflexivity]. apply existsb_exists in Z.
          destruct Z as (b & Hb & Eb). apply Nat.eqb_eq in Eb. subst b.
          destruct (INn i Hb) as (_ & _ & _ & HX). contradiction. }
        rewrite Z in V3. subst v'. repeat split; [exact V1|exact T|exact RC].
      * destruct (RW a v) as (v' & V1 & V2 & V3); [rewrite lset_nth_neq by congruence; exact Hv|].
        exists v'. rewrite (proj2 (Nat.eqb_neq a i) Hn), orb_false_r. auto.
  - destruct HS as [_ HM]. exists [], slots. cbn [app].
    assert (Z : count_btw last high slots = 0).
    { unfold count_btw. destruct (filter (btw last high) slots) as [|a l] eqn:EF; [reflexivity|].
      assert (H : In a (filter (btw last high) slots)) by (rewrite EF; left; reflexivity).
      apply filter_In in H. destruct H as [H1 H2]. rewrite (HM a H1) in H2. discriminate. }
    rewrite Z. repeat split; try constructor; try (intros; contradiction); try (cbn; lia).
    intros i w H; exists w; cbn; auto.
Qed.

(** ** oldest *)
Definition free (w : N) : Prop := is_used w = false.
(** the sequence number 2^32-1 is the search bound of the code and never chosen *)
Definition choosable (w : N) : bool := (rc_of w =? 0)%N && negb (is_in_writing w) && (ts_of w <? TIMESTAMP_MAX)%N.

Lemma find_oldest_spec slots : forall i0 best r,
  (forall i w, best = Some (i, w) -> choosable w = true) ->
  find_oldest slots i0 best = r ->
  match r with
  | None => best = None /\ (forall w, In w slots -> choosable w = false /\ is_invalid w = false)
  | Some (i, w) =>
      (* a never-used slot, the first one *)
      (is_invalid w = true /\ i0 <= i /\ nth_error slots (i - i0) = Some w) \/
      (* or no such slot, and the oldest of the free ones *)
      ((forall w', In w' slots -> is_invalid w' = false) /\ choosable w = true /\
       (best = Some (i, w) \/ (i0 <= i /\ nth_error slots (i - i0) = Some w)) /\
       (forall w', In w' slots -> choosable w' = true -> (ts_of w <= ts_of w')%N) /\
       (forall j w', best = Some (j, w') -> (ts_of w <= ts_of w')%N))
  end.
Proof.
  induction slots as [|a slots IH]; intros i0 best r Hc HR; cbn [find_oldest] in HR.
  - subst r. destruct best as [[i w]|].
    + right. split; [intros w' []|]. split; [eauto|]. split; [auto|]. split; [intros w' []|].
      intros j w' E. injection E as _ <-. lia.
    + split; [reflexivity|intros w []].
  - destruct (is_invalid a) eqn:EI.
    { subst r. left. split; [exact EI|]. split; [lia|]. rewrite Nat.sub_diag. reflexivity. }
    set (best' := scan_oldest best i0 a) in *.
    assert (D : (best' = Some (i0, a) /\ choosable a = true /\ (ts_of a < best_ts best)%N) \/
                (best' = best /\ (choosable a = false \/ ~ (ts_of a < best_ts best)%N))).
    { unfold best', scan_oldest. destruct (_ && _ && _) eqn:E.
      - rewrite !andb_true_iff in E. destruct E as [[E1 E2] E3]. apply N.ltb_lt in E3. left. split; [reflexivity|]. split; [|exact E3].
        unfold choosable. rewrite E1, E2. cbn [andb]. apply N.ltb_lt.
        destruct best as [[j w]|]; cbn [best_ts] in E3; [|exact E3].
        specialize (Hc j w eq_refl). unfold choosable in Hc. rewrite !andb_true_iff in Hc. destruct Hc as [_ Hc]. apply N.ltb_lt in Hc. lia.
      - right. split; [reflexivity|].
        destruct (choosable a) eqn:EC; [right|left; reflexivity].
        unfold choosable in EC. rewrite !andb_true_iff in EC. destruct EC as [[E1 E2] E3].
        rewrite E1, E2 in E. cbn [andb] in E. apply N.ltb_ge in E. lia. }
    assert (HC' : forall i w, best' = Some (i, w) -> choosable w = true).
    { intros i w E. destruct D as [(E1 & E2 & _)|(E1 & _)]; [rewrite E1 in E; injection E as <- <-; exact E2|rewrite E1 in E; eauto]. }
    specialize (IH (S i0) best' r HC' HR). destruct r as [[i w]|].
    + destruct IH as [(H1 & H2 & H3)|(H1 & H2 & H3 & H4 & H5)].
      * left. split; [exact H1|]. split; [lia|]. replace (i - i0) with (S (i - S i0)) by lia. exact H3.
      * right. split; [intros w' [<-|Hin]; [exact EI|auto]|]. split; [exact H2|]. split; [|split].
        -- destruct H3 as [H3|[H3 H3']].
           ++ destruct D as [(E1 & _)|(E1 & _)]; [|left; congruence].
              rewrite E1 in H3. injection H3 as <- <-. right. split; [lia|]. rewrite Nat.sub_diag. reflexivity.
           ++ right. split; [lia|]. replace (i - i0) with (S (i - S i0)) by lia. exact H3'.
        -- intros w' [<-|Hin] Hch; [|auto].
           destruct D as [(E1 & _ & _)|(E1 & [E2|E2])]; [eapply H5; exact E1|congruence|].
           destruct best as [[j w']|]; cbn [best_ts] in E2.
           ++ specialize (H5 j w' E1). lia.
           ++ unfold choosable in Hch. rewrite !andb_true_iff in Hch. destruct Hch as [_ Hch]. apply N.ltb_lt in Hch. contradiction.
        -- intros j w' E. destruct D as [(E1 & _ & E3)|(E1 & _)].
           ++ specialize (H5 _ _ E1). rewrite E in E3. cbn [best_ts] in E3. lia.
           ++ rewrite <- E1 in E. eauto.
    + destruct IH as (E & H). destruct D as [(E1 & _)|(E1 & E2)]; [congruence|].
      rewrite E1 in E. split; [exact E|]. intros w [<-|Hin]; [|auto]. split; [|exact EI].
      destruct E2 as [E2|E2]; [exact E2|]. subst best. cbn [best_ts] in E2.
      unfold choosable. apply N.ltb_nlt in E2. rewrite E2. apply andb_false_r.
Qed.
