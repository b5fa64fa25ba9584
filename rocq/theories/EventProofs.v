(** The invariant of EventInv.v is preserved by every step. *)
From Verif Require Import SlotModel SlotWord EventModel EventInv.
From Coq Require Import Sorting.Sorted.

Ltac Zify.zify_post_hook ::= Z.div_mod_to_equations.

Lemma inb_In i l : inb i l = true <-> In i l.
Proof.
  unfold inb. rewrite existsb_exists. split.
  - intros (x & Hx & E). apply Nat.eqb_eq in E; subst; assumption.
  - intros H; exists i; split; [assumption|apply Nat.eqb_refl].
Qed.

Lemma SS_impl {A} (R R' : A -> A -> Prop) l :
  (forall x y, In x l -> In y l -> R x y -> R' x y) -> StronglySorted R l -> StronglySorted R' l.
Proof.
  induction l as [|a l IH]; intros H HS; [constructor|].
  inversion HS as [|? ? HS' HF]; subst. constructor.
  - apply IH; [|assumption]. intros x y Hx Hy; apply H; right; assumption.
  - rewrite Forall_forall in *. intros y Hy. apply H; [left; reflexivity|right; assumption|auto].
Qed.

Lemma SS_snoc (l : list nat) x : StronglySorted lt l -> (forall y, In y l -> y < x) -> StronglySorted lt (l ++ [x]).
Proof.
  induction l as [|a l IH]; cbn; intros HS H; [repeat constructor|].
  inversion HS as [|? ? HS' HF]; subst. constructor.
  - apply IH; [assumption|]. intros y Hy; apply H; right; assumption.
  - apply Forall_app; split; [assumption|]. constructor; [|constructor]. apply H; left; reflexivity.
Qed.

Section Frame.
Variable ns : nat.

Lemma tagged_counted p id t : tagged p = Some (id, t) -> counted p = true.
Proof. destruct p; cbn; congruence. Qed.

Lemma kind_batch_counted p : kind_of p = KBatch -> counted p = true.
Proof. destruct p; cbn; congruence. Qed.
Lemma kind_ref_counted p : kind_of p = KRef -> counted p = true.
Proof. destruct p; cbn; congruence. Qed.
Lemma delivered_counted p : delivered_ph p = true -> counted p = true.
Proof. destruct p; cbn; congruence. Qed.

Lemma batch_kind s k i :
  live_ok ns s k -> In i (batch_of (c_pc k)) -> kind_of (c_ph k i) = KBatch.
Proof.
  intros HL Hi. rewrite (L_kind _ _ _ HL i (L_range _ _ _ HL i Hi)).
  unfold exp_kind. pose proof (L_pc _ _ _ HL) as Hp. unfold pc_c_ok in Hp.
  assert (Hin := proj2 (inb_In i (batch_of (c_pc k))) Hi).
  destruct (c_pc k) eqn:E; cbn [tx_slot ref_slot oeqb batch_of] in *; rewrite ?Hin; try reflexivity.
  - destruct Hp as (_ & _ & Hn). destruct (Nat.eqb_spec j i) as [->|]; [contradiction|reflexivity].
  - destruct Hp as (_ & _ & Hn). destruct (Nat.eqb_spec j i) as [->|]; [contradiction|reflexivity].
  - destruct Hp as (_ & _ & Hn). destruct (Nat.eqb_spec j i) as [->|]; [|reflexivity].
    specialize (Hn i Hi). lia.
Qed.

(** Views of two states agree as far as a consumer can depend on them. *)
Lemma cons_ok_frame s s' k :
  cons_ok ns s k ->
  (forall i, i < ns -> counted (c_ph k i) = true -> vts s' i = vts s i /\ sid s' i = sid s i) ->
  (forall i, i < ns -> published s' i ->
      (published s i /\ vts s' i = vts s i /\ sid s' i = sid s i) \/ length (hist s) <= sid s' i) ->
  length (hist s) <= length (hist s') ->
  cons_ok ns s' k.
Proof.
  intros [HT HL] HC HP HH. split.
  - intros i id t Hi Ht. destruct (HC i Hi (tagged_counted _ _ _ Ht)) as [-> ->]. apply HT; assumption.
  - destruct (live (c_pc k)) eqn:EL; [|assumption].
    assert (HB' : forall i, In i (batch_of (c_pc k)) -> vts s' i = vts s i /\ sid s' i = sid s i).
    { intros i Hi. apply HC; [exact (L_range _ _ _ HL i Hi)|].
      apply kind_batch_counted. eapply batch_kind; eassumption. }
    split.
    + exact (L_bits _ _ _ HL).
    + exact (L_kind _ _ _ HL).
    + intros i Hi Hd. destruct (HC i Hi (delivered_counted _ Hd)) as [-> _]. apply (L_held _ _ _ HL); assumption.
    + eapply SS_impl; [|exact (L_sorted _ _ _ HL)].
      intros x y Hx Hy. cbn. destruct (HB' x Hx) as [-> _]. destruct (HB' y Hy) as [-> _]. tauto.
    + exact (L_range _ _ _ HL).
    + intros i Hi. destruct (HB' i Hi) as [-> _]. exact (L_last _ _ _ HL i Hi).
    + pose proof (L_pc _ _ _ HL) as Hp. unfold pc_c_ok, up_ok in *.
      destruct (c_pc k) eqn:E; cbn [batch_of] in HB'; try exact I.
      * destruct Hp as ((U1 & U2) & Hc). repeat split; try assumption.
        intros i0 Hi0. destruct (HB' i0 Hi0) as [-> _]. auto.
      * destruct Hp as ((U1 & U2) & Hc). repeat split; try apply Hc; try assumption.
        intros i0 Hi0. destruct (HB' i0 Hi0) as [-> _]. auto.
      * destruct Hp as ((U1 & U2) & Hc). repeat split; try apply Hc; try assumption.
        intros i0 Hi0. destruct (HB' i0 Hi0) as [-> _]. auto.
      * destruct Hp as ((U1 & U2) & Hc). repeat split; try apply Hc; try assumption.
        intros i0 Hi0. destruct (HB' i0 Hi0) as [-> _]. auto.
      * destruct Hp as (Hj & Hl & Hb).
        assert (Ej : vts s' j = vts s j).
        { apply HC; [assumption|]. apply kind_ref_counted. rewrite (L_kind _ _ _ HL j Hj), E.
          unfold exp_kind; cbn. rewrite Nat.eqb_refl. reflexivity. }
        rewrite Ej. repeat split; try assumption.
        intros i0 Hi0. destruct (HB' i0 Hi0) as [-> _]. auto.
      * destruct Hp as (Hl & done & Eb & Hd). split; [assumption|]. exists done. split; [assumption|].
        intros i0 Hi0. destruct (HB' i0) as [-> _]; [subst batch; apply in_or_app; left; assumption|auto].
    + exact (L_dsorted _ _ _ HL).
    + intros id Hid. pose proof (L_dhist _ _ _ HL id Hid). lia.
    + intros id i Hid Hi Hp Hlt. destruct (HP i Hi Hp) as [(P & V & S)|Hge].
      * rewrite S. rewrite V in Hlt. exact (L_dnew _ _ _ HL id i Hid Hi P Hlt).
      * pose proof (L_dhist _ _ _ HL id Hid). lia.
    + intros id i Hid Hdel Hi. destruct (HB' i Hi) as [_ ->]. exact (L_dbatch _ _ _ HL id i Hid Hdel Hi).
Qed.

End Frame.

Section P.
Variables (ns nc : nat) (B : N).
Hypothesis Hnc : (N.of_nat nc < two32 - 1)%N.
Hypothesis HB : (B < two32 - 1)%N.

Lemma refs_le s i : refs nc s i <= nc.
Proof. apply countb_le. Qed.

Lemma refs_small s i : (N.of_nat (refs nc s i) < two32 - 1)%N.
Proof. pose proof (refs_le s i). lia. Qed.

Lemma refs_small' s i : (N.of_nat (refs nc s i) < two32)%N.
Proof. pose proof (refs_small s i). unfold two32 in *. lia. Qed.

Lemma slot_ok_pub s i :
  (forall t v, In (t, v) (hist s) -> (0 < t /\ t <= B)%N) ->
  slot_ok nc s i -> published s i ->
  exists t, nth_error (hist s) (sid s i) = Some (t, data s i) /\
    slots s i = word t (N.of_nat (refs nc s i)) /\ own s i = false /\ vts s i = t /\ (0 < t)%N /\ (t <= B)%N.
Proof.
  intros Hh Hs [P1 P2].
  destruct Hs as [(E & _)|[(E & _)|(t & Hn & E & Ho)]]; [congruence|congruence|].
  exists t. repeat split; try assumption.
  - unfold vts. rewrite E. apply ts_word. apply refs_small'.
  - destruct (Hh t _ (nth_error_In _ _ Hn)); assumption.
  - destruct (Hh t _ (nth_error_In _ _ Hn)); assumption.
Qed.

Lemma slot_ok_third_pub s i t :
  (forall t v, In (t, v) (hist s) -> (0 < t /\ t <= B)%N) ->
  nth_error (hist s) (sid s i) = Some (t, data s i) ->
  slots s i = word t (N.of_nat (refs nc s i)) -> published s i.
Proof.
  intros Hh Hn E. destruct (Hh t _ (nth_error_In _ _ Hn)) as [H1 H2].
  pose proof (refs_small' s i) as Hr.
  split; rewrite E.
  - intros C. pose proof (word_not_invalid t (N.of_nat (refs nc s i)) H1) as W.
    rewrite C in W. discriminate.
  - intros C. pose proof (word_not_writing t (N.of_nat (refs nc s i)) H1 Hr) as W.
    rewrite C in W. discriminate.
Qed.

Lemma counted_refs s c i : c < nc -> counted (c_ph (cons s c) i) = true -> 0 < refs nc s i.
Proof. intros Hc H. unfold refs. apply countb_pos with (i := c); assumption. Qed.

Lemma counted_pub s c i :
  Inv ns nc B s -> c < nc -> i < ns -> counted (c_ph (cons s c) i) = true -> published s i.
Proof.
  intros HI Hc Hi H. pose proof (counted_refs s c i Hc H) as Hr.
  destruct (I_slot _ _ _ _ HI i Hi) as [(E & _ & R)|[(E & _ & R)|(t & Hn & E & Ho)]]; [lia|lia|].
  eapply slot_ok_third_pub; eauto. exact (I_hist _ _ _ _ HI).
Qed.

Lemma cons_fupd s c k' : forall c', cons (set_con s c k') c' = if Nat.eqb c' c then k' else cons s c'.
Proof. reflexivity. Qed.

(** Step of consumer [c] that does not touch the slot words. *)
Lemma con_same s c k' :
  Inv ns nc B s -> c < nc ->
  (forall i, i < ns -> counted (c_ph k' i) = counted (c_ph (cons s c) i)) ->
  cons_ok ns s k' -> Inv ns nc B (set_con s c k').
Proof.
  intros HI Hc HC HK.
  assert (HR : forall i, i < ns -> refs nc (set_con s c k') i = refs nc s i).
  { intros i Hi. unfold refs. apply countb_ext. intros c' _. rewrite cons_fupd.
    destruct (Nat.eqb_spec c' c) as [->|]; [apply HC; assumption|reflexivity]. }
  destruct HI as [Ia Is Ih Isid Iinj Iord Iown Icur Icm Ipc Ic].
  split; try assumption.
  - intros i Hi. unfold slot_ok. rewrite HR by assumption. exact (Is i Hi).
  - intros c' Hc'. rewrite cons_fupd. destruct (Nat.eqb_spec c' c) as [->|Hne].
    + eapply cons_ok_frame; [exact HK|auto|intros; left; auto|reflexivity].
    + eapply cons_ok_frame; [exact (Ic c' Hc')|auto|intros; left; auto|reflexivity].
Qed.

(** Step of consumer [c] that changes the word of slot [j] keeping its timestamp. *)
Lemma con_word s c k' j w' t0 :
  Inv ns nc B s -> c < nc -> j < ns ->
  published s j -> vts s j = t0 ->
  (forall i, i < ns -> i <> j -> counted (c_ph k' i) = counted (c_ph (cons s c) i)) ->
  let s' := set_con (set_slots s (fupd (slots s) j w')) c k' in
  w' = word t0 (N.of_nat (refs nc s' j)) ->
  cons_ok ns s k' -> Inv ns nc B s'.
Proof.
  intros HI Hc Hj Hp Ht HC s' Hw HK.
  destruct HI as [Ia Is Ih Isid Iinj Iord Iown Icur Icm Ipc Ic].
  destruct (slot_ok_pub s j Ih (Is j Hj) Hp) as (t & Hn & Ew & Ho & Ev & Ht0 & HtB).
  rewrite Ht in Ev. subst t.
  assert (HR : forall i, i < ns -> i <> j -> refs nc s' i = refs nc s i).
  { intros i Hi Hne. unfold refs. apply countb_ext. intros c' _. unfold s'. rewrite cons_fupd. cbn [set_slots cons].
    destruct (Nat.eqb_spec c' c) as [->|]; [apply HC; assumption|reflexivity]. }
  assert (HSj : slots s' j = w') by (unfold s'; cbn; apply fupd_eq).
  assert (HSi : forall i, i <> j -> slots s' i = slots s i) by (intros; unfold s'; cbn; apply fupd_neq; assumption).
  assert (Hpj : published s' j).
  { apply (slot_ok_third_pub s' j t0); [exact Ih|exact Hn|congruence]. }
  assert (Hvj : vts s' j = vts s j).
  { unfold vts at 1. rewrite HSj, Hw. rewrite ts_word; [congruence|apply refs_small']. }
  assert (HV : forall i, vts s' i = vts s i).
  { intros i. destruct (Nat.eq_dec i j) as [->|Hne]; [assumption|]. unfold vts. rewrite HSi by assumption. reflexivity. }
  assert (HP : forall i, published s' i <-> published s i).
  { intros i. destruct (Nat.eq_dec i j) as [->|Hne]; [tauto|]. unfold published. rewrite HSi by assumption. tauto. }
  assert (HIW : forall i, slots s i = IN_WRITING -> slots s' i = IN_WRITING).
  { intros i Hi. destruct (Nat.eq_dec i j) as [->|Hne]; [destruct Hp; congruence|]. rewrite HSi; assumption. }
  split; try assumption.
  - intros i Hi. destruct (Nat.eq_dec i j) as [->|Hne].
    + right; right. exists t0. split; [exact Hn|]. split; [congruence|exact Ho].
    + unfold slot_ok. rewrite HR, HSi by assumption. exact (Is i Hi).
  - intros i Hi Hpi. apply HP in Hpi. exact (Isid i Hi Hpi).
  - intros i i' Hi Hi' P P'. apply HP in P. apply HP in P'. exact (Iinj i i' Hi Hi' P P').
  - intros i i' Hi Hi' P P'. apply HP in P. apply HP in P'. rewrite !HV. exact (Iord i i' Hi Hi' P P').
  - intros Ha i Hi P. apply HP in P. rewrite HV. exact (Icm Ha i Hi P).
  - unfold pc_p_ok in *. change (pc s') with (pc s). change (own s') with (own s). change (cur s') with (cur s).
    destruct (pc s); try assumption.
    + destruct Ipc as (H1 & H2 & H3 & H4 & H5). repeat split; try assumption.
      intros i' Hi' P. apply HP in P. rewrite HV. auto.
    + destruct Ipc as (H1 & H2). split; [assumption|auto].
    + destruct Ipc as (H1 & H2). split; [assumption|auto].
    + destruct Ipc as (H1 & H2). split; [assumption|].
      intros i' Hi1 Hi' P. apply HP in P. rewrite HV. auto.
  - assert (HF : forall k, cons_ok ns s k -> cons_ok ns s' k).
    { intros k Hk. eapply cons_ok_frame; [exact Hk|intros; split; [apply HV|reflexivity]| |reflexivity].
      intros i Hi P. left. apply HP in P. auto. }
    intros c' Hc'. unfold s' at 2. rewrite cons_fupd. cbn [set_slots cons].
    destruct (Nat.eqb_spec c' c) as [->|Hne]; apply HF; auto.
Qed.

Lemma refs_set_true s c k' j sl :
  c < nc -> counted (c_ph (cons s c) j) = false -> counted (c_ph k' j) = true ->
  refs nc (set_con (set_slots s sl) c k') j = S (refs nc s j).
Proof.
  intros Hc H1 H2. unfold refs. eapply countb_set_true with (i := c); [assumption|exact H1| |].
  - cbn. unfold fupd. rewrite Nat.eqb_refl. assumption.
  - intros c' _ Hne. cbn. rewrite fupd_neq by assumption. reflexivity.
Qed.

Lemma refs_set_false s c k' j sl :
  c < nc -> counted (c_ph (cons s c) j) = true -> counted (c_ph k' j) = false ->
  S (refs nc (set_con (set_slots s sl) c k') j) = refs nc s j.
Proof.
  intros Hc H1 H2. unfold refs. eapply countb_set_false with (i := c); [assumption|exact H1| |].
  - cbn. unfold fupd. rewrite Nat.eqb_refl. assumption.
  - intros c' _ Hne. cbn. rewrite fupd_neq by assumption. reflexivity.
Qed.

Lemma con_inc s c k' j :
  Inv ns nc B s -> c < nc -> j < ns -> published s j ->
  counted (c_ph (cons s c) j) = false -> counted (c_ph k' j) = true ->
  (forall i, i < ns -> i <> j -> counted (c_ph k' i) = counted (c_ph (cons s c) i)) ->
  cons_ok ns s k' ->
  Inv ns nc B (set_con (set_slots s (fupd (slots s) j (w_inc (slots s j)))) c k').
Proof.
  intros HI Hc Hj Hp H1 H2 HC HK.
  destruct (slot_ok_pub s j (I_hist _ _ _ _ HI) (I_slot _ _ _ _ HI j Hj) Hp) as (t & Hn & Ew & Ho & Ev & Ht0 & HtB).
  eapply con_word; try eassumption.
  rewrite refs_set_true by assumption. rewrite Ew.
  rewrite word_inc; [f_equal; lia|lia|apply refs_small].
Qed.

Lemma con_dec s c k' j :
  Inv ns nc B s -> c < nc -> j < ns ->
  counted (c_ph (cons s c) j) = true -> counted (c_ph k' j) = false ->
  (forall i, i < ns -> i <> j -> counted (c_ph k' i) = counted (c_ph (cons s c) i)) ->
  cons_ok ns s k' ->
  Inv ns nc B (set_con (set_slots s (fupd (slots s) j (w_dec (slots s j)))) c k').
Proof.
  intros HI Hc Hj H1 H2 HC HK.
  pose proof (counted_pub s c j HI Hc Hj H1) as Hp.
  destruct (slot_ok_pub s j (I_hist _ _ _ _ HI) (I_slot _ _ _ _ HI j Hj) Hp) as (t & Hn & Ew & Ho & Ev & Ht0 & HtB).
  pose proof (refs_set_false s c k' j (fupd (slots s) j (w_dec (slots s j))) Hc H1 H2) as E.
  eapply con_word; try eassumption.
  rewrite Ew at 1. rewrite <- E.
  pose proof (refs_small s j). pose proof (refs_small' s j).
  rewrite word_dec; [f_equal; lia|lia|lia|lia].
Qed.

End P.
