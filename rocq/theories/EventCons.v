(** Consumer steps of the event machine preserve the invariant. *)
From Verif Require Import SlotModel SlotWord EventModel EventInv EventProofs EventStep.
From Coq Require Import Sorting.Sorted.

Ltac Zify.zify_post_hook ::= Z.div_mod_to_equations.

Ltac fu i j := destruct (Nat.eq_dec i j) as [->|?Hne];
  [rewrite ?fupd_eq in *|rewrite ?(fupd_neq _ j i) in * by assumption].

Section P.
Variables (ns nc : nat) (B : N).
Hypothesis Hnc : (N.of_nat nc < two32 - 1)%N.
Hypothesis HB : (B < two32 - 1)%N.
Notation Inv := (Inv ns nc B).

(** Only the program counter of a live consumer changes. *)
Lemma live_pc s k p :
  cons_ok ns s k -> live (c_pc k) = true -> live p = true ->
  (forall i, exp_kind p i = exp_kind (c_pc k) i) ->
  batch_of p = batch_of (c_pc k) -> is_deliver p = is_deliver (c_pc k) ->
  pc_c_ok ns s (c_set_pc k p) -> cons_ok ns s (c_set_pc k p).
Proof.
  intros [HT HL] Hl Hl' He Hb Hd Hp. rewrite Hl in HL. split; [exact HT|].
  cbn [c_set_pc c_pc]. rewrite Hl'. destruct HL. split; cbn [c_set_pc c_pc c_begin c_end c_ph c_last c_deliv];
    rewrite ?Hb, ?Hd; try assumption.
  intros i Hi. rewrite He. auto.
Qed.

Lemma exp_kind_ext p q :
  tx_slot p = tx_slot q -> ref_slot p = ref_slot q -> batch_of p = batch_of q ->
  forall i, exp_kind p i = exp_kind q i.
Proof. intros A1 A2 A3 i. unfold exp_kind. rewrite A1, A2, A3. reflexivity. Qed.

Lemma inv_cpc s c p :
  Inv s -> c < nc -> live (c_pc (cons s c)) = true -> live p = true ->
  (forall i, exp_kind p i = exp_kind (c_pc (cons s c)) i) ->
  batch_of p = batch_of (c_pc (cons s c)) -> is_deliver p = is_deliver (c_pc (cons s c)) ->
  pc_c_ok ns s (c_set_pc (cons s c) p) -> Inv (set_con s c (c_set_pc (cons s c) p)).
Proof.
  intros HI Hc H1 H2 H3 H4 H5 H6. apply con_same; try assumption; [reflexivity|].
  apply live_pc; try assumption. exact (I_cons _ _ _ _ HI c Hc).
Qed.

(** what a scanned slot looks like to the scanning consumer *)
Lemma scan_pickable s k i up :
  live_ok ns s k -> tx_slot (c_pc k) = None -> ref_slot (c_pc k) = None ->
  i < ns -> up_ok s (batch_of (c_pc k)) up ->
  (c_last k < vts s i)%N -> (vts s i < up)%N -> pickable (c_ph k i).
Proof.
  intros HL Ht Hr Hi [Hu1 Hu2] H1 H2.
  pose proof (L_kind _ _ _ HL i Hi) as HK. unfold exp_kind in HK. rewrite Ht, Hr in HK. cbn in HK.
  destruct (inb i (batch_of (c_pc k))) eqn:Eb.
  { apply inb_In in Eb. specialize (Hu2 i Eb). lia. }
  destruct (c_ph k i) eqn:E; cbn in HK; try discriminate; [left; reflexivity| | |right; reflexivity].
  - pose proof (L_held _ _ _ HL i Hi). rewrite E in H. specialize (H eq_refl). lia.
  - pose proof (L_held _ _ _ HL i Hi). rewrite E in H. specialize (H eq_refl). lia.
Qed.

Lemma finish_ok s k b :
  cons_ok ns s k -> live (c_pc k) = true -> tx_slot (c_pc k) = None -> ref_slot (c_pc k) = None ->
  batch_of (c_pc k) = b -> is_deliver (c_pc k) = false -> cons_ok ns s (c_finish k b).
Proof.
  intros HK Hl Ht Hr Hb Hd. unfold c_finish. apply live_pc; try assumption; try reflexivity.
  - intros i. apply exp_kind_ext; symmetry; assumption.
  - cbn. symmetry; assumption.
  - cbn. symmetry; assumption.
  - cbn. split; [lia|]. exists []. split; [reflexivity|]. intros i [].
Qed.

Lemma bits_eq s k i : live_ok ns s k -> i < ns -> c_begin k i = fst (bits_of (c_ph k i)) /\ c_end k i = snd (bits_of (c_ph k i)).
Proof. intros HL Hi. rewrite <- (L_bits _ _ _ HL i Hi). auto. Qed.

Lemma inv_cscan s c n batch up r i cand :
  Inv s -> c < nc -> c_pc (cons s c) = CScan n batch up r i cand -> Inv (cstep ns s c false).
Proof.
  intros HI Hc E. pose proof (I_cons _ _ _ _ HI c Hc) as HK. pose proof HK as [HT HL].
  rewrite E in HL. cbn [live] in HL.
  pose proof (L_pc _ _ _ HL) as Hp. unfold pc_c_ok in Hp. rewrite E in Hp. destruct Hp as (Hup & Hcand).
  unfold cstep. rewrite E. destruct (Nat.ltb_spec i ns) as [Hi|Hi].
  - apply inv_cpc; try assumption; try (rewrite ?E; reflexivity).
    cbn. split; [exact Hup|].
    unfold scan_newest. destruct (is_between (slots s i) (cand_ts (c_last (cons s c)) cand) up) eqn:Eb.
    + apply is_between_true in Eb. destruct Eb as (_ & _ & E1 & E2).
      assert (c_last (cons s c) < ts_of (slots s i))%N.
      { destruct cand as [[j w]|]; cbn in E1; [destruct Hcand as ((_ & ? & _) & _); lia|assumption]. }
      split; [repeat split; assumption|]. cbn.
      eapply scan_pickable; try eassumption; rewrite ?E; try reflexivity. exact Hup.
    + destruct cand as [[j w]|]; [|exact I]. exact Hcand.
  - destruct cand as [[j w]|].
    + destruct Hcand as ((Hj & H1 & H2) & Hpk).
      destruct (N.eqb_spec w (two64 - 1)) as [->|_].
      { exfalso. destruct Hup as [Hup _]. replace (ts_of (two64 - 1)) with TIMESTAMP_MAX in H2 by reflexivity. lia. }
      apply inv_cpc; try assumption; try (rewrite ?E; reflexivity).
      cbn. repeat split; try assumption; apply Hup.
    + apply con_same; try assumption; [reflexivity|]. apply finish_ok; try assumption; rewrite E; reflexivity.
Qed.

(** phase update at slot [j] together with a program counter change *)
Lemma live_update s k k' j :
  cons_ok ns s k -> live (c_pc k) = true -> live (c_pc k') = true -> j < ns ->
  (forall i, i <> j -> c_ph k' i = c_ph k i) ->
  (forall i, i <> j -> c_begin k' i = c_begin k i) ->
  (forall i, i <> j -> c_end k' i = c_end k i) ->
  (c_begin k' j, c_end k' j) = bits_of (c_ph k' j) ->
  c_last k' = c_last k -> c_deliv k' = c_deliv k ->
  (forall id t, tagged (c_ph k' j) = Some (id, t) -> id = sid s j /\ t = vts s j) ->
  (forall i, i < ns -> i <> j -> exp_kind (c_pc k') i = exp_kind (c_pc k) i) ->
  kind_of (c_ph k' j) = exp_kind (c_pc k') j ->
  (delivered_ph (c_ph k' j) = true -> (vts s j <= c_last k)%N) ->
  StronglySorted (fun i j => (vts s i < vts s j)%N) (batch_of (c_pc k')) ->
  (forall i, In i (batch_of (c_pc k')) -> i < ns) ->
  (forall i, In i (batch_of (c_pc k')) ->
     if is_deliver (c_pc k') then (vts s i <= c_last k)%N else (c_last k < vts s i)%N) ->
  (is_deliver (c_pc k') = true -> is_deliver (c_pc k) = true) ->
  (forall i, is_deliver (c_pc k') = true -> In i (batch_of (c_pc k')) -> In i (batch_of (c_pc k))) ->
  pc_c_ok ns s k' -> cons_ok ns s k'.
Proof.
  intros [HT HL] Hl Hl' Hj Hph Hbe Hen Hbits Hlast Hdel Htag Hex Hkj Hdj Hso Hra Hla Hd1 Hd2 Hpc.
  rewrite Hl in HL. split.
  - intros i id t Hi Ht. destruct (Nat.eq_dec i j) as [->|Hne]; [auto|]. rewrite Hph in Ht by assumption. auto.
  - rewrite Hl'. split; rewrite ?Hlast, ?Hdel; try assumption.
    + intros i Hi. destruct (Nat.eq_dec i j) as [->|Hne]; [assumption|].
      rewrite Hph, Hbe, Hen by assumption. exact (L_bits _ _ _ HL i Hi).
    + intros i Hi. destruct (Nat.eq_dec i j) as [->|Hne]; [assumption|].
      rewrite Hph, Hex by assumption. exact (L_kind _ _ _ HL i Hi).
    + intros i Hi. destruct (Nat.eq_dec i j) as [->|Hne]; [assumption|].
      rewrite Hph by assumption. exact (L_held _ _ _ HL i Hi).
    + exact (L_dsorted _ _ _ HL).
    + exact (L_dhist _ _ _ HL).
    + exact (L_dnew _ _ _ HL).
    + intros id i Hid Hdl Hi. apply (L_dbatch _ _ _ HL id i Hid); auto.
Qed.

Lemma exp_kind_other p q j i :
  i <> j ->
  (oeqb (tx_slot p) i = oeqb (tx_slot q) i) -> (oeqb (ref_slot p) i = oeqb (ref_slot q) i) ->
  (inb i (batch_of p) = inb i (batch_of q)) -> exp_kind p i = exp_kind q i.
Proof. intros _ A1 A2 A3. unfold exp_kind. rewrite A1, A2, A3. reflexivity. Qed.

Lemma eqb_neq' i j : i <> j -> Nat.eqb j i = false.
Proof. intros; apply Nat.eqb_neq; congruence. Qed.

Ltac prep HI Hc E HK HT HL Hp :=
  pose proof (I_cons _ _ _ _ HI _ Hc) as HK; pose proof HK as [HT HL];
  rewrite E in HL; cbn [live] in HL;
  pose proof (L_pc _ _ _ HL) as Hp; unfold pc_c_ok in Hp; rewrite E in Hp.

Lemma inv_ctx s c spur n batch up r j w :
  Inv s -> c < nc -> c_pc (cons s c) = CTx n batch up r j w -> Inv (cstep ns s c spur).
Proof.
  intros HI Hc E. prep HI Hc E HK HT HL Hp. destruct Hp as (Hup & Hcand & Hpk).
  pose proof (proj1 Hcand) as Hj.
  destruct (bits_eq s _ j HL Hj) as [Eb Ee].
  unfold cstep. rewrite E.
  assert (Hb0 : c_begin (cons s c) j = false) by (destruct Hpk as [Q|Q]; rewrite Q in Eb; exact Eb).
  rewrite Hb0. destruct (c_end (cons s c) j) eqn:Ee0; [assumption|].
  assert (Hn : c_ph (cons s c) j = PhNone) by (destruct Hpk as [Q|Q]; [exact Q|rewrite Q in Ee; discriminate]).
  assert (Hnb : ~ In j batch).
  { intros Hin. pose proof (batch_kind ns s _ j HL) as Q. rewrite E in Q. specialize (Q Hin). rewrite Hn in Q. discriminate. }
  set (k' := c_set_pc _ _).
  assert (HK' : cons_ok ns s k').
  { eapply live_update with (k := cons s c) (j := j); try assumption; try reflexivity;
      try (rewrite ?E; reflexivity); cbn.
    - intros i Hne; apply fupd_neq; assumption.
    - intros i Hne; apply fupd_neq; assumption.
    - rewrite !fupd_eq, Ee0. reflexivity.
    - rewrite fupd_eq. discriminate.
    - intros i Hi Hne. rewrite E. apply exp_kind_other with (j := j); try assumption; try reflexivity.
      cbn. apply eqb_neq'; assumption.
    - rewrite fupd_eq. unfold exp_kind. cbn. rewrite Nat.eqb_refl. reflexivity.
    - rewrite fupd_eq. discriminate.
    - pose proof (L_sorted _ _ _ HL) as Q. rewrite E in Q. exact Q.
    - pose proof (L_range _ _ _ HL) as Q. rewrite E in Q. exact Q.
    - pose proof (L_last _ _ _ HL) as Q. rewrite E in Q. exact Q.
    - discriminate.
    - discriminate.
    - split; [exact Hup|]. split; [exact Hcand|assumption]. }
  apply con_same; try assumption.
  intros i Hi. cbn. fu i j; [rewrite Hn; reflexivity|reflexivity].
Qed.

Lemma inv_ccas s c spur n batch up r j w :
  Inv s -> c < nc -> c_pc (cons s c) = CCas n batch up r j w -> Inv (cstep ns s c spur).
Proof.
  intros HI Hc E. prep HI Hc E HK HT HL Hp. destruct Hp as (Hup & Hcand & Hnb).
  pose proof Hcand as (Hj & H1 & H2).
  destruct (bits_eq s _ j HL Hj) as [Eb Ee].
  assert (Hk : c_ph (cons s c) j = PhTx).
  { pose proof (L_kind _ _ _ HL j Hj) as Q. rewrite E in Q. unfold exp_kind in Q. cbn in Q. rewrite Nat.eqb_refl in Q.
    destruct (c_ph (cons s c) j); try discriminate; reflexivity. }
  rewrite Hk in Eb, Ee. cbn in Eb, Ee.
  unfold cstep. rewrite E.
  destruct ((slots s j =? w)%N && negb spur) eqn:Ecas.
  - rewrite andb_true_iff, N.eqb_eq in Ecas. destruct Ecas as [Ew _]. subst w.
    set (k' := c_set_pc _ _).
    assert (Hpub : published s j).
    { split; intros C; rewrite C in H1; cbn in H1; unfold ts_of in H1; [rewrite N.div_0_l in H1 by discriminate; lia|].
      change (IN_WRITING / two32)%N with 0%N in H1. lia. }
    apply con_inc; try assumption.
    + rewrite Hk. reflexivity.
    + cbn. rewrite fupd_eq. reflexivity.
    + intros i Hi Hne. cbn. rewrite fupd_neq by assumption. reflexivity.
    + eapply live_update with (k := cons s c) (j := j); try assumption; try reflexivity;
      try (rewrite ?E; reflexivity); cbn.
      * intros i Hne; apply fupd_neq; assumption.
      * rewrite fupd_eq, Eb, Ee. reflexivity.
      * rewrite fupd_eq. cbn. intros id t Q. injection Q as <- <-. split; reflexivity.
      * intros i Hi Hne. rewrite E. unfold exp_kind. cbn. rewrite (eqb_neq' i j) by assumption. reflexivity.
      * rewrite fupd_eq. unfold exp_kind. cbn. rewrite Nat.eqb_refl. reflexivity.
      * rewrite fupd_eq. discriminate.
      * pose proof (L_sorted _ _ _ HL) as Q. rewrite E in Q. exact Q.
      * pose proof (L_range _ _ _ HL) as Q. rewrite E in Q. exact Q.
      * pose proof (L_last _ _ _ HL) as Q. rewrite E in Q. exact Q.
      * discriminate.
      * discriminate.
      * repeat split; [assumption|exact H1|]. intros i Hin. destruct Hup as [_ Hup].
        specialize (Hup i Hin). change (vts s j) with (ts_of (slots s j)). lia.
  - apply inv_cpc; try assumption; try (rewrite ?E; reflexivity).
    cbn. repeat split; try assumption; apply Hup.
Qed.

Lemma inv_cabort s c spur n batch up r j :
  Inv s -> c < nc -> c_pc (cons s c) = CAbort n batch up r j -> Inv (cstep ns s c spur).
Proof.
  intros HI Hc E. prep HI Hc E HK HT HL Hp. destruct Hp as (Hup & Hj & Hnb).
  destruct (bits_eq s _ j HL Hj) as [Eb Ee].
  assert (Hk : c_ph (cons s c) j = PhTx).
  { pose proof (L_kind _ _ _ HL j Hj) as Q. rewrite E in Q. unfold exp_kind in Q. cbn in Q. rewrite Nat.eqb_refl in Q.
    destruct (c_ph (cons s c) j); try discriminate; reflexivity. }
  rewrite Hk in Eb, Ee. cbn in Eb, Ee.
  unfold cstep. rewrite E, Eb, Ee. cbn [negb].
  set (k1 := c_set_ph _ _ _).
  assert (HC : forall i, i < ns -> counted (c_ph k1 i) = counted (c_ph (cons s c) i)).
  { intros i Hi. cbn. fu i j; [rewrite Hk; reflexivity|reflexivity]. }
  assert (HK' : forall p, tx_slot p = None -> ref_slot p = None -> batch_of p = batch -> is_deliver p = false ->
            live p = true -> pc_c_ok ns s (c_set_pc k1 p) -> cons_ok ns s (c_set_pc k1 p)).
  { intros p T1 T2 T3 T4 T5 T6.
    eapply live_update with (k := cons s c) (j := j); try assumption; try reflexivity;
      try (rewrite ?E; reflexivity); cbn.
    - intros i Hne; apply fupd_neq; assumption.
    - intros i Hne; apply fupd_neq; assumption.
    - rewrite !fupd_eq, Ee. reflexivity.
    - rewrite fupd_eq. discriminate.
    - intros i Hi Hne. rewrite E. unfold exp_kind. rewrite T1, T2, T3. cbn. rewrite (eqb_neq' i j) by assumption. reflexivity.
    - rewrite fupd_eq. unfold exp_kind. rewrite T1, T2, T3. cbn.
      destruct (inb j batch) eqn:Q; [apply inb_In in Q; contradiction|reflexivity].
    - rewrite fupd_eq. discriminate.
    - pose proof (L_sorted _ _ _ HL) as Q. rewrite E in Q. rewrite T3. exact Q.
    - pose proof (L_range _ _ _ HL) as Q. rewrite E in Q. rewrite T3. exact Q.
    - pose proof (L_last _ _ _ HL) as Q. rewrite E in Q. rewrite T3, T4. exact Q.
    - rewrite T4. discriminate.
    - rewrite T4. discriminate. }
  destruct (S r <? MAX_REFERENCE_RETRIES).
  - apply con_same; try assumption. apply HK'; try reflexivity. cbn. split; [exact Hup|exact I].
  - apply con_same; try assumption. apply HK'; try reflexivity. cbn. split; [lia|]. exists []. split; [reflexivity|].
    intros i [].
Qed.

Lemma inv_ccommit s c spur n batch j :
  Inv s -> c < nc -> c_pc (cons s c) = CCommit n batch j -> Inv (cstep ns s c spur).
Proof.
  intros HI Hc E. prep HI Hc E HK HT HL Hp. destruct Hp as (Hj & Hlt & Hbt).
  destruct (bits_eq s _ j HL Hj) as [Eb Ee].
  assert (Hk : exists id t, c_ph (cons s c) j = PhRef id t).
  { pose proof (L_kind _ _ _ HL j Hj) as Q. rewrite E in Q. unfold exp_kind in Q. cbn in Q. rewrite Nat.eqb_refl in Q.
    destruct (c_ph (cons s c) j); try discriminate; eauto. }
  destruct Hk as (id & t & Hk).
  rewrite Hk in Eb, Ee. cbn in Eb, Ee.
  unfold cstep. rewrite E, Eb, Ee, Hk. cbn [negb].
  apply con_same; try assumption.
  - intros i Hi. cbn. fu i j; [rewrite Hk; reflexivity|reflexivity].
  - eapply live_update with (k := cons s c) (j := j); try assumption; try reflexivity;
      try (rewrite ?E; reflexivity); cbn.
    + intros i Hne; apply fupd_neq; assumption.
    + intros i Hne; apply fupd_neq; assumption.
    + rewrite !fupd_eq, Eb. reflexivity.
    + rewrite fupd_eq. intros id' t' Q. apply HT; [assumption|]. rewrite Hk. exact Q.
    + intros i Hi Hne. rewrite E. unfold exp_kind. cbn. rewrite (eqb_neq' i j) by assumption.
      replace (Nat.eqb i j) with false by (symmetry; apply Nat.eqb_neq; assumption). reflexivity.
    + rewrite fupd_eq. unfold exp_kind. cbn. rewrite Nat.eqb_refl. reflexivity.
    + rewrite fupd_eq. discriminate.
    + pose proof (L_sorted _ _ _ HL) as Q. rewrite E in Q. constructor; [exact Q|].
      apply Forall_forall. exact Hbt.
    + intros i [<-|Hin]; [assumption|]. pose proof (L_range _ _ _ HL i) as Q. rewrite E in Q. exact (Q Hin).
    + intros i [<-|Hin]; [assumption|]. pose proof (L_last _ _ _ HL i) as Q. rewrite E in Q. exact (Q Hin).
    + discriminate.
    + discriminate.
Qed.

Lemma inv_cload s c spur n batch j :
  Inv s -> c < nc -> c_pc (cons s c) = CLoad n batch j -> Inv (cstep ns s c spur).
Proof.
  intros HI Hc E. prep HI Hc E HK HT HL Hp.
  unfold cstep. rewrite E. destruct ((length (j :: batch) =? c_cap (cons s c)) || (n <=? 1)).
  - apply con_same; try assumption; [reflexivity|]. apply finish_ok; try assumption; rewrite E; reflexivity.
  - apply inv_cpc; try assumption; try (rewrite ?E; reflexivity).
    assert (Hj : j < ns). { apply (L_range _ _ _ HL). rewrite E. left; reflexivity. }
    cbn. split; [|exact I]. change (ts_of (slots s j)) with (vts s j). split.
    + assert (HC : counted (c_ph (cons s c) j) = true).
      { apply kind_batch_counted. eapply batch_kind; [exact HL|]. rewrite E. left; reflexivity. }
      pose proof (counted_pub ns nc B Hnc HB s c j HI Hc Hj HC) as P.
      destruct (slot_ok_pub nc B Hnc HB s j (I_hist _ _ _ _ HI) (I_slot _ _ _ _ HI j Hj) P) as (t & _ & _ & _ & V & _ & HtB).
      unfold TIMESTAMP_MAX, two32 in *. lia.
    + pose proof (L_sorted _ _ _ HL) as Q. rewrite E in Q. cbn in Q. inversion Q as [|? ? Q1 Q2]; subst.
      rewrite Forall_forall in Q2. intros i [<-|Hin]; [lia|]. specialize (Q2 i Hin). lia.
Qed.

Lemma inv_cnewest s c spur todo batch newest :
  Inv s -> c < nc -> c_pc (cons s c) = CNewest todo batch newest -> Inv (cstep ns s c spur).
Proof.
  intros HI Hc E. prep HI Hc E HK HT HL Hp. destruct Hp as (Hge & done & Eb & Hd).
  unfold cstep. rewrite E. destruct todo as [|j t].
  - apply con_same; try assumption; [reflexivity|]. split; [exact HT|].
    rewrite app_nil_r in Eb. subst done.
    assert (Hbp : forall i, In i batch -> published s i).
    { intros i Hin. assert (Hin' : In i (batch_of (c_pc (cons s c)))) by (rewrite E; exact Hin).
      apply (counted_pub ns nc B Hnc HB s c i HI Hc (L_range _ _ _ HL i Hin')).
      apply kind_batch_counted. eapply batch_kind; eassumption. }
    cbn [c_set_pc c_pc live]. destruct HL. split; cbn; try assumption; rewrite ?E in *; cbn in *; try assumption.
    + intros i Hi Hde. specialize (L_held i Hi Hde). lia.
    + exact I.
    + intros id i Hid Hi P Hlt. apply L_dnew; try assumption. lia.
    + intros id i Hid _ Hin. apply L_dnew; try assumption; [apply L_range; assumption| |apply L_last; assumption].
      apply Hbp; assumption.
  - apply inv_cpc; try assumption; try (rewrite ?E; reflexivity).
    cbn. split; [lia|]. exists (done ++ [j]). split; [rewrite <- app_assoc; exact Eb|].
    intros i Hin. apply in_app_or in Hin. destruct Hin as [Hin|[<-|[]]].
    + specialize (Hd i Hin). lia.
    + unfold vts. lia.
Qed.

Lemma inv_cdeliver s c spur todo :
  Inv s -> c < nc -> c_pc (cons s c) = CDeliver todo -> Inv (cstep ns s c spur).
Proof.
  intros HI Hc E. prep HI Hc E HK HT HL Hp.
  unfold cstep. rewrite E. destruct todo as [|j t].
  - apply con_same; try assumption; [reflexivity|]. split; [exact HT|].
    cbn [c_set_pc c_pc live]. destruct HL. rewrite E in *. split; cbn; try assumption; try exact I; try discriminate.
    all: try (intros; contradiction).
  - assert (Hj : j < ns). { apply (L_range _ _ _ HL). rewrite E. left; reflexivity. }
    assert (Hk : exists id t0, c_ph (cons s c) j = PhBatch id t0).
    { pose proof (batch_kind ns s _ j HL) as Q. rewrite E in Q. specialize (Q (or_introl eq_refl)).
      destruct (c_ph (cons s c) j); try discriminate; eauto. }
    destruct Hk as (id & t0 & Hk). rewrite Hk.
    destruct (HT j id t0 Hj) as [Eid Et]. { rewrite Hk; reflexivity. }
    destruct (bits_eq s _ j HL Hj) as [Eb Ee]. rewrite Hk in Eb, Ee. cbn in Eb, Ee.
    destruct HL. rewrite E in *. cbn in L_sorted. inversion L_sorted as [|? ? Q1 Q2]; subst.
    rewrite Forall_forall in Q2.
    assert (HCj : counted (c_ph (cons s c) j) = true) by (rewrite Hk; reflexivity).
    pose proof (counted_pub ns nc B Hnc HB s c j HI Hc Hj HCj) as Pj.
    assert (Hord : forall i, i < ns -> published s i -> (vts s j < vts s i)%N -> sid s j < sid s i).
    { intros i Hi Pi Hlt. destruct (lt_eq_lt_dec (sid s j) (sid s i)) as [[Hl|He]|Hg]; [assumption| |].
      - pose proof (I_inj _ _ _ _ HI j i Hj Hi Pj Pi He). subst. lia.
      - pose proof (I_ord _ _ _ _ HI i j Hi Hj Pi Pj Hg). lia. }
    assert (Hbp : forall i, In i t -> i < ns /\ published s i).
    { intros i Hin. assert (Hi : i < ns) by (apply L_range; right; assumption). split; [assumption|].
      apply (counted_pub ns nc B Hnc HB s c i HI Hc Hi). apply kind_batch_counted. rewrite L_kind by assumption.
      unfold exp_kind. cbn [tx_slot ref_slot oeqb batch_of]. rewrite (proj2 (inb_In i (j :: t)) (or_intror Hin)). reflexivity. }
    apply con_same; try assumption.
    + intros i Hi. cbn. fu i j; [rewrite Hk; reflexivity|reflexivity].
    + split.
      * cbn. intros i id' t' Hi Ht. fu i j; [|apply HT; assumption].
        cbn in Ht. injection Ht as <- <-. auto.
      * cbn [c_set_pc c_pc live]. split; cbn; try assumption.
        -- intros i Hi. fu i j; [rewrite Eb, Ee; reflexivity|]. exact (L_bits i Hi).
        -- intros i Hi. fu i j.
           ++ cbn. unfold exp_kind. cbn. destruct (existsb (Nat.eqb j) t) eqn:Q; [|reflexivity].
              change (inb j t = true) in Q. apply inb_In in Q. specialize (Q2 j Q). lia.
           ++ rewrite L_kind by assumption. unfold exp_kind. cbn.
              replace (Nat.eqb i j) with false by (symmetry; apply Nat.eqb_neq; assumption). reflexivity.
        -- intros i Hi Hde. fu i j; [|apply L_held; assumption]. apply (L_last j). left; reflexivity.
        -- intros i Hin. apply L_range. right; assumption.
        -- intros i Hin. apply (L_last i). right; assumption.
        -- apply SS_snoc; [assumption|]. intros y Hy.
           exact (L_dbatch y j Hy eq_refl (or_introl eq_refl)).
        -- intros id Hid. apply in_app_or in Hid. destruct Hid as [Hid|[<-|[]]]; [auto|].
           exact (I_sid _ _ _ _ HI j Hj Pj).
        -- intros id i Hid Hi Pi Hlt. apply in_app_or in Hid. destruct Hid as [Hid|[<-|[]]].
           ++ apply L_dnew; assumption.
           ++ apply Hord; [assumption|assumption|]. pose proof (L_last j (or_introl eq_refl)) as Q. cbn in Q. lia.
        -- intros id i Hid _ Hin. apply in_app_or in Hid. destruct Hid as [Hid|[<-|[]]].
           ++ exact (L_dbatch id i Hid eq_refl (or_intror Hin)).
           ++ destruct (Hbp i Hin) as [Hi Pi]. apply Hord; [assumption|assumption|]. apply Q2. assumption.
Qed.

(** ** Rollback after a crash *)

Lemma dead_tag s k : dead_ok ns k -> forall i id t, i < ns -> tagged (c_ph k i) = Some (id, t) -> id = sid s i /\ t = vts s i.
Proof. intros HD i id t Hi Ht. destruct (D_ph _ _ HD i Hi) as [[b Q]|Q]; rewrite Q in Ht; discriminate. Qed.

Lemma dead_cons_ok s k : live (c_pc k) = false -> dead_ok ns k -> cons_ok ns s k.
Proof. intros Hl HD. split; [apply dead_tag; assumption|]. rewrite Hl. assumption. Qed.

Lemma inv_crb s c spur i st :
  Inv s -> c < nc -> c_pc (cons s c) = CRb i st -> Inv (cstep ns s c spur).
Proof.
  intros HI Hc E. pose proof (I_cons _ _ _ _ HI c Hc) as HK. pose proof HK as [HT HL].
  rewrite E in HL. cbn [live] in HL. destruct HL as [Dph Dnone Dfull Drb]. rewrite E in Drb.
  destruct Drb as (Hdone & Hst).
  unfold cstep. rewrite E. destruct st as [|[|st]].
  - destruct (Nat.ltb_spec i ns) as [Hi|Hi].
    + destruct (c_begin (cons s c) i) eqn:Eb; destruct (c_end (cons s c) i) eqn:Ee.
      * (* (1,1) *)
        pose proof (Dfull i Hi Eb Ee) as HC.
        apply con_same; try assumption; [reflexivity|].
        apply dead_cons_ok; [reflexivity|]. split; cbn; try assumption.
        -- intros j Hj. fu j i; [intros _; rewrite Ee; discriminate|apply Dnone; assumption].
        -- intros j Hj. fu j i; [discriminate|apply Dfull; assumption].
        -- split.
           ++ intros j Hj Hjn. rewrite fupd_neq by lia. auto.
           ++ rewrite fupd_eq. repeat split; try assumption.
              destruct (Dph i Hi) as [[b Q]|Q]; rewrite Q in *; cbn in HC; [subst; reflexivity|discriminate].
      * apply con_same; try assumption; [reflexivity|].
        apply dead_cons_ok; [reflexivity|]. split; cbn; try assumption; exact I.
      * apply con_same; try assumption; [reflexivity|].
        apply dead_cons_ok; [reflexivity|]. split; cbn; try assumption; exact I.
      * (* (0,0) *)
        pose proof (Dnone i Hi Eb Ee) as HC.
        apply con_same; try assumption.
        -- intros j Hj. cbn. fu j i; [rewrite HC; reflexivity|reflexivity].
        -- apply dead_cons_ok; [reflexivity|]. split; cbn.
           ++ intros j Hj. fu j i; [right; reflexivity|auto].
           ++ intros j Hj. fu j i; [reflexivity|auto].
           ++ intros j Hj. fu j i; [rewrite Eb; discriminate|auto].
           ++ split; [|exact I]. intros j Hj Hjn. fu j i; [auto|]. apply Hdone; [lia|assumption].
    + (* done *)
      assert (HN : forall j, j < ns -> c_ph (cons s c) j = PhNone /\ c_begin (cons s c) j = false /\ c_end (cons s c) j = false)
        by (intros j Hj; apply Hdone; lia).
      apply con_same; try assumption; [reflexivity|]. split; cbn; [assumption|].
      split; cbn; try (intros; contradiction).
      * intros j Hj. destruct (HN j Hj) as (Q1 & Q2 & Q3). rewrite Q1, Q2, Q3. reflexivity.
      * intros j Hj. destruct (HN j Hj) as (Q1 & Q2 & Q3). rewrite Q1. reflexivity.
      * intros j Hj. destruct (HN j Hj) as (Q1 & Q2 & Q3). rewrite Q1. discriminate.
      * constructor.
      * exact I.
      * constructor.
  - destruct Hst as (Hi & Eb & Ee & Hk).
    apply con_dec; try assumption.
    + rewrite Hk. reflexivity.
    + cbn. rewrite fupd_eq. reflexivity.
    + intros j Hj Hne. cbn. rewrite fupd_neq by assumption. reflexivity.
    + apply dead_cons_ok; [reflexivity|]. split; cbn.
      * intros j Hj. fu j i; [left; eauto|auto].
      * intros j Hj. fu j i; [reflexivity|auto].
      * intros j Hj. fu j i; [rewrite Eb; discriminate|auto].
      * split; [intros j Hj Hjn; rewrite fupd_neq by lia; auto|]. rewrite fupd_eq. auto.
  - destruct Hst as (Hi & Eb & Ee & Hk). rewrite Eb, Ee. cbn [negb orb].
    apply con_same; try assumption.
    + intros j Hj. cbn. fu j i; [rewrite Hk; reflexivity|reflexivity].
    + apply dead_cons_ok; [reflexivity|]. split; cbn.
      * intros j Hj. fu j i; [right; reflexivity|auto].
      * intros j Hj. fu j i; [reflexivity|auto].
      * intros j Hj. fu j i; [discriminate|auto].
      * split; [|exact I]. intros j Hj Hjn. fu j i; [auto|]. apply Hdone; [lia|assumption].
Qed.

Lemma cstep_spur s c spur :
  (forall n b up r j w, c_pc (cons s c) <> CCas n b up r j w) -> cstep ns s c spur = cstep ns s c false.
Proof. intros H. unfold cstep. destruct (c_pc (cons s c)); try reflexivity. exfalso. eapply H; reflexivity. Qed.

Lemma inv_cstep s c spur : Inv s -> c < nc -> Inv (cstep ns s c spur).
Proof.
  intros HI Hc. destruct (c_pc (cons s c)) eqn:E.
  - unfold cstep; rewrite E; assumption.
  - rewrite cstep_spur by (intros; rewrite E; discriminate). eapply inv_cscan; eassumption.
  - eapply inv_ctx; eassumption.
  - eapply inv_ccas; eassumption.
  - eapply inv_cabort; eassumption.
  - eapply inv_ccommit; eassumption.
  - eapply inv_cload; eassumption.
  - eapply inv_cnewest; eassumption.
  - eapply inv_cdeliver; eassumption.
  - unfold cstep; rewrite E; assumption.
  - unfold cstep; rewrite E; assumption.
  - eapply inv_crb; eassumption.
Qed.

(** ** SamplePtr destruction (any thread of the consumer process) *)

Lemma held_live s c i : Inv s -> c < nc -> i < ns ->
  (match c_ph (cons s c) i with PhHeld _ _ | PhD1 _ _ | PhD2 => True | _ => False end) ->
  live (c_pc (cons s c)) = true /\ live_ok ns s (cons s c).
Proof.
  intros HI Hc Hi H. pose proof (I_cons _ _ _ _ HI c Hc) as [HT HL].
  destruct (live (c_pc (cons s c))) eqn:E; [auto|].
  destruct (D_ph _ _ HL i Hi) as [[b Q]|Q]; rewrite Q in H; contradiction.
Qed.

(** the owning thread is not at slot [i], so changing its phase between
    user-owned phases keeps everything *)
Lemma live_free_update s k i p b e :
  cons_ok ns s k -> live (c_pc k) = true -> i < ns ->
  kind_of (c_ph k i) = KFree -> kind_of p = KFree ->
  ~ (pickable (c_ph k i) /\ ~ pickable p) ->
  (b, e) = bits_of p ->
  (forall id t, tagged p = Some (id, t) -> id = sid s i /\ t = vts s i) ->
  (delivered_ph p = true -> (vts s i <= c_last k)%N) ->
  forall k', c_pc k' = c_pc k -> c_last k' = c_last k -> c_deliv k' = c_deliv k ->
  (forall j, c_ph k' j = fupd (c_ph k) i p j) ->
  (forall j, j <> i -> c_begin k' j = c_begin k j) -> c_begin k' i = b ->
  (forall j, j <> i -> c_end k' j = c_end k j) -> c_end k' i = e ->
  cons_ok ns s k'.
Proof.
  intros HK Hl Hi Hk0 Hk1 Hpk Hbits Htag Hdel k' E1 E2 E3 Eph Eb1 Eb2 Ee1 Ee2.
  pose proof HK as [HT HL]. rewrite Hl in HL.
  assert (Hphi : c_ph k' i = p) by (rewrite Eph; apply fupd_eq).
  assert (Hphj : forall j, j <> i -> c_ph k' j = c_ph k j) by (intros; rewrite Eph; apply fupd_neq; assumption).
  assert (Hpick : forall j, pickable (c_ph k j) -> pickable (c_ph k' j)).
  { intros j Hj. destruct (Nat.eq_dec j i) as [->|Hne]; [|rewrite Hphj by assumption; exact Hj].
    rewrite Hphi. destruct p; cbn in Hk1; try discriminate; try (exfalso; apply Hpk; split; [exact Hj|intros [C|C]; discriminate]);
    [left|right]; reflexivity. }
  eapply live_update with (k := k) (j := i); try assumption; rewrite ?E1; try assumption.
  - rewrite Hphi, Eb2, Ee2. assumption.
  - rewrite Hphi. assumption.
  - reflexivity.
  - rewrite Hphi, Hk1, <- Hk0. exact (L_kind _ _ _ HL i Hi).
  - rewrite Hphi. assumption.
  - exact (L_sorted _ _ _ HL).
  - exact (L_range _ _ _ HL).
  - exact (L_last _ _ _ HL).
  - auto.
  - auto.
  - pose proof (L_pc _ _ _ HL) as Hp. unfold pc_c_ok, cand_ok in *. rewrite E1, E2.
    destruct (c_pc k); try assumption.
    + destruct Hp as (A1 & A2). split; [assumption|]. destruct cand as [[j w]|]; [|exact I].
      destruct A2. split; auto.
    + destruct Hp as (A1 & A2 & A3). auto.
Qed.

Lemma inv_deref_begin s c i id t :
  Inv s -> c < nc -> i < ns -> c_ph (cons s c) i = PhHeld id t ->
  c_begin (cons s c) i && c_end (cons s c) i = true /\
  Inv (set_con s c (c_set_ph (c_set_begin (cons s c) i false) i (PhD1 id t))).
Proof.
  intros HI Hc Hi Hk. destruct (held_live s c i HI Hc Hi) as [Hl HL]. { rewrite Hk; exact I. }
  pose proof (I_cons _ _ _ _ HI c Hc) as HK.
  destruct (bits_eq s _ i HL Hi) as [Eb Ee]. rewrite Hk in Eb, Ee. cbn in Eb, Ee.
  split; [rewrite Eb, Ee; reflexivity|].
  apply con_same; try assumption.
  - intros j Hj. cbn. fu j i; [rewrite Hk; reflexivity|reflexivity].
  - eapply (live_free_update s (cons s c) i (PhD1 id t) false true); try assumption; try reflexivity; rewrite ?Hk; try reflexivity.
    + intros [[C|C] _]; discriminate.
    + intros id' t' Q. apply (K_tag _ _ _ HK i); [assumption|]. rewrite Hk. exact Q.
    + intros _. apply (L_held _ _ _ HL i Hi). rewrite Hk. reflexivity.
    + intros j Hne. cbn. apply fupd_neq; assumption.
    + cbn. apply fupd_eq.
Qed.

Lemma inv_deref_sub s c i id t :
  Inv s -> c < nc -> i < ns -> c_ph (cons s c) i = PhD1 id t ->
  Inv (set_con (set_slots s (fupd (slots s) i (w_dec (slots s i)))) c (c_set_ph (cons s c) i PhD2)).
Proof.
  intros HI Hc Hi Hk. destruct (held_live s c i HI Hc Hi) as [Hl HL]. { rewrite Hk; exact I. }
  pose proof (I_cons _ _ _ _ HI c Hc) as HK.
  destruct (bits_eq s _ i HL Hi) as [Eb Ee]. rewrite Hk in Eb, Ee. cbn in Eb, Ee.
  apply con_dec; try assumption.
  - rewrite Hk. reflexivity.
  - cbn. rewrite fupd_eq. reflexivity.
  - intros j Hj Hne. cbn. rewrite fupd_neq by assumption. reflexivity.
  - eapply (live_free_update s (cons s c) i PhD2 false true); try assumption; try reflexivity; rewrite ?Hk; try reflexivity;
      try discriminate.
    intros [[C|C] _]; discriminate.
Qed.

Lemma inv_deref_commit s c i :
  Inv s -> c < nc -> i < ns -> c_ph (cons s c) i = PhD2 ->
  negb (c_begin (cons s c) i) && c_end (cons s c) i = true /\
  Inv (set_con s c (c_set_ph (c_set_end (cons s c) i false) i PhNone)).
Proof.
  intros HI Hc Hi Hk. destruct (held_live s c i HI Hc Hi) as [Hl HL]. { rewrite Hk; exact I. }
  pose proof (I_cons _ _ _ _ HI c Hc) as HK.
  destruct (bits_eq s _ i HL Hi) as [Eb Ee]. rewrite Hk in Eb, Ee. cbn in Eb, Ee.
  split; [rewrite Eb, Ee; reflexivity|].
  apply con_same; try assumption.
  - intros j Hj. cbn. fu j i; [rewrite Hk; reflexivity|reflexivity].
  - eapply (live_free_update s (cons s c) i PhNone false false); try assumption; try reflexivity; rewrite ?Hk; try reflexivity;
      try discriminate.
    + intros [_ C]. apply C. left; reflexivity.
    + intros j Hne. cbn. apply fupd_neq; assumption.
    + cbn. apply fupd_eq.
Qed.

Lemma inv_crash s c :
  Inv s -> c < nc ->
  Inv (set_con s c (mkCons CDead (c_begin (cons s c)) (c_end (cons s c))
        (fun i => PhOrph (counted (c_ph (cons s c) i))) (c_last (cons s c)) (c_cap (cons s c)) (c_deliv (cons s c)))).
Proof.
  intros HI Hc. pose proof (I_cons _ _ _ _ HI c Hc) as [HT HL].
  apply con_same; try assumption; [reflexivity|].
  apply dead_cons_ok; [reflexivity|].
  split; cbn; [intros; left; eauto| | |exact I].
  - intros i Hi Eb Ee. destruct (live (c_pc (cons s c))) eqn:El.
    + destruct (bits_eq s _ i HL Hi) as [Qb Qe]. rewrite Eb in Qb. rewrite Ee in Qe.
      destruct (c_ph (cons s c) i) eqn:Ep; cbn in Qb, Qe; try discriminate; try reflexivity.
      pose proof (L_kind _ _ _ HL i Hi) as Q. rewrite Ep in Q. cbn in Q. unfold exp_kind in Q.
      destruct (oeqb _ _); [discriminate|]. destruct (oeqb _ _); [discriminate|]. destruct (inb _ _); discriminate.
    + exact (D_none _ _ HL i Hi Eb Ee).
  - intros i Hi Eb Ee. destruct (live (c_pc (cons s c))) eqn:El.
    + destruct (bits_eq s _ i HL Hi) as [Qb Qe]. rewrite Eb in Qb. rewrite Ee in Qe.
      destruct (c_ph (cons s c) i) eqn:Ep; cbn in Qb, Qe; try discriminate; reflexivity.
    + exact (D_full _ _ HL i Hi Eb Ee).
Qed.

Definition is_send (l : label) : N := match l with LPSend _ => 1%N | _ => 0%N end.

Lemma inv_step s l : Inv s -> (is_send l = 1%N -> (cur s + 1 <= B)%N) -> Inv (step ns nc s l).
Proof.
  intros HI Hs. unfold step. rewrite (I_abort _ _ _ _ HI).
  destruct l as [|i v|i|i| | | |c n|c spur|c i|c i|c i|c|c|c].
  - destruct (pc s) eqn:E; try assumption. apply inv_pc; [assumption|rewrite E; reflexivity|exact I].
  - destruct (pc s) eqn:E; try assumption. destruct (own s i) eqn:Eo; [|assumption]. apply inv_data; assumption.
  - destruct (pc s) eqn:E; try assumption. destruct (own s i) eqn:Eo; [|assumption]. apply inv_send; auto.
  - destruct (pc s) eqn:E; try assumption. destruct (own s i) eqn:Eo; [|assumption].
    apply inv_pc; [assumption|rewrite E; reflexivity|]. cbn. exact (I_own _ _ _ _ HI i Eo).
  - apply inv_pstep; assumption.
  - apply inv_pc; [assumption|discriminate|exact I].
  - destruct (pc s) eqn:E; try assumption. apply inv_pc; [assumption|discriminate|exact I].
  - destruct (Nat.ltb_spec c nc) as [Hc|]; [|assumption].
    destruct (c_pc (cons s c)) eqn:E; try assumption.
    destruct n as [|n].
    + apply con_same; try assumption; [reflexivity|]. apply finish_ok; try (rewrite ?E; reflexivity).
      exact (I_cons _ _ _ _ HI c Hc).
    + apply inv_cpc; try assumption; try (rewrite ?E; reflexivity).
      cbn. split; [|exact I]. split; [lia|]. intros i [].
  - destruct (Nat.ltb_spec c nc) as [Hc|]; [|assumption]. apply inv_cstep; assumption.
  - destruct ((c <? nc) && (i <? ns)) eqn:Eci; [|assumption].
    rewrite andb_true_iff, !Nat.ltb_lt in Eci. destruct Eci as [Hc Hi].
    destruct (c_ph (cons s c) i) eqn:E; try assumption.
    destruct (inv_deref_begin s c i id t HI Hc Hi E) as [-> H]. exact H.
  - destruct ((c <? nc) && (i <? ns)) eqn:Eci; [|assumption].
    rewrite andb_true_iff, !Nat.ltb_lt in Eci. destruct Eci as [Hc Hi].
    destruct (c_ph (cons s c) i) eqn:E; try assumption.
    eapply inv_deref_sub; eassumption.
  - destruct ((c <? nc) && (i <? ns)) eqn:Eci; [|assumption].
    rewrite andb_true_iff, !Nat.ltb_lt in Eci. destruct Eci as [Hc Hi].
    destruct (c_ph (cons s c) i) eqn:E; try assumption.
    destruct (inv_deref_commit s c i HI Hc Hi E) as [-> H]. exact H.
  - destruct (Nat.ltb_spec c nc) as [Hc|]; [|assumption].
    destruct (c_pc (cons s c)) eqn:E; try assumption.
    destruct (forallb _ _) eqn:Ef; [|assumption].
    assert (HN : forall i, i < ns -> c_ph (cons s c) i = PhNone).
    { intros i Hi. rewrite forallb_forall in Ef. specialize (Ef i). rewrite in_seq in Ef.
      specialize (Ef ltac:(lia)). destruct (c_ph (cons s c) i); try discriminate; reflexivity. }
    pose proof (I_cons _ _ _ _ HI c Hc) as [HT HL]. rewrite E in HL. cbn [live] in HL.
    apply con_same; try assumption; [reflexivity|]. split; cbn; [assumption|]. rewrite E. cbn [live].
    destruct HL. rewrite E in *. split; cbn; rewrite ?E; cbn; try assumption; try (intros; contradiction).
    + intros i Hi. rewrite HN by assumption. discriminate.
    + unfold pc_c_ok. cbn. rewrite E. exact I.
    + constructor.
  - destruct (Nat.ltb_spec c nc) as [Hc|]; [|assumption]. apply inv_crash; assumption.
  - destruct (Nat.ltb_spec c nc) as [Hc|]; [|assumption].
    pose proof (I_cons _ _ _ _ HI c Hc) as [HT HL].
    destruct (c_pc (cons s c)) eqn:E; try assumption; cbn [live] in HL.
    + apply con_same; try assumption; [reflexivity|]. apply dead_cons_ok; [reflexivity|].
      destruct HL. split; cbn; try assumption. split; [intros; lia|exact I].
    + apply con_same; try assumption; [reflexivity|]. apply dead_cons_ok; [reflexivity|].
      destruct HL. split; cbn; try assumption. split; [intros; lia|exact I].
Qed.

End P.
