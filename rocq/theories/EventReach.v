(** Consequences of the invariant for every reachable state. *)
From Verif Require Import SlotModel SlotWord EventModel EventInv EventProofs EventStep EventCons.
From Coq Require Import Sorting.Sorted.

(** number of Send calls in a schedule *)
Fixpoint sends (ls : list label) : N :=
  match ls with [] => 0%N | l :: r => (is_send l + sends r)%N end.

Lemma sends_app a b : sends (a ++ b) = (sends a + sends b)%N.
Proof. induction a as [|x a IH]; cbn [sends app]; [lia|rewrite IH; lia]. Qed.

Lemma is_send_01 l : is_send l = 0%N \/ is_send l = 1%N.
Proof. destruct l; cbn; auto. Qed.

Lemma inv_init ns nc caps : Inv ns nc 0 (init caps).
Proof.
  assert (HR : forall i, refs nc (init caps) i = 0).
  { intros i. unfold refs. apply countb_zero. intros; reflexivity. }
  assert (NP : forall i, ~ published (init caps) i) by (intros i [P _]; apply P; reflexivity).
  constructor; cbn [init abort slots own hist sid cur pc cons alive].
  - reflexivity.
  - intros i Hi. right; left. cbn [init slots own]. auto.
  - intros t v [].
  - intros i Hi P. destruct (NP _ P).
  - intros i j _ _ P. destruct (NP _ P).
  - intros i j _ _ P. destruct (NP _ P).
  - discriminate.
  - unfold INVALID_TIMESTAMP. lia.
  - intros _ i _ P. destruct (NP _ P).
  - exact I.
  - intros c Hc. split; cbn [c_ph tagged c_pc live]; [discriminate|].
    constructor; cbn [c_ph c_pc c_begin c_end c_last c_deliv batch_of]; try constructor;
      try (intros; discriminate); try (intros; reflexivity); intros; contradiction.
Qed.

Lemma inv_run ns nc B s ls :
  (N.of_nat nc < two32 - 1)%N -> (B + sends ls < two32 - 1)%N ->
  Inv ns nc B s -> Inv ns nc (B + sends ls)%N (run ns nc s ls).
Proof.
  revert B s. induction ls as [|l ls IH]; intros B s Hnc HB HI.
  - cbn in *. rewrite N.add_0_r. exact HI.
  - cbn [run fold_left sends] in *. rewrite N.add_assoc in *. apply IH; [assumption|assumption|].
    apply inv_step; [assumption|lia|eapply Inv_mono; [|exact HI]; lia|].
    intros Hs. pose proof (I_cur _ _ _ _ HI). lia.
Qed.

Lemma inv_reachable ns nc caps ls :
  (N.of_nat nc < two32 - 1)%N -> (sends ls < two32 - 1)%N ->
  Inv ns nc (sends ls) (run ns nc (init caps) ls).
Proof.
  intros Hnc Hs. apply (inv_run ns nc 0 (init caps) ls Hnc); [exact Hs|apply inv_init].
Qed.

(** The history only grows. *)
Lemma hist_step ns nc s l : exists e, hist (step ns nc s l) = hist s ++ e.
Proof.
  assert (Q : exists e, hist s = hist s ++ e) by (exists []; rewrite app_nil_r; reflexivity).
  unfold step. destruct (abort s); [exact Q|].
  destruct l as [|i v|i|i| | | |c n|c spur|c i|c i|c i|c|c|c]; try exact Q.
  - destruct (pc s); exact Q.
  - destruct (pc s); try exact Q. destruct (own s i); exact Q.
  - destruct (pc s); try exact Q. destruct (own s i); exact Q.
  - destruct (pc s); try exact Q. destruct (own s i); exact Q.
  - unfold pstep, p_retry. destruct (pc s) as [|r i b|r i w|i t|i|i| |i|i|i acc]; try exact Q.
    + destruct (i <? ns); [destruct (is_invalid _); exact Q|]. destruct b as [[j w]|]; [exact Q|].
      destruct (S r <=? _); exact Q.
    + destruct (_ =? _)%N; [exact Q|]. destruct (S r <=? _); exact Q.
    + eexists; reflexivity.
    + destruct (is_in_writing _); exact Q.
    + destruct (i <? ns); [destruct (is_in_writing _); exact Q|exact Q].
    + destruct (_ =? _)%N; exact Q.
    + destruct (i <? ns); exact Q.
  - destruct (pc s); exact Q.
  - destruct (c <? nc); [|exact Q]. destruct (c_pc (cons s c)); try exact Q. destruct n; exact Q.
  - destruct (c <? nc); [|exact Q]. unfold cstep.
    destruct (c_pc (cons s c)) as [|n b up r i cd|n b up r j w|n b up r j w|n b up r j|n b j|n b j|td b nw|td| | |i st]; try exact Q.
    + destruct (i <? ns); [exact Q|]. destruct cd as [[j w]|]; [|exact Q]. destruct (_ =? _)%N; exact Q.
    + destruct (c_begin _ _); [exact Q|]. destruct (c_end _ _); exact Q.
    + destruct (_ && _); exact Q.
    + destruct (negb _); [exact Q|]. destruct (c_end _ _); [exact Q|]. destruct (S r <? _); exact Q.
    + destruct (negb _); [exact Q|]. destruct (c_end _ _); [exact Q|]. destruct (c_ph _ _); exact Q.
    + destruct (_ || _); exact Q.
    + destruct td; exact Q.
    + destruct td; [exact Q|]. destruct (c_ph _ _); exact Q.
    + destruct st as [|[|st]].
      * destruct (i <? ns); [|exact Q]. destruct (c_begin _ _), (c_end _ _); exact Q.
      * exact Q.
      * destruct (_ || _); exact Q.
  - destruct (_ && _); [|exact Q]. destruct (c_ph _ _); try exact Q. destruct (_ && _); exact Q.
  - destruct (_ && _); [|exact Q]. destruct (c_ph _ _); exact Q.
  - destruct (_ && _); [|exact Q]. destruct (c_ph _ _); try exact Q. destruct (_ && _); exact Q.
  - destruct (_ <? _); [|exact Q]. destruct (c_pc _); try exact Q. destruct (forallb _ _); exact Q.
  - destruct (_ <? _); exact Q.
  - destruct (_ <? _); [|exact Q]. destruct (c_pc _); exact Q.
Qed.

Lemma hist_run ns nc s ls : exists e, hist (run ns nc s ls) = hist s ++ e.
Proof.
  revert s. induction ls as [|l ls IH]; intros s; cbn [run fold_left].
  - exists []. rewrite app_nil_r. reflexivity.
  - destruct (IH (step ns nc s l)) as [e E]. destruct (hist_step ns nc s l) as [e' E'].
    exists (e' ++ e). unfold run in E. rewrite E, E', app_assoc. reflexivity.
Qed.

Lemma run_app ns nc s a b : run ns nc s (a ++ b) = run ns nc (run ns nc s a) b.
Proof. unfold run. apply fold_left_app. Qed.

(** After the clean-up of a restarted provider nothing is left in writing. *)
Definition clean_ok (ns : nat) (s : evst) : Prop :=
  match pc s with
  | PClean i | PCleanCas i => forall j, j < i -> j < ns -> own s j = false
  | PLatest _ _ => forall j, j < ns -> own s j = false
  | _ => True
  end.

Lemma clean_same ns s s' : pc s' = pc s -> own s' = own s -> clean_ok ns s -> clean_ok ns s'.
Proof. unfold clean_ok. intros -> ->. auto. Qed.

Lemma own_cstep ns s c b : pc (cstep ns s c b) = pc s /\ own (cstep ns s c b) = own s.
Proof.
  assert (Q : pc s = pc s /\ own s = own s) by auto.
  unfold cstep.
  destruct (c_pc (cons s c)) as [|n bt up r i cd|n bt up r j w|n bt up r j w|n bt up r j|n bt j|n bt j|td bt nw|td| | |i st]; try exact Q.
    + destruct (i <? ns); [exact Q|]. destruct cd as [[j w]|]; [|exact Q]. destruct (_ =? _)%N; exact Q.
    + destruct (c_begin _ _); [exact Q|]. destruct (c_end _ _); exact Q.
    + destruct (_ && _); exact Q.
    + destruct (negb _); [exact Q|]. destruct (c_end _ _); [exact Q|]. destruct (S r <? _); exact Q.
    + destruct (negb _); [exact Q|]. destruct (c_end _ _); [exact Q|]. destruct (c_ph _ _); exact Q.
    + destruct (_ || _); exact Q.
    + destruct td; exact Q.
    + destruct td; [exact Q|]. destruct (c_ph _ _); exact Q.
    + destruct st as [|[|st]].
      * destruct (i <? ns); [|exact Q]. destruct (c_begin _ _), (c_end _ _); exact Q.
      * exact Q.
      * destruct (_ || _); exact Q.
Qed.

Lemma clean_step ns nc B s l :
  Inv ns nc B s -> clean_ok ns s -> clean_ok ns (step ns nc s l).
Proof.
  intros HI HC. unfold step. destruct (abort s); [exact HC|].
  destruct l as [|i v|i|i| | | |c n|c spur|c i|c i|c i|c|c|c]; try exact HC.
  - destruct (pc s) eqn:E; try exact HC; exact I.
  - destruct (pc s) eqn:E; try exact HC. destruct (own s i); exact HC.
  - destruct (pc s) eqn:E; try exact HC. destruct (own s i); [exact I|exact HC].
  - destruct (pc s) eqn:E; try exact HC. destruct (own s i); [exact I|exact HC].
  - unfold pstep, p_retry. destruct (pc s) as [|r i b|r i w|i t|i|i| |i|i|i acc] eqn:E; try exact HC.
    + destruct (i <? ns); [destruct (is_invalid _); exact I|]. destruct b as [[j w]|]; [exact I|].
      destruct (S r <=? _); exact I.
    + destruct (_ =? _)%N; [exact I|]. destruct (S r <=? _); exact I.
    + exact I.
    + destruct (is_in_writing _); exact I.
    + exact I.
    + unfold clean_ok in HC. rewrite E in HC.
      destruct (Nat.ltb_spec i ns) as [Hi|Hi].
      * destruct (is_in_writing (slots s i)) eqn:W; unfold clean_ok; cbn [set_pc pc own].
        -- exact HC.
        -- intros j Hj Hn. destruct (Nat.eq_dec j i) as [->|]; [|apply HC; lia].
           destruct (I_slot _ _ _ _ HI i Hi) as [[A _]|[[_ [A _]]|[t [_ [_ A]]]]]; try exact A.
           unfold is_in_writing in W. rewrite A in W. discriminate.
      * unfold clean_ok; cbn [set_pc pc own]. intros j Hj. apply HC; lia.
    + unfold clean_ok in HC. rewrite E in HC.
      destruct (_ =? _)%N; unfold clean_ok; cbn [set_pc set_own set_slots set_abort pc own].
      * intros j Hj Hn. unfold fupd. destruct (Nat.eqb_spec j i); [reflexivity|].
        apply HC; lia.
      * rewrite E. exact HC.
    + unfold clean_ok in HC. rewrite E in HC.
      destruct (i <? ns); unfold clean_ok; cbn [set_pc set_cur pc own]; [exact HC|exact I].
  - exact I.
  - destruct (pc s) eqn:E; try exact HC. unfold clean_ok; cbn [set_pc pc own]. intros; lia.
  - destruct (c <? nc); [|exact HC]. destruct (c_pc (cons s c)); try exact HC. destruct n; exact HC.
  - destruct (c <? nc); [|exact HC]. destruct (own_cstep ns s c spur).
    eapply clean_same; eassumption.
  - destruct (_ && _); [|exact HC]. destruct (c_ph _ _); try exact HC. destruct (_ && _); exact HC.
  - destruct (_ && _); [|exact HC]. destruct (c_ph _ _); exact HC.
  - destruct (_ && _); [|exact HC]. destruct (c_ph _ _); try exact HC. destruct (_ && _); exact HC.
  - destruct (_ <? _); [|exact HC]. destruct (c_pc _); try exact HC. destruct (forallb _ _); exact HC.
  - destruct (_ <? _); exact HC.
  - destruct (_ <? _); [|exact HC]. destruct (c_pc _); exact HC.
Qed.

Lemma clean_reachable ns nc caps ls :
  (N.of_nat nc < two32 - 1)%N -> (sends ls < two32 - 1)%N ->
  clean_ok ns (run ns nc (init caps) ls).
Proof.
  intros Hnc. induction ls as [|l ls IH] using rev_ind; intros Hs.
  - exact I.
  - rewrite sends_app in Hs. rewrite run_app. cbn [run fold_left].
    eapply clean_step; [apply inv_reachable; [exact Hnc|]|apply IH]; lia.
Qed.

(** Slots outside the writing state keep publication, sequence number and value
    under every step of a provider that is dead or restarting. *)
Lemma dead_keeps ns nc s l i :
  alive (pc s) = false -> own s i = false ->
  data (step ns nc s l) i = data s i /\ sid (step ns nc s l) i = sid s i /\
  hist (step ns nc s l) = hist s /\ own (step ns nc s l) i = false.
Proof.
  intros HA HO.
  assert (Q : data s i = data s i /\ sid s i = sid s i /\ hist s = hist s /\ own s i = false) by auto.
  unfold step. destruct (abort s); [exact Q|].
  destruct l as [|k v|k|k| | | |c n|c spur|c k|c k|c k|c|c|c]; try exact Q.
  - destruct (pc s); exact Q.
  - destruct (pc s); try exact Q. destruct (own s k); [discriminate|exact Q].
  - destruct (pc s); try exact Q. destruct (own s k); exact Q.
  - destruct (pc s); try exact Q. destruct (own s k); exact Q.
  - unfold pstep, p_retry. destruct (pc s) as [|r k b|r k w|k t|k|k| |k|k|k acc] eqn:E; try discriminate HA; try exact Q.
    + destruct (k <? ns); [destruct (is_in_writing _); exact Q|exact Q].
    + destruct (_ =? _)%N; [|exact Q].
      cbn [set_pc set_own set_slots data sid hist own]. repeat split.
      unfold fupd. destruct (Nat.eqb i k); [reflexivity|exact HO].
    + destruct (k <? ns); exact Q.
  - destruct (pc s); exact Q.
  - destruct (c <? nc); [|exact Q]. destruct (c_pc (cons s c)); try exact Q. destruct n; exact Q.
  - destruct (c <? nc); [|exact Q].
    unfold cstep.
  destruct (c_pc (cons s c)) as [|n bt up r j cd|n bt up r j w|n bt up r j w|n bt up r j|n bt j|n bt j|td bt nw|td| | |j st]; try exact Q.
    + destruct (j <? ns); [exact Q|]. destruct cd as [[m w]|]; [|exact Q]. destruct (_ =? _)%N; exact Q.
    + destruct (c_begin _ _); [exact Q|]. destruct (c_end _ _); exact Q.
    + destruct (_ && _); exact Q.
    + destruct (negb _); [exact Q|]. destruct (c_end _ _); [exact Q|]. destruct (S r <? _); exact Q.
    + destruct (negb _); [exact Q|]. destruct (c_end _ _); [exact Q|]. destruct (c_ph _ _); exact Q.
    + destruct (_ || _); exact Q.
    + destruct td; exact Q.
    + destruct td; [exact Q|]. destruct (c_ph _ _); exact Q.
    + destruct st as [|[|st]].
      * destruct (j <? ns); [|exact Q]. destruct (c_begin _ _), (c_end _ _); exact Q.
      * exact Q.
      * destruct (_ || _); exact Q.
  - destruct (_ && _); [|exact Q]. destruct (c_ph _ _); try exact Q. destruct (_ && _); exact Q.
  - destruct (_ && _); [|exact Q]. destruct (c_ph _ _); exact Q.
  - destruct (_ && _); [|exact Q]. destruct (c_ph _ _); try exact Q. destruct (_ && _); exact Q.
  - destruct (_ <? _); [|exact Q]. destruct (c_pc _); try exact Q. destruct (forallb _ _); exact Q.
  - destruct (_ <? _); exact Q.
  - destruct (_ <? _); [|exact Q]. destruct (c_pc _); exact Q.
Qed.

Lemma word_neq_invalid t r : (0 < t)%N -> word t r <> INVALID_EVENT.
Proof. intros Ht C. pose proof (word_not_invalid t r Ht) as W. rewrite C in W. discriminate. Qed.

Lemma dead_pub ns nc B s l i :
  Inv ns nc B s -> alive (pc s) = false -> i < ns -> published s i ->
  (N.of_nat nc < two32 - 1)%N -> (B < two32 - 1)%N ->
  slots (step ns nc s l) i <> INVALID_EVENT.
Proof.
  intros HI HA Hi HP Hnc HB.
  destruct (slot_ok_pub nc B Hnc HB s i (I_hist _ _ _ _ HI) (I_slot _ _ _ _ HI i Hi) HP)
    as (t & Hn & Ew & Ho & Ev & Ht & HtB).
  pose proof (refs_small' nc B Hnc HB s i) as Hr'. pose proof (refs_small nc B Hnc HB s i) as Hr.
  assert (Ht32 : (t < two32)%N) by lia.
  assert (Q : slots s i <> INVALID_EVENT) by apply HP.
  unfold step. destruct (abort s); [exact Q|].
  destruct l as [|k v|k|k| | | |c n|c spur|c k|c k|c k|c|c|c]; try exact Q.
  - destruct (pc s); exact Q.
  - destruct (pc s); try exact Q. destruct (own s k); exact Q.
  - destruct (pc s); try exact Q. destruct (own s k); exact Q.
  - destruct (pc s); try exact Q. destruct (own s k); exact Q.
  - unfold pstep, p_retry. destruct (pc s) as [|r k b|r k w|k t'|k|k| |k|k|k acc] eqn:E; try discriminate HA; try exact Q.
    + destruct (k <? ns); [destruct (is_in_writing _); exact Q|exact Q].
    + destruct (N.eqb_spec (slots s k) IN_WRITING) as [Hk|]; [|exact Q].
      cbn [set_pc set_own set_slots slots]. rewrite fupd_neq; [exact Q|].
      intros ->. apply (proj2 HP). exact Hk.
    + destruct (k <? ns); exact Q.
  - destruct (pc s); exact Q.
  - destruct (c <? nc); [|exact Q]. destruct (c_pc (cons s c)); try exact Q. destruct n; exact Q.
  - destruct (Nat.ltb_spec c nc) as [Hc|]; [|exact Q].
    unfold cstep.
  destruct (c_pc (cons s c)) as [|n bt up r j cd|n bt up r j w|n bt up r j w|n bt up r j|n bt j|n bt j|td bt nw|td| | |j st] eqn:EP; try exact Q.
    + destruct (j <? ns); [exact Q|]. destruct cd as [[m w]|]; [|exact Q]. destruct (_ =? _)%N; exact Q.
    + destruct (c_begin _ _); [exact Q|]. destruct (c_end _ _); exact Q.
    + destruct (N.eqb_spec (slots s j) w) as [Hw|]; [|exact Q]. destruct spur; cbn [andb negb]; [exact Q|].
      cbn [set_con set_slots slots]. unfold fupd. destruct (Nat.eqb_spec i j) as [<-|]; [|exact Q].
      rewrite <- Hw, Ew, word_inc by lia. apply word_neq_invalid; assumption.
    + destruct (negb _); [exact Q|]. destruct (c_end _ _); [exact Q|]. destruct (S r <? _); exact Q.
    + destruct (negb _); [exact Q|]. destruct (c_end _ _); [exact Q|]. destruct (c_ph _ _); exact Q.
    + destruct (_ || _); exact Q.
    + destruct td; exact Q.
    + destruct td; [exact Q|]. destruct (c_ph _ _); exact Q.
    + destruct st as [|[|st]].
      * destruct (j <? ns); [|exact Q]. destruct (c_begin _ _), (c_end _ _); exact Q.
      * cbn [set_con set_slots slots]. unfold fupd. destruct (Nat.eqb_spec i j) as [<-|]; [|exact Q].
        pose proof (K_live _ _ _ (I_cons _ _ _ _ HI c Hc)) as HK. rewrite EP in HK. cbn [live] in HK.
        pose proof (D_rb _ _ HK) as HD. rewrite EP in HD. destruct HD as (_ & _ & _ & _ & HD).
        assert (Hpos : 0 < refs nc s i) by (apply (counted_refs nc s c i Hc); rewrite HD; reflexivity).
        rewrite Ew, word_dec by lia. apply word_neq_invalid; assumption.
      * destruct (_ || _); exact Q.
  - destruct (_ && _); [|exact Q]. destruct (c_ph _ _); try exact Q. destruct (_ && _); exact Q.
  - destruct (Nat.ltb_spec c nc) as [Hc|]; [|exact Q]. destruct (k <? ns); [|exact Q]. cbn [andb].
    destruct (c_ph (cons s c) k) eqn:EP; try exact Q.
    cbn [set_con set_slots slots]. unfold fupd. destruct (Nat.eqb_spec i k) as [<-|]; [|exact Q].
    assert (Hpos : 0 < refs nc s i) by (apply (counted_refs nc s c i Hc); rewrite EP; reflexivity).
    rewrite Ew, word_dec by lia. apply word_neq_invalid; assumption.
  - destruct (_ && _); [|exact Q]. destruct (c_ph _ _); try exact Q. destruct (_ && _); exact Q.
  - destruct (_ <? _); [|exact Q]. destruct (c_pc _); try exact Q. destruct (forallb _ _); exact Q.
  - destruct (_ <? _); exact Q.
  - destruct (_ <? _); [|exact Q]. destruct (c_pc _); exact Q.
Qed.

(** A crash loses no sample that was completely published: from any reachable
    state with a dead or restarting provider, every step keeps it. *)
Lemma dead_step ns nc B s l i id :
  (N.of_nat nc < two32 - 1)%N -> (B < two32 - 1)%N ->
  Inv ns nc B s -> alive (pc s) = false -> i < ns -> published s i -> sid s i = id ->
  published (step ns nc s l) i /\ sid (step ns nc s l) i = id.
Proof.
  intros Hnc HB HI HA Hi HP Hs.
  destruct (slot_ok_pub nc B Hnc HB s i (I_hist _ _ _ _ HI) (I_slot _ _ _ _ HI i Hi) HP)
    as (t & Hn & Ew & Ho & Ev & Ht & HtB).
  destruct (dead_keeps ns nc s l i HA Ho) as (E1 & E2 & E3 & E4).
  pose proof (dead_pub ns nc B s l i HI HA Hi HP Hnc HB) as HV.
  assert (HI' : Inv ns nc B (step ns nc s l)).
  { destruct (is_send_01 l) as [E|E].
    - apply inv_step; try assumption. rewrite E; discriminate.
    - destruct l; try discriminate E.
      unfold step. destruct (abort s); [exact HI|]. destruct (pc s); try exact HI; discriminate HA. }
  split; [|congruence].
  destruct (I_slot _ _ _ _ HI' i Hi) as [(A & A' & _)|[(A & _)|(t' & A1 & A2 & A3)]]; try congruence.
  eapply slot_ok_third_pub; [exact Hnc|exact HB|exact (I_hist _ _ _ _ HI')|exact A1|exact A2].
Qed.
