(** Theorems about the event machine: C01-C05, C09, C12, C19. *)
From Verif Require Import SlotModel SlotWord EventModel EventInv EventProofs EventStep EventCons EventReach EventSpec.
From Coq Require Import Sorting.Sorted.

Lemma sends_calls ls : sends ls = N.of_nat (send_calls ls).
Proof.
  unfold send_calls. induction ls as [|l ls IH]; [reflexivity|].
  cbn [sends filter]. rewrite IH. destruct l; cbn [is_send is_send_label length]; lia.
Qed.

Lemma readers_refs nc s i : readers nc s i = refs nc s i.
Proof.
  unfold refs, reader. induction nc as [|n IH]; cbn [readers countb]; [reflexivity|].
  rewrite IH. unfold reader. destruct (counted _); lia.
Qed.

Lemma Inv_r ns nc caps ls : in_range nc ls -> Inv ns nc (sends ls) (reach ns nc caps ls).
Proof. intros [A B]. apply inv_reachable; [exact A|rewrite sends_calls; exact B]. Qed.
Lemma HB_r nc ls : in_range nc ls -> (sends ls < two32 - 1)%N.
Proof. intros [A B]. rewrite sends_calls; exact B. Qed.

Section Reachable.
Variables (ns nc : nat) (caps : nat -> nat) (ls : list label).
Hypothesis R : in_range nc ls.
Let s := reach ns nc caps ls.

(** ** C01 *)
Theorem C01_allocated_has_no_reader i :
  allocated s i -> forall c, c < nc -> reader s c i = false.
Proof.
  intros HO c Hc. pose proof (Inv_r ns nc caps ls R) as HI. fold s in HI.
  pose proof (I_own _ _ _ _ HI i HO) as Hi. unfold allocated in HO.
  destruct (I_slot _ _ _ _ HI i Hi) as [(_ & _ & Z)|[(_ & Z & _)|(t & _ & _ & Z)]]; try congruence.
  unfold refs in Z. rewrite countb_zero in Z. exact (Z c Hc).
Qed.

Theorem C01_allocate_returns_free_slot l i :
  alloc_returns s l i ->
  ~ allocated s i /\ (forall c, c < nc -> reader s c i = false) /\ allocated (step ns nc s l) i /\
  (forall j, j <> i -> own (step ns nc s l) j = own s j).
Proof.
  intros (HA & -> & r & w & HP & HW). pose proof (Inv_r ns nc caps ls R) as HI. fold s in HI.
  pose proof (I_pc _ _ _ _ HI) as HPC. unfold pc_p_ok in HPC. rewrite HP in HPC.
  destruct HPC as (Hi & H1 & H2). unfold allocated, step. rewrite HA. unfold pstep. rewrite HP, HW, N.eqb_refl.
  cbn [set_pc set_own set_slots own]. rewrite fupd_eq.
  assert (Q : own s i <> true /\ refs nc s i = 0).
  { destruct (I_slot _ _ _ _ HI i Hi) as [(Z & _)|[(_ & Z & Z')|(t & _ & E & Z)]]; try congruence.
    - split; [congruence|assumption].
    - split; [congruence|]. rewrite <- HW, E in H2.
      rewrite rc_word in H2 by (apply (refs_small' nc (sends ls) (proj1 R) (HB_r _ _ R))). lia. }
  destruct Q as [Q1 Q2]. repeat split; try assumption.
  - intros c Hc. unfold refs in Q2. rewrite countb_zero in Q2. exact (Q2 c Hc).
  - intros j Hj. apply fupd_neq; assumption.
Qed.

(** ** C02, C05 *)
Theorem C05_held_sample_was_published c i id :
  c < nc -> i < ns -> holds s c i id ->
  exists t, nth_error (hist s) id = Some (t, data s i) /\ available s i /\ ~ allocated s i.
Proof.
  intros Hc Hi [t HH]. pose proof (Inv_r ns nc caps ls R) as HI. fold s in HI.
  destruct (K_tag _ _ _ (I_cons _ _ _ _ HI c Hc) i id t Hi) as [E1 E2]; [rewrite HH; reflexivity|].
  assert (P : published s i).
  { eapply (counted_pub ns nc (sends ls) (proj1 R) (HB_r _ _ R)); [exact HI|exact Hc|exact Hi|rewrite HH; reflexivity]. }
  destruct (slot_ok_pub nc (sends ls) (proj1 R) (HB_r _ _ R) s i (I_hist _ _ _ _ HI) (I_slot _ _ _ _ HI i Hi) P)
    as (t' & Hn & _ & Ho & _). subst id. exists t'. repeat split; try apply P; [assumption|].
  unfold allocated. congruence.
Qed.

(** ** C03 *)
Theorem C03_refcount_exact i :
  i < ns -> available s i ->
  rc_of (slots s i) = N.of_nat (readers nc s i).
Proof.
  intros Hi HP. pose proof (Inv_r ns nc caps ls R) as HI. fold s in HI.
  destruct (slot_ok_pub nc (sends ls) (proj1 R) (HB_r _ _ R) s i (I_hist _ _ _ _ HI) (I_slot _ _ _ _ HI i Hi) HP)
    as (t' & Hn & E & _). rewrite readers_refs, E. apply rc_word. apply (refs_small' nc (sends ls) (proj1 R) (HB_r _ _ R)).
Qed.

Theorem C03_unavailable_has_no_reader i :
  i < ns -> ~ available s i -> readers nc s i = 0.
Proof.
  intros Hi HP. pose proof (Inv_r ns nc caps ls R) as HI. fold s in HI. rewrite readers_refs.
  destruct (I_slot _ _ _ _ HI i Hi) as [(_ & _ & Z)|[(_ & _ & Z)|(t & H1 & H2 & _)]]; try exact Z.
  exfalso. apply HP. eapply (slot_ok_third_pub nc (sends ls) (proj1 R) (HB_r _ _ R));
    [exact (I_hist _ _ _ _ HI)|exact H1|exact H2].
Qed.

(** Once every consumer let go of a slot its count is zero again, so the slot can be reused. *)
Theorem C03_quiescent_slot_is_free i :
  i < ns -> (forall c, c < nc -> untouched s c i) -> available s i -> is_used (slots s i) = false.
Proof.
  intros Hi HU HP. unfold is_used.
  assert (Z : rc_of (slots s i) = 0%N).
  { rewrite C03_refcount_exact by assumption. rewrite readers_refs.
    unfold refs. replace (countb _ nc) with 0; [reflexivity|]. symmetry. apply countb_zero.
    intros c Hc. rewrite (HU c Hc). reflexivity. }
  rewrite Z. pose proof (proj2 HP) as W. unfold is_in_writing.
  destruct (N.eqb_spec (slots s i) IN_WRITING); [contradiction|reflexivity].
Qed.

(** ** C04 *)
Theorem C04_delivery_in_order_no_duplicates c :
  c < nc -> running s c = true ->
  StronglySorted lt (c_deliv (cons s c)) /\
  (forall id, In id (c_deliv (cons s c)) -> id < length (hist s)).
Proof.
  intros Hc HR. pose proof (Inv_r ns nc caps ls R) as HI. fold s in HI.
  pose proof (K_live _ _ _ (I_cons _ _ _ _ HI c Hc)) as HK.
  change (live (c_pc (cons s c)) = true) in HR. rewrite HR in HK. split.
  - exact (L_dsorted _ _ _ HK).
  - exact (L_dhist _ _ _ HK).
Qed.

(** Sequence numbers of available samples are ordered like the publications. *)
Theorem C04_sequence_numbers_ordered i j :
  i < ns -> j < ns -> available s i -> available s j -> i <> j ->
  ts_of (slots s i) <> ts_of (slots s j) /\
  ((ts_of (slots s i) < ts_of (slots s j))%N <-> sid s i < sid s j).
Proof.
  intros Hi Hj Pi Pj Hne. pose proof (Inv_r ns nc caps ls R) as HI. fold s in HI.
  destruct (lt_eq_lt_dec (sid s i) (sid s j)) as [[L|E]|G].
  - pose proof (I_ord _ _ _ _ HI i j Hi Hj Pi Pj L) as H. unfold vts in H. split; [lia|tauto].
  - destruct (Hne (I_inj _ _ _ _ HI i j Hi Hj Pi Pj E)).
  - pose proof (I_ord _ _ _ _ HI j i Hj Hi Pj Pi G) as H. unfold vts in H. split; [lia|]. split; lia.
Qed.

(** ** C12 *)
(** At the end of a successful rollback nothing of the crashed process is left,
    so every count is exactly the number of the other consumers' readers. *)
Theorem C12_rollback_leaves_nothing c :
  c < nc -> c_pc (cons s c) = CRb ns 0 ->
  forall i, i < ns -> untouched s c i /\ c_begin (cons s c) i = false /\ c_end (cons s c) i = false.
Proof.
  intros Hc HP i Hi. pose proof (Inv_r ns nc caps ls R) as HI. fold s in HI.
  pose proof (K_live _ _ _ (I_cons _ _ _ _ HI c Hc)) as HK. rewrite HP in HK. cbn [live] in HK.
  pose proof (D_rb _ _ HK) as HD. rewrite HP in HD. destruct HD as [HD _]. exact (HD i Hi Hi).
Qed.

(** A rollback only gives up on a slot whose transaction the crash cut in half. *)
Theorem C12_rollback_fails_only_on_half_transaction c spur :
  c < nc -> c_pc (cons s c) <> CFailed -> c_pc (cons (step ns nc s (LC c spur)) c) = CFailed ->
  exists i, i < ns /\ c_begin (cons s c) i <> c_end (cons s c) i.
Proof.
  intros Hc HN. unfold step. destruct (abort s); [contradiction|].
  rewrite (proj2 (Nat.ltb_lt c nc) Hc). unfold cstep.
  destruct (c_pc (cons s c)) as [|n bt up r j cd|n bt up r j w|n bt up r j w|n bt up r j|n bt j|n bt j|td bt nw|td| | |j st] eqn:EP;
    cbn [set_con cons]; rewrite ?fupd_eq, ?EP; try discriminate; try (exfalso; apply HN; reflexivity).
  + destruct (j <? ns); [|destruct cd as [[m w]|]; [destruct (_ =? _)%N|]]; cbn [set_con set_abort cons]; rewrite ?fupd_eq, ?EP; discriminate.
  + destruct (c_begin _ _); [|destruct (c_end _ _)]; cbn [set_con set_abort cons]; rewrite ?fupd_eq, ?EP; discriminate.
  + destruct (_ && _); cbn [set_con set_slots cons]; rewrite ?fupd_eq; discriminate.
  + destruct (negb _); [|destruct (c_end _ _); [|destruct (S r <? _)]]; cbn [set_con set_abort cons]; rewrite ?fupd_eq, ?EP; discriminate.
  + destruct (negb _); [|destruct (c_end _ _); [|destruct (c_ph _ _)]]; cbn [set_con set_abort cons]; rewrite ?fupd_eq, ?EP; discriminate.
  + destruct (_ || _); cbn [set_con set_slots cons]; rewrite ?fupd_eq; discriminate.
  + destruct td; cbn [set_con cons]; rewrite ?fupd_eq; discriminate.
  + destruct td as [|a td]; [|destruct (c_ph (cons s c) a)]; cbn [set_con cons]; rewrite ?fupd_eq, ?EP; discriminate.
  + destruct st as [|[|st]].
    * destruct (Nat.ltb_spec j ns) as [Hj|]; [|cbn [set_con cons]; rewrite ?fupd_eq; discriminate].
      destruct (c_begin (cons s c) j) eqn:E1, (c_end (cons s c) j) eqn:E2; cbn [set_con cons]; rewrite ?fupd_eq; try discriminate;
        intros _; exists j; rewrite E1, E2; split; try assumption; discriminate.
    * cbn [set_con cons]; rewrite ?fupd_eq; discriminate.
    * destruct (_ || _); cbn [set_con set_abort cons]; rewrite ?fupd_eq, ?EP; discriminate.
Qed.

(** ** C19 *)
Theorem C19_no_precondition_violated : abort s = false.
Proof. exact (I_abort _ _ _ _ (Inv_r ns nc caps ls R)). Qed.

(** A consumer waits before a reference transaction only while another thread of
    the same process is between the two halves of the destruction of a SamplePtr
    on the very same slot; the remaining half is enabled and ends the wait. *)
Theorem C19_wait_has_cause c n b up r j w :
  c < nc -> c_pc (cons s c) = CTx n b up r j w -> c_end (cons s c) j = true ->
  c_ph (cons s c) j = PhD2 /\
  c_end (cons (step ns nc s (LDerefCommit c j)) c) j = false.
Proof.
  intros Hc HP HE. pose proof (Inv_r ns nc caps ls R) as HI. fold s in HI.
  pose proof (K_live _ _ _ (I_cons _ _ _ _ HI c Hc)) as HK. rewrite HP in HK. cbn [live] in HK.
  pose proof (L_pc _ _ _ HK) as HPC. unfold pc_c_ok in HPC. rewrite HP in HPC.
  destruct HPC as (_ & (Hj & _) & Hpick).
  pose proof (L_bits _ _ _ HK j Hj) as HB.
  assert (E : c_ph (cons s c) j = PhD2).
  { destruct Hpick as [Z|Z]; [|exact Z]. rewrite Z in HB. cbn in HB. congruence. }
  split; [exact E|].
  rewrite E in HB. cbn in HB. injection HB as HB1 HB2.
  unfold step. rewrite C19_no_precondition_violated.
  rewrite (proj2 (Nat.ltb_lt c nc) Hc), (proj2 (Nat.ltb_lt j ns) Hj). cbn [andb].
  rewrite E, HB1, HB2. cbn [negb andb set_con cons]. rewrite fupd_eq. cbn [c_set_ph c_set_end c_end]. apply fupd_eq.
Qed.

(** ** C09 *)
(** What was sent before a crash of the provider stays available, with its value,
    through the crash and the whole restart, whatever the consumers do meanwhile. *)
Theorem C09_sent_samples_survive_restart ls' i :
  stays_down ns nc s ls' -> i < ns -> available s i ->
  let s' := run ns nc s ls' in
  available s' i /\ sid s' i = sid s i /\ data s' i = data s i /\ ts_of (slots s' i) = ts_of (slots s i).
Proof.
  intros HD Hi HP s'.
  pose proof (Inv_r ns nc caps ls R) as HI. fold s in HI. pose proof (HB_r _ _ R) as HB.
  assert (G : forall ls' s0, Inv ns nc (sends ls) s0 -> stays_down ns nc s0 ls' -> published s0 i -> hist s0 = hist s ->
            Inv ns nc (sends ls) (run ns nc s0 ls') /\ published (run ns nc s0 ls') i /\
            sid (run ns nc s0 ls') i = sid s0 i /\ hist (run ns nc s0 ls') = hist s).
  { clear ls' HD s'. induction ls' as [|l ls' IH]; intros s0 HI0 HD HP0 Hh.
    - cbn [run fold_left]. auto.
    - destruct HD as [HA HD]. cbn [run fold_left].
      change (alive (pc s0) = false) in HA.
      destruct (slot_ok_pub nc _ (proj1 R) HB s0 i (I_hist _ _ _ _ HI0) (I_slot _ _ _ _ HI0 i Hi) HP0) as (t & Hn & _ & Ho & _).
      destruct (dead_step ns nc (sends ls) s0 l i (sid s0 i) (proj1 R) HB HI0 HA Hi HP0 eq_refl) as [P' S'].
      destruct (dead_keeps ns nc s0 l i HA Ho) as (_ & _ & E3 & _).
      assert (HI1 : Inv ns nc (sends ls) (step ns nc s0 l)).
      { destruct (is_send_01 l) as [E|E].
        - apply inv_step; try assumption; [apply R|]. rewrite E; discriminate.
        - destruct l; try discriminate E.
          unfold step. destruct (abort s0); [exact HI0|]. destruct (pc s0); try exact HI0; discriminate HA. }
      destruct (IH _ HI1 HD P') as (A1 & A2 & A3 & A4); [rewrite E3; exact Hh|].
      unfold run in *. rewrite A3, S'. auto. }
  destruct (G ls' s HI HD HP eq_refl) as (A1 & A2 & A3 & A4). fold s' in A1, A2, A3, A4.
  destruct (slot_ok_pub nc _ (proj1 R) HB s i (I_hist _ _ _ _ HI) (I_slot _ _ _ _ HI i Hi) HP) as (t & Hn & _ & _ & V & _).
  destruct (slot_ok_pub nc _ (proj1 R) HB s' i (I_hist _ _ _ _ A1) (I_slot _ _ _ _ A1 i Hi) A2) as (t' & Hn' & _ & _ & V' & _).
  rewrite A3, A4, Hn in Hn'. injection Hn' as E1 E2. unfold vts in V, V'.
  split; [exact A2|]. split; [exact A3|]. split; [symmetry; exact E2|]. rewrite V, V'. symmetry. exact E1.
Qed.

(** When the restart is complete no slot is stuck in the writing state. *)
Theorem C09_restart_frees_half_written_slots l :
  provider_up s = false -> provider_up (step ns nc s l) = true ->
  forall i, i < ns -> slots (step ns nc s l) i <> IN_WRITING /\ ~ allocated (step ns nc s l) i.
Proof.
  intros HD HU i Hi. pose proof (Inv_r ns nc caps ls R) as HI. fold s in HI. pose proof (HB_r _ _ R) as HB.
  assert (HC : clean_ok ns s) by (apply clean_reachable; [apply R|exact HB]).
  change (alive (pc s) = false) in HD. change (alive (pc (step ns nc s l)) = true) in HU.
  unfold step in *. rewrite (I_abort _ _ _ _ HI) in *.
  assert (NO : alive (pc s) = true -> False) by congruence.
  destruct l as [|k v|k|k| | | |c n|c spur|c k|c k|c k|c|c|c]; try (exfalso; apply NO; exact HU).
  - revert HU; case_eq (pc s); intros; match goal with H : pc s = _, H' : _ = true |- _ =>
      first [rewrite H in HD; discriminate HD | destruct (NO H')] end.
  - revert HU; case_eq (pc s); intros; match goal with H : pc s = _, H' : _ = true |- _ =>
      first [rewrite H in HD; discriminate HD | destruct (NO H')] end.
  - revert HU; case_eq (pc s); intros; match goal with H : pc s = _, H' : _ = true |- _ =>
      first [rewrite H in HD; discriminate HD | destruct (NO H')] end.
  - revert HU; case_eq (pc s); intros; match goal with H : pc s = _, H' : _ = true |- _ =>
      first [rewrite H in HD; discriminate HD | destruct (NO H')] end.
  - unfold pstep, p_retry in *. unfold clean_ok in HC.
    destruct (pc s) as [|r k b|r k w|k t'|k|k| |k|k|k acc] eqn:E; try discriminate HD.
    + rewrite E in HU. discriminate.
    + destruct (k <? ns); [destruct (is_in_writing _)|]; discriminate.
    + destruct (_ =? _)%N; [discriminate|]. cbn [set_abort pc] in HU. rewrite E in HU. discriminate.
    + destruct (k <? ns); [discriminate|]. cbn [set_pc set_cur slots own]. unfold allocated. cbn [set_pc set_cur own].
      rewrite (HC i Hi). split; [|discriminate].
      destruct (I_slot _ _ _ _ HI i Hi) as [(_ & Z & _)|[(Z & _)|(t & H1 & H2 & _)]].
      * rewrite (HC i Hi) in Z. discriminate.
      * rewrite Z. discriminate.
      * apply (slot_ok_third_pub nc (sends ls) (proj1 R) HB s i t (I_hist _ _ _ _ HI) H1 H2).
  - discriminate HU.
  - revert HU; case_eq (pc s); intros; match goal with H : pc s = _, H' : _ = true |- _ =>
      first [discriminate H' | rewrite H in HD; discriminate HD | destruct (NO H')] end.
  - destruct (c <? nc); [|exfalso; apply NO; exact HU]. destruct (c_pc (cons s c)); try (exfalso; apply NO; exact HU). destruct n; exfalso; apply NO; exact HU.
  - destruct (c <? nc); [|exfalso; apply NO; exact HU]. rewrite (proj1 (own_cstep ns s c spur)) in HU. exfalso; apply NO; exact HU.
  - destruct (_ && _); [|exfalso; apply NO; exact HU]. destruct (c_ph _ _); try (exfalso; apply NO; exact HU). destruct (_ && _); exfalso; apply NO; exact HU.
  - destruct (_ && _); [|exfalso; apply NO; exact HU]. destruct (c_ph _ _); exfalso; apply NO; exact HU.
  - destruct (_ && _); [|exfalso; apply NO; exact HU]. destruct (c_ph _ _); try (exfalso; apply NO; exact HU). destruct (_ && _); exfalso; apply NO; exact HU.
  - destruct (_ <? _); [|exfalso; apply NO; exact HU]. destruct (c_pc _); try (exfalso; apply NO; exact HU). destruct (forallb _ _); exfalso; apply NO; exact HU.
  - destruct (_ <? _); exfalso; apply NO; exact HU.
  - destruct (_ <? _); [|exfalso; apply NO; exact HU]. destruct (c_pc _); exfalso; apply NO; exact HU.
Qed.

(** Every Send, also the first one after a restart, uses a sequence number above
    those of all samples that are still available.  Partial: the property asks for
    newer than everything sent before; see C09_newer_than_everything_refuted. *)
Theorem C09_send_is_newer_than_available_partial l i t v :
  send_stores s l i t v ->
  (forall j, j < ns -> available s j -> (ts_of (slots s j) < t)%N) /\
  hist (step ns nc s l) = hist s ++ [(t, v)] /\
  slots (step ns nc s l) i = mk_status t 0.
Proof.
  intros (HA & -> & HP & ->). pose proof (Inv_r ns nc caps ls R) as HI. fold s in HI.
  pose proof (I_pc _ _ _ _ HI) as HPC. unfold pc_p_ok in HPC. rewrite HP in HPC.
  destruct HPC as (Hi & _ & _ & _ & H). split; [exact H|].
  unfold step. rewrite HA. unfold pstep. rewrite HP. cbn [set_pc set_pub set_own set_slots hist slots]. split; [reflexivity|]. apply fupd_eq.
Qed.

End Reachable.

(** C02: as long as a user owns a SamplePtr its bytes do not change, whatever
    everybody else does in between. *)
Theorem C02_held_sample_never_changes ns nc caps ls ls' c i id :
  in_range nc (ls ++ ls') -> c < nc -> i < ns ->
  holds (reach ns nc caps ls) c i id -> holds (reach ns nc caps (ls ++ ls')) c i id ->
  data (reach ns nc caps (ls ++ ls')) i = data (reach ns nc caps ls) i.
Proof.
  intros R Hc Hi H1 H2.
  assert (R1 : in_range nc ls).
  { destruct R as [Ra Rb]. split; [exact Ra|]. rewrite <- sends_calls in *. rewrite sends_app in Rb. lia. }
  destruct (C05_held_sample_was_published ns nc caps ls R1 c i id Hc Hi H1) as (t1 & E1 & _).
  destruct (C05_held_sample_was_published ns nc caps (ls ++ ls') R c i id Hc Hi H2) as (t2 & E2 & _).
  unfold reach in *. rewrite run_app in *.
  destruct (hist_run ns nc (run ns nc (init caps) ls) ls') as [e He].
  rewrite He in E2. rewrite nth_error_app1 in E2 by (apply nth_error_Some; congruence). congruence.
Qed.

(** ** C04/C05: the delivered list changes only by handing a SamplePtr of a
    published sample to the user, or is cleared by a new subscription. *)
Theorem C05_delivery_hands_out_a_published_sample ns nc caps ls l c :
  in_range nc (ls ++ [l]) -> c < nc ->
  let s := reach ns nc caps ls in let s' := reach ns nc caps (ls ++ [l]) in
  c_deliv (cons s' c) <> c_deliv (cons s c) ->
  c_deliv (cons s' c) = [] \/
  exists i id, i < ns /\ c_deliv (cons s' c) = c_deliv (cons s c) ++ [id] /\ holds s' c i id.
Proof.
  intros R Hc s s'.
  assert (R1 : in_range nc ls).
  { destruct R as [Ra Rb]. split; [exact Ra|]. rewrite <- sends_calls in *. rewrite sends_app in Rb. lia. }
  pose proof (Inv_r ns nc caps ls R1) as HI. fold s in HI.
  assert (Es : s' = step ns nc s l) by (unfold s', reach; rewrite run_app; reflexivity).
  rewrite Es. clear Es s' R. clearbody s.
  pose proof (K_live _ _ _ (I_cons _ _ _ _ HI c Hc)) as HK.
  assert (Q : c_deliv (cons s c) <> c_deliv (cons s c) ->
     c_deliv (cons s c) = [] \/ exists i id, i < ns /\ c_deliv (cons s c) = c_deliv (cons s c) ++ [id] /\ holds s c i id)
    by (intros H; destruct (H eq_refl)).
  assert (Q2 : forall s0 c0 k, cons s0 = cons s -> (c0 = c -> c_deliv k = c_deliv (cons s c)) ->
     c_deliv (cons (set_con s0 c0 k) c) <> c_deliv (cons s c) ->
     c_deliv (cons (set_con s0 c0 k) c) = [] \/ exists i id, i < ns /\
       c_deliv (cons (set_con s0 c0 k) c) = c_deliv (cons s c) ++ [id] /\ holds (set_con s0 c0 k) c i id).
  { intros s0 c0 k E0 E H. exfalso. apply H. cbn [set_con cons]. unfold fupd. rewrite E0.
    destruct (Nat.eqb_spec c c0) as [->|]; [apply E; reflexivity|reflexivity]. }
  unfold step. destruct (abort s); [exact Q|].
  destruct l as [|i v|i|i| | | |d n|d spur|d i|d i|d i|d|d|d]; try exact Q.
  - destruct (pc s); exact Q.
  - destruct (pc s); try exact Q. destruct (own s i); exact Q.
  - destruct (pc s); try exact Q. destruct (own s i); exact Q.
  - destruct (pc s); try exact Q. destruct (own s i); exact Q.
  - unfold pstep, p_retry. destruct (pc s) as [|r i b|r i w|i t|i|i| |i|i|i acc]; try exact Q.
    + destruct (i <? ns); [destruct (is_invalid _); exact Q|]. destruct b as [[j w]|]; [exact Q|].
      destruct (S r <=? _); exact Q.
    + destruct (_ =? _)%N; [exact Q|]. destruct (S r <=? _); exact Q.
    + destruct (is_in_writing _); exact Q.
    + destruct (i <? ns); [destruct (is_in_writing _); exact Q|exact Q].
    + destruct (_ =? _)%N; exact Q.
    + destruct (i <? ns); exact Q.
  - destruct (pc s); exact Q.
  - destruct (d <? nc); [|exact Q]. destruct (c_pc (cons s d)); try exact Q.
    destruct n; apply Q2; try reflexivity; intros <-; reflexivity.
  - destruct (d <? nc); [|exact Q]. unfold cstep.
    destruct (c_pc (cons s d)) as [|n b up r i cd|n b up r j w|n b up r j w|n b up r j|n b j|n b j|td b nw|td| | |i st] eqn:EP; try exact Q.
    + destruct (i <? ns); [apply Q2; [reflexivity|intros <-; reflexivity]|]. destruct cd as [[j w]|]; [|apply Q2; [reflexivity|intros <-; reflexivity]].
      destruct (_ =? _)%N; [exact Q|apply Q2; [reflexivity|intros <-; reflexivity]].
    + destruct (c_begin _ _); [exact Q|]. destruct (c_end _ _); [exact Q|apply Q2; [reflexivity|intros <-; reflexivity]].
    + destruct (_ && _); apply Q2; try reflexivity; intros <-; reflexivity.
    + destruct (negb _); [exact Q|]. destruct (c_end _ _); [exact Q|]. destruct (S r <? _); apply Q2; try reflexivity; intros <-; reflexivity.
    + destruct (negb _); [exact Q|]. destruct (c_end _ _); [exact Q|]. destruct (c_ph _ _); try exact Q; apply Q2; try reflexivity; intros <-; reflexivity.
    + destruct (_ || _); apply Q2; try reflexivity; intros <-; reflexivity.
    + destruct td; apply Q2; try reflexivity; intros <-; reflexivity.
    + destruct td as [|j td]; [apply Q2; [reflexivity|intros <-; reflexivity]|].
      destruct (c_ph (cons s d) j) eqn:EJ; try exact Q.
      cbn [set_con cons]. unfold holds. cbn [set_con cons]. unfold fupd at 1 2 3 4.
      destruct (Nat.eqb_spec c d) as [->|]; [|exact Q].
      intros _. right. exists j, id. rewrite EP in HK. cbn [live] in HK.
      split; [apply (L_range _ _ _ HK); rewrite EP; left; reflexivity|]. split; [reflexivity|].
      exists t. cbn [c_set_pc c_set_deliv c_set_ph c_ph]. rewrite fupd_eq. reflexivity.
    + destruct st as [|[|st]].
      * destruct (i <? ns).
        -- destruct (c_begin _ _), (c_end _ _); apply Q2; try reflexivity; intros <-; reflexivity.
        -- cbn [set_con cons]. unfold fupd at 1 2 3. destruct (Nat.eqb_spec c d) as [->|]; [left; reflexivity|intros H; destruct (H eq_refl)].
      * apply Q2; try reflexivity; intros <-; reflexivity.
      * destruct (_ || _); [exact Q|apply Q2; try reflexivity; intros <-; reflexivity].
  - destruct (_ && _); [|exact Q]. destruct (c_ph _ _); try exact Q. destruct (_ && _); [apply Q2; try reflexivity; intros <-; reflexivity|exact Q].
  - destruct (_ && _); [|exact Q]. destruct (c_ph _ _); try exact Q; apply Q2; try reflexivity; intros <-; reflexivity.
  - destruct (_ && _); [|exact Q]. destruct (c_ph _ _); try exact Q. destruct (_ && _); [apply Q2; try reflexivity; intros <-; reflexivity|exact Q].
  - destruct (_ <? _); [|exact Q]. destruct (c_pc (cons s d)); try exact Q. destruct (forallb _ _); [|exact Q].
    cbn [set_con cons]. unfold fupd at 1 2 3. destruct (Nat.eqb_spec c d) as [->|]; [left; reflexivity|intros H; destruct (H eq_refl)].
  - destruct (_ <? _); [apply Q2; try reflexivity; intros <-; reflexivity|exact Q].
  - destruct (_ <? _); [|exact Q]. destruct (c_pc (cons s d)); try exact Q; apply Q2; try reflexivity; intros <-; reflexivity.
Qed.

(** ** C12: the rollback of a crashed process always comes to an end *)
Definition rb_left (ns i st : nat) : nat :=
  match st with 0 => 3 * (ns - i) | 1 => 3 * (ns - i) - 1 | _ => 3 * (ns - i) - 2 end.

(** no half transaction from the rollback position on *)
Definition no_half_from (ns : nat) (k : consumer) (i st : nat) : Prop :=
  forall j, j < ns -> i < j \/ (j = i /\ st = 0) -> c_begin k j = c_end k j.

(** Labels that do not run the recovery thread of c leave it alone. *)
Lemma rb_frame ns nc B s l c i st :
  Inv ns nc B s -> c < nc -> c_pc (cons s c) = CRb i st ->
  is_own c l = false -> crashes c l = false -> cons (step ns nc s l) c = cons s c.
Proof.
  intros HI Hc HP HO HR.
  pose proof (K_live _ _ _ (I_cons _ _ _ _ HI c Hc)) as HK. rewrite HP in HK. cbn [live] in HK.
  assert (Q2 : forall s0 d k, d <> c -> cons s0 = cons s -> cons (set_con s0 d k) c = cons s c).
  { intros s0 d k Hd E. cbn [set_con cons]. rewrite fupd_neq by congruence. rewrite E; reflexivity. }
  assert (Ph : forall j, j < ns -> (exists b, c_ph (cons s c) j = PhOrph b) \/ c_ph (cons s c) j = PhNone)
    by exact (D_ph _ _ HK).
  unfold step. destruct (abort s); [reflexivity|].
  destruct l as [|k v|k|k| | | |d n|d spur|d k|d k|d k|d|d|d]; try reflexivity.
  - destruct (pc s); reflexivity.
  - destruct (pc s); try reflexivity. destruct (own s k); reflexivity.
  - destruct (pc s); try reflexivity. destruct (own s k); reflexivity.
  - destruct (pc s); try reflexivity. destruct (own s k); reflexivity.
  - unfold pstep, p_retry. destruct (pc s) as [|r k b|r k w|k t|k|k| |k|k|k acc]; try reflexivity.
    + destruct (k <? ns); [destruct (is_invalid _); reflexivity|]. destruct b as [[j w]|]; [reflexivity|].
      destruct (S r <=? _); reflexivity.
    + destruct (_ =? _)%N; [reflexivity|]. destruct (S r <=? _); reflexivity.
    + destruct (is_in_writing _); reflexivity.
    + destruct (k <? ns); [destruct (is_in_writing _); reflexivity|reflexivity].
    + destruct (_ =? _)%N; reflexivity.
    + destruct (k <? ns); reflexivity.
  - destruct (pc s); reflexivity.
  - destruct (d <? nc); [|reflexivity]. destruct (Nat.eq_dec d c) as [->|Hd].
    + rewrite HP. reflexivity.
    + destruct (c_pc (cons s d)); try reflexivity. destruct n; apply Q2; auto.
  - destruct (d <? nc); [|reflexivity]. cbn [is_own] in HO. apply Nat.eqb_neq in HO.
    unfold cstep.
    destruct (c_pc (cons s d)) as [|n b up r k cd|n b up r j w|n b up r j w|n b up r j|n b j|n b j|td b nw|td| | |k st'] eqn:EP; try reflexivity.
    + destruct (k <? ns); [apply Q2; auto|]. destruct cd as [[j w]|]; [|apply Q2; auto]. destruct (_ =? _)%N; [reflexivity|apply Q2; auto].
    + destruct (c_begin _ _); [reflexivity|]. destruct (c_end _ _); [reflexivity|apply Q2; auto].
    + destruct (_ && _); apply Q2; auto.
    + destruct (negb _); [reflexivity|]. destruct (c_end _ _); [reflexivity|]. destruct (S r <? _); apply Q2; auto.
    + destruct (negb _); [reflexivity|]. destruct (c_end _ _); [reflexivity|]. destruct (c_ph (cons s d) _); try reflexivity; apply Q2; auto.
    + destruct (_ || _); apply Q2; auto.
    + destruct td; apply Q2; auto.
    + destruct td as [|j td]; [apply Q2; auto|]. destruct (c_ph (cons s d) _); try reflexivity; apply Q2; auto.
    + destruct st' as [|[|st']].
      * destruct (k <? ns); [|apply Q2; auto]. destruct (c_begin _ _), (c_end _ _); apply Q2; auto.
      * apply Q2; auto.
      * destruct (_ || _); [reflexivity|apply Q2; auto].
  - destruct (d <? nc), (Nat.ltb_spec k ns) as [Hk|]; cbn [andb]; try reflexivity. destruct (Nat.eq_dec d c) as [->|Hd].
    + destruct (Ph k Hk) as [[b ->]| ->]; reflexivity.
    + destruct (c_ph (cons s d) _); try reflexivity. destruct (_ && _); [apply Q2; auto|reflexivity].
  - destruct (d <? nc), (Nat.ltb_spec k ns) as [Hk|]; cbn [andb]; try reflexivity. destruct (Nat.eq_dec d c) as [->|Hd].
    + destruct (Ph k Hk) as [[b ->]| ->]; reflexivity.
    + destruct (c_ph (cons s d) _); try reflexivity; apply Q2; auto.
  - destruct (d <? nc), (Nat.ltb_spec k ns) as [Hk|]; cbn [andb]; try reflexivity. destruct (Nat.eq_dec d c) as [->|Hd].
    + destruct (Ph k Hk) as [[b ->]| ->]; reflexivity.
    + destruct (c_ph (cons s d) _); try reflexivity. destruct (_ && _); [apply Q2; auto|reflexivity].
  - destruct (d <? nc); [|reflexivity]. destruct (Nat.eq_dec d c) as [->|Hd].
    + rewrite HP. reflexivity.
    + destruct (c_pc (cons s d)); try reflexivity. destruct (forallb _ _); [apply Q2; auto|reflexivity].
  - cbn [crashes] in HR. apply Nat.eqb_neq in HR. destruct (d <? nc); [apply Q2; auto|reflexivity].
  - destruct (d <? nc); [|reflexivity]. destruct (Nat.eq_dec d c) as [->|Hd].
    + rewrite HP. reflexivity.
    + destruct (c_pc (cons s d)); try reflexivity; apply Q2; auto.
Qed.

(** One own step gets closer to the end. *)
Lemma rb_step ns nc B s c i st spur :
  Inv ns nc B s -> c < nc -> c_pc (cons s c) = CRb i st -> i <= ns -> (i = ns -> st = 0) -> ~ (i = ns /\ st = 0) ->
  no_half_from ns (cons s c) i st ->
  exists i' st', let k' := cons (step ns nc s (LC c spur)) c in
    c_pc k' = CRb i' st' /\ i' <= ns /\ (i' = ns -> st' = 0) /\
    no_half_from ns k' i' st' /\ rb_left ns i' st' < rb_left ns i st.
Proof.
  intros HI Hc HP Hi Hst Hend HN.
  pose proof (K_live _ _ _ (I_cons _ _ _ _ HI c Hc)) as HK. rewrite HP in HK. cbn [live] in HK.
  pose proof (D_rb _ _ HK) as HD. rewrite HP in HD. destruct HD as [_ HD].
  unfold step. rewrite (I_abort _ _ _ _ HI). rewrite (proj2 (Nat.ltb_lt c nc) Hc). unfold cstep. rewrite HP.
  destruct st as [|[|st]].
  - assert (Hi' : i < ns) by (destruct (Nat.eq_dec i ns); [exfalso; auto|lia]).
    rewrite (proj2 (Nat.ltb_lt i ns) Hi').
    pose proof (HN i Hi' (or_intror (conj eq_refl eq_refl))) as E.
    destruct (c_begin (cons s c) i), (c_end (cons s c) i); try discriminate E; cbn [set_con cons]; rewrite fupd_eq.
    + exists i, 1. split; [reflexivity|]. split; [lia|]. split; [lia|]. split; [|cbn [rb_left]; lia].
      intros j Hj [H|[_ H]]; [|discriminate]. cbn [c_set_pc c_set_begin c_begin c_end].
      rewrite fupd_neq by lia. apply HN; auto.
    + exists (S i), 0. split; [reflexivity|]. split; [lia|]. split; [reflexivity|]. split; [|cbn [rb_left]; lia].
      intros j Hj H. cbn [c_set_pc c_set_ph c_begin c_end]. apply HN; [assumption|left; lia].
  - destruct HD as (Hi' & _). cbn [set_con set_slots cons]. rewrite fupd_eq.
    exists i, 2. split; [reflexivity|]. split; [lia|]. split; [lia|]. split; [|cbn [rb_left]; lia].
    intros j Hj [H|[_ H]]; [|discriminate]. cbn [c_set_pc c_set_ph c_begin c_end]. apply HN; auto.
  - destruct HD as (Hi' & E1 & E2 & _). rewrite E1, E2. cbn [orb negb set_con cons]. rewrite fupd_eq.
    exists (S i), 0. split; [reflexivity|]. split; [lia|]. split; [reflexivity|]. split; [|cbn [rb_left]; lia].
    intros j Hj H. cbn [c_set_pc c_set_ph c_set_end c_begin c_end]. rewrite fupd_neq by lia. apply HN; [assumption|left; lia].
Qed.

(** If the crash cut no transaction in half, then once the proxy is created again
    and its recovery gets 3*ns steps, interleaved in any way with all other
    processes, it reaches the successful end, where by
    C12_rollback_leaves_nothing none of the old references is left. *)
Theorem C12_rollback_completes ns nc caps ls c ls' :
  in_range nc (ls ++ LCRestart c :: ls') -> c < nc ->
  c_pc (cons (reach ns nc caps ls) c) = CDead ->
  (forall i, i < ns -> c_begin (cons (reach ns nc caps ls) c) i = c_end (cons (reach ns nc caps ls) c) i) ->
  forallb (fun l => negb (crashes c l)) ls' = true ->
  3 * ns <= own_steps c ls' ->
  exists l1 l2, ls' = l1 ++ l2 /\
    c_pc (cons (reach ns nc caps (ls ++ LCRestart c :: l1)) c) = CRb ns 0.
Proof.
  intros R Hc HP HH HR HS.
  assert (G : forall ls' ls i st, in_range nc (ls ++ ls') ->
     c_pc (cons (reach ns nc caps ls) c) = CRb i st -> i <= ns -> (i = ns -> st = 0) ->
     no_half_from ns (cons (reach ns nc caps ls) c) i st ->
     forallb (fun l => negb (crashes c l)) ls' = true -> rb_left ns i st <= own_steps c ls' ->
     exists l1 l2, ls' = l1 ++ l2 /\ c_pc (cons (reach ns nc caps (ls ++ l1)) c) = CRb ns 0).
  { clear ls ls' R HP HH HR HS. induction ls' as [|l ls' IH]; intros ls i st R HP Hi Hst HN HR HS.
    - exists [], []. split; [reflexivity|]. rewrite app_nil_r, HP.
      cbn [own_steps filter length] in HS. unfold own_steps in HS. cbn in HS.
      assert (i = ns) by (destruct st as [|[|st]]; cbn [rb_left] in HS; [lia|destruct (Nat.eq_dec i ns); [assumption|lia]|destruct (Nat.eq_dec i ns); [assumption|lia]]).
      rewrite (Hst H), H. reflexivity.
    - destruct (Nat.eq_dec i ns) as [Ei|Ni].
      { exists [], (l :: ls'). split; [reflexivity|]. rewrite app_nil_r, HP, (Hst Ei), Ei. reflexivity. }
      assert (R0 : in_range nc ls).
      { destruct R as [Ra Rb]. split; [exact Ra|]. rewrite <- sends_calls in *. rewrite sends_app in Rb. lia. }
      assert (R1 : in_range nc ((ls ++ [l]) ++ ls')) by (rewrite <- app_assoc; exact R).
      pose proof (Inv_r ns nc caps ls R0) as HI.
      assert (Es : reach ns nc caps (ls ++ [l]) = step ns nc (reach ns nc caps ls) l) by (unfold reach; rewrite run_app; reflexivity).
      cbn [forallb] in HR. apply andb_true_iff in HR. destruct HR as [HR0 HR].
      assert (K : exists i' st', c_pc (cons (reach ns nc caps (ls ++ [l])) c) = CRb i' st' /\ i' <= ns /\ (i' = ns -> st' = 0) /\
                 no_half_from ns (cons (reach ns nc caps (ls ++ [l])) c) i' st' /\ rb_left ns i' st' <= own_steps c ls').
      { rewrite Es. destruct (is_own c l) eqn:EO.
        - destruct l; try discriminate EO. cbn [is_own] in EO. apply Nat.eqb_eq in EO. subst c0.
          destruct (rb_step ns nc (sends ls) _ c i st spur HI Hc HP Hi Hst) as (i' & st' & A1 & A2 & A3 & A4 & A5); [tauto|exact HN|].
          exists i', st'. repeat split; try assumption.
          unfold own_steps in HS |- *. cbn [filter is_own] in HS. rewrite Nat.eqb_refl in HS. cbn [length] in HS. lia.
        - rewrite (rb_frame ns nc (sends ls) _ l c i st HI Hc HP EO); [|destruct (crashes c l); [discriminate|reflexivity]].
          exists i, st. repeat split; try assumption.
          unfold own_steps in HS |- *. cbn [filter] in HS. rewrite EO in HS. exact HS. }
      destruct K as (i' & st' & A1 & A2 & A3 & A4 & A5).
      destruct (IH (ls ++ [l]) i' st' R1 A1 A2 A3 A4 HR A5) as (l1 & l2 & E1 & E2).
      exists (l :: l1), l2. split; [cbn; congruence|]. rewrite <- app_assoc in E2. exact E2. }
  assert (Es : reach ns nc caps (ls ++ [LCRestart c]) = step ns nc (reach ns nc caps ls) (LCRestart c)) by (unfold reach; rewrite run_app; reflexivity).
  assert (R0 : in_range nc ls).
  { destruct R as [Ra Rb]. split; [exact Ra|]. rewrite <- sends_calls in *. rewrite sends_app in Rb. lia. }
  pose proof (Inv_r ns nc caps ls R0) as HI.
  assert (Ek : cons (reach ns nc caps (ls ++ [LCRestart c])) c = c_set_pc (cons (reach ns nc caps ls) c) (CRb 0 0)).
  { rewrite Es. unfold step. rewrite (I_abort _ _ _ _ HI), (proj2 (Nat.ltb_lt c nc) Hc), HP. cbn [set_con cons]. apply fupd_eq. }
  destruct (G ls' (ls ++ [LCRestart c]) 0 0) as (l1 & l2 & E1 & E2).
  - rewrite <- app_assoc. exact R.
  - rewrite Ek. reflexivity.
  - lia.
  - reflexivity.
  - rewrite Ek. intros j Hj _. cbn [c_set_pc c_begin c_end]. apply HH; assumption.
  - exact HR.
  - cbn [rb_left]. lia.
  - exists l1, l2. split; [exact E1|]. rewrite <- app_assoc in E2. exact E2.
Qed.

(** ** Concrete cases that meet the hypotheses *)
Definition lp (n : nat) : list label := repeat LP n.
Definition lc (c n : nat) : list label := repeat (LC c false) n.
(** Two slots, two consumers: 10 and 20 are sent; consumer 0 takes both, consumer
    1 the newest; consumer 0 drops the older one, whose slot is allocated again. *)
Definition demo : list label :=
  LPAlloc :: lp 2 ++ [LPWrite 0 10; LPSend 0] ++ lp 2 ++
  LPAlloc :: lp 3 ++ [LPWrite 1 20; LPSend 1] ++ lp 2 ++
  LCGet 0 2 :: lc 0 30 ++ LCGet 1 1 :: lc 1 20 ++
  [LDerefBegin 0 0; LDerefSub 0 0; LDerefCommit 0 0] ++
  LPAlloc :: lp 3.
Definition demo_caps : nat -> nat := fun _ => 2.
Definition demo_state := reach 2 2 demo_caps demo.

Example ex_range : in_range 2 demo.
Proof. split; vm_compute; reflexivity. Qed.
(* C01: slot 0 is about to be allocated while slot 1 has two readers *)
Example ex_C01_alloc : alloc_returns demo_state LP 0.
Proof. split; [vm_compute; reflexivity|]. split; [reflexivity|]. exists 0, (word 1 0). split; vm_compute; reflexivity. Qed.
Example ex_C01_allocated : allocated (reach 2 2 demo_caps (demo ++ [LP; LPWrite 0 30])) 0.
Proof. vm_compute. reflexivity. Qed.
(* C02, C03, C04, C05 *)
Example ex_C02 : holds demo_state 0 1 1 /\ holds demo_state 1 1 1 /\
  data demo_state 1 = 20%N /\ available demo_state 1 /\ readers 2 demo_state 1 = 2 /\
  c_deliv (cons demo_state 0) = [0; 1] /\ running demo_state 0 = true.
Proof.
  repeat split; try (vm_compute; reflexivity); try (exists 2%N; vm_compute; reflexivity);
    vm_compute; discriminate.
Qed.
Example ex_C02_later : holds (reach 2 2 demo_caps (demo ++ LP :: [LPWrite 0 30; LPSend 0] ++ lp 2)) 0 1 1.
Proof. exists 2%N. vm_compute. reflexivity. Qed.
Example ex_C03_quiescent : available (reach 2 2 demo_caps demo) 0 /\
  forall c, c < 2 -> untouched (reach 2 2 demo_caps demo) c 0.
Proof.
  split; [split; vm_compute; discriminate|].
  intros [|[|c]] Hc; [vm_compute; reflexivity|vm_compute; reflexivity|lia].
Qed.
(* C12: consumer 0 dies holding slot 1, restarts, and its rollback runs to the end *)
Example ex_C12 :
  c_pc (cons (reach 2 2 demo_caps (demo ++ [LCCrash 0])) 0) = CDead /\
  reader (reach 2 2 demo_caps (demo ++ [LCCrash 0])) 0 1 = true /\
  (forall i, i < 2 -> c_begin (cons (reach 2 2 demo_caps (demo ++ [LCCrash 0])) 0) i
                    = c_end (cons (reach 2 2 demo_caps (demo ++ [LCCrash 0])) 0) i) /\
  c_pc (cons (reach 2 2 demo_caps (demo ++ LCCrash 0 :: LCRestart 0 :: lc 0 4)) 0) = CRb 2 0 /\
  rc_of (slots (reach 2 2 demo_caps (demo ++ LCCrash 0 :: LCRestart 0 :: lc 0 4)) 1) = 1%N.
Proof.
  split; [vm_compute; reflexivity|]. split; [vm_compute; reflexivity|]. split.
  - intros [|[|i]] Hi; [vm_compute; reflexivity|vm_compute; reflexivity|lia].
  - split; vm_compute; reflexivity.
Qed.
(* C12: a crash inside a dereference leaves a half transaction: the restart fails *)
Example ex_C12_half : c_pc (cons (reach 2 2 demo_caps
  (demo ++ [LDerefBegin 0 1; LCCrash 0; LCRestart 0] ++ lc 0 2)) 0) = CFailed.
Proof. vm_compute. reflexivity. Qed.
(* C19: a wait does occur *)
Definition demo_wait : list label :=
  LPAlloc :: lp 2 ++ [LPWrite 0 10; LPSend 0] ++ lp 2 ++ LCGet 0 2 :: lc 0 30 ++
  [LDerefBegin 0 0; LDerefSub 0 0] ++
  LPAlloc :: lp 4 ++ [LPWrite 0 20; LPSend 0] ++ lp 2 ++ LCGet 0 1 :: lc 0 5.
Example ex_C19_wait : exists n b up r w,
  c_pc (cons (reach 1 1 demo_caps demo_wait) 0) = CTx n b up r 0 w /\
  c_end (cons (reach 1 1 demo_caps demo_wait) 0) 0 = true.
Proof. do 5 eexists. split; vm_compute; reflexivity. Qed.
(* C09: crash while slot 0 is being rewritten, complete restart *)
Definition demo_down : list label := LPRestart :: lp 6.
Example ex_C09 :
  stays_down 2 2 (reach 2 2 demo_caps (demo ++ [LP; LPCrash])) demo_down /\
  available (reach 2 2 demo_caps (demo ++ [LP; LPCrash])) 1 /\
  slots (reach 2 2 demo_caps (demo ++ [LP; LPCrash])) 0 = IN_WRITING /\
  provider_up (reach 2 2 demo_caps (demo ++ [LP; LPCrash] ++ demo_down)) = false /\
  provider_up (reach 2 2 demo_caps (demo ++ [LP; LPCrash] ++ demo_down ++ [LP])) = true.
Proof.
  repeat split; try (vm_compute; reflexivity); vm_compute; discriminate.
Qed.
Example ex_C09_send : send_stores
  (reach 2 2 demo_caps (demo ++ [LP; LPCrash] ++ demo_down ++ [LP; LPAlloc; LP; LP; LPWrite 0 77; LPSend 0])) LP 0 3 77.
Proof. repeat split; vm_compute; reflexivity. Qed.

(** ** C09 refuted in full: the first sample sent after a restart may reuse a
    sequence number, and a consumer that already saw the old sample never gets it.
    Two slots.  A (slot 0) is held by consumer 0; B (slot 1) was seen and released
    by consumer 1; the provider allocates B's slot and dies; after the restart the
    newest available sequence number is A's, so the next Send repeats B's. *)
Definition refute_C09 : list label :=
  LPAlloc :: lp 2 ++ [LPWrite 0 10; LPSend 0] ++ lp 2 ++
  LCGet 0 1 :: lc 0 20 ++
  LPAlloc :: lp 3 ++ [LPWrite 1 20; LPSend 1] ++ lp 2 ++
  LCGet 1 1 :: lc 1 20 ++
  [LDerefBegin 1 1; LDerefSub 1 1; LDerefCommit 1 1] ++
  LPAlloc :: lp 4 ++ [LPCrash; LPRestart] ++ lp 7 ++
  LPAlloc :: lp 3 ++ [LPWrite 1 30; LPSend 1] ++ lp 2.

Theorem C09_newer_than_everything_refuted :
  exists ls, in_range 2 ls /\
    let s := reach 2 2 demo_caps ls in
    (* the sample 30 was sent last, after the restart, and is available ... *)
    provider_up s = true /\ nth_error (hist s) 2 = Some (2%N, 30%N) /\ length (hist s) = 3 /\
    available s 1 /\ sid s 1 = 2 /\
    (* ... with the sequence number of the sample 20 sent before the crash ... *)
    nth_error (hist s) 1 = Some (2%N, 20%N) /\
    (* ... and consumer 1, idle and still subscribed, does not get it from GetNewSamples. *)
    c_deliv (cons s 1) = [1] /\
    c_deliv (cons (reach 2 2 demo_caps (ls ++ LCGet 1 2 :: lc 1 20)) 1) = [1] /\
    c_pc (cons (reach 2 2 demo_caps (ls ++ LCGet 1 2 :: lc 1 20)) 1) = CIdle.
Proof.
  exists refute_C09. split; [split; vm_compute; reflexivity|].
  repeat split; try (vm_compute; reflexivity); vm_compute; discriminate.
Qed.

Print Assumptions C01_allocated_has_no_reader.
Print Assumptions C01_allocate_returns_free_slot.
Print Assumptions C02_held_sample_never_changes.
Print Assumptions C03_refcount_exact.
Print Assumptions C03_unavailable_has_no_reader.
Print Assumptions C03_quiescent_slot_is_free.
Print Assumptions C04_delivery_in_order_no_duplicates.
Print Assumptions C04_sequence_numbers_ordered.
Print Assumptions C05_held_sample_was_published.
Print Assumptions C05_delivery_hands_out_a_published_sample.
Print Assumptions C09_sent_samples_survive_restart.
Print Assumptions C09_restart_frees_half_written_slots.
Print Assumptions C09_send_is_newer_than_available_partial.
Print Assumptions C09_newer_than_everything_refuted.
Print Assumptions C12_rollback_leaves_nothing.
Print Assumptions C12_rollback_fails_only_on_half_transaction.
Print Assumptions C12_rollback_completes.
Print Assumptions C19_no_precondition_violated.
Print Assumptions C19_wait_has_cause.
