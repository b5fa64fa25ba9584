(** One consumer (or the provider) runs its API call while nobody else takes a
    step: the event machine of EventModel.v then does what the sequential
    functions of SlotModel.v say.  Lemmas for EventAloneProps.v. *)
From Verif Require Import SlotModel SlotWord SlotProofs EventModel EventInv EventProofs EventReach EventSpec EventProps SlotProps.
From Coq Require Import Sorting.Sorted.

(** the slot array as a list *)
Definition arr (ns : nat) (s : evst) : list N := map (slots s) (seq 0 ns).

Lemma arr_length ns s : length (arr ns s) = ns.
Proof. unfold arr. rewrite map_length, seq_length. reflexivity. Qed.
Lemma nth_error_seq a n i : i < n -> nth_error (seq a n) i = Some (a + i).
Proof.
  intros H. rewrite (nth_error_nth' (seq a n) 0) by (rewrite seq_length; exact H).
  rewrite seq_nth by exact H. reflexivity.
Qed.
Lemma arr_nth ns s i : i < ns -> nth_error (arr ns s) i = Some (slots s i).
Proof. intros H. unfold arr. rewrite nth_error_map, nth_error_seq by exact H. reflexivity. Qed.
Lemma arr_nth_inv ns s i w : nth_error (arr ns s) i = Some w -> i < ns /\ w = slots s i.
Proof.
  intros H. assert (Hi : i < ns).
  { rewrite <- (arr_length ns s). apply nth_error_Some. congruence. }
  split; [exact Hi|]. rewrite arr_nth in H by exact Hi. congruence.
Qed.
Lemma nth_error_eq {A} (l l' : list A) : (forall i, nth_error l i = nth_error l' i) -> l = l'.
Proof.
  revert l'. induction l as [|x l IH]; intros [|y l'] H; [reflexivity|specialize (H 0); discriminate|specialize (H 0); discriminate|].
  f_equal; [specialize (H 0); cbn in H; congruence|]. apply IH. intros i. exact (H (S i)).
Qed.
Lemma arr_upd ns s s' j v : j < ns -> slots s' = fupd (slots s) j v -> arr ns s' = lset (arr ns s) j v.
Proof.
  intros Hj E. apply nth_error_eq. intros i. destruct (Nat.eq_dec i j) as [->|Hne].
  - rewrite lset_nth by (rewrite arr_length; exact Hj). rewrite arr_nth by exact Hj. rewrite E, fupd_eq. reflexivity.
  - rewrite lset_nth_neq by congruence. destruct (lt_dec i ns) as [Hi|Hi].
    + rewrite !arr_nth by exact Hi. rewrite E, fupd_neq by exact Hne. reflexivity.
    + rewrite !(proj2 (nth_error_None _ _)) by (rewrite arr_length; lia). reflexivity.
Qed.
Lemma arr_same ns s s' : slots s' = slots s -> arr ns s' = arr ns s.
Proof. unfold arr. intros ->. reflexivity. Qed.

Section Alone.
Variables (ns nc : nat) (caps : nat -> nat).
Variable c : nat.
Hypothesis Hc : c < nc.

Definition Rch (s : evst) : Prop := exists ls, in_range nc ls /\ s = reach ns nc caps ls.

(** nothing but the slot words and consumer c changed *)
Record near (s s' : evst) : Prop := {
  n_data : data s' = data s;
  n_cur : cur s' = cur s;
  n_pc : pc s' = pc s;
  n_own : own s' = own s;
  n_hist : hist s' = hist s;
  n_sid : sid s' = sid s;
  n_cons : forall d, d <> c -> cons s' d = cons s d;
  n_cap : c_cap (cons s' c) = c_cap (cons s c)
}.
Lemma near_refl s : near s s.
Proof. constructor; auto. Qed.
Lemma near_trans s s' s'' : near s s' -> near s' s'' -> near s s''.
Proof. intros [] []. constructor; try congruence. intros d Hd. rewrite n_cons1, n_cons0 by exact Hd. reflexivity. Qed.

(** reached by steps of consumer c's thread alone *)
Definition alone (s s' : evst) : Prop := exists k, s' = run ns nc s (repeat (LC c false) k).
Lemma alone_refl s : alone s s.
Proof. exists 0. reflexivity. Qed.
Lemma alone_trans s s' s'' : alone s s' -> alone s' s'' -> alone s s''.
Proof.
  intros [k ->] [k' ->]. exists (k + k'). rewrite repeat_app. symmetry. apply run_app.
Qed.
Lemma Rch_run s ls : send_calls ls = 0 -> Rch s -> Rch (run ns nc s ls).
Proof.
  intros HL (ls0 & [A B] & ->). exists (ls0 ++ ls). split.
  - split; [exact A|]. unfold send_calls in *. rewrite filter_app, app_length, HL, Nat.add_0_r. exact B.
  - unfold reach. rewrite run_app. reflexivity.
Qed.
Lemma send_calls_lc k : send_calls (repeat (LC c false) k) = 0.
Proof. induction k as [|k IH]; [reflexivity|exact IH]. Qed.
Lemma Rch_alone s s' : alone s s' -> Rch s -> Rch s'.
Proof. intros [k ->]. apply Rch_run, send_calls_lc. Qed.

Lemma Rch_abort s : Rch s -> abort s = false.
Proof. intros (ls & H & ->). apply C19_no_precondition_violated. exact H. Qed.
Lemma Rch_cons s : Rch s -> cons_ok ns s (cons s c).
Proof. intros (ls & H & ->). exact (I_cons _ _ _ _ (Inv_r ns nc caps ls H) c Hc). Qed.
Lemma Rch_live s : Rch s -> live (c_pc (cons s c)) = true -> live_ok ns s (cons s c).
Proof. intros H L. pose proof (K_live _ _ _ (Rch_cons s H)) as K. rewrite L in K. exact K. Qed.

Lemma one s s' : Rch s -> s' = cstep ns s c false -> alone s s'.
Proof.
  intros H ->. exists 1. cbn [repeat run fold_left]. unfold step. rewrite (Rch_abort s H).
  rewrite (proj2 (Nat.ltb_lt _ _) Hc). reflexivity.
Qed.

(** fields of consumer c that a scan does not change *)
Record scanlike (s s' : evst) : Prop := {
  q_near : near s s';
  q_slots : slots s' = slots s;
  q_begin : c_begin (cons s' c) = c_begin (cons s c);
  q_end : c_end (cons s' c) = c_end (cons s c);
  q_ph : c_ph (cons s' c) = c_ph (cons s c);
  q_last : c_last (cons s' c) = c_last (cons s c);
  q_deliv : c_deliv (cons s' c) = c_deliv (cons s c)
}.
Lemma scanlike_refl s : scanlike s s.
Proof. constructor; try reflexivity. apply near_refl. Qed.
Lemma scanlike_trans s s' s'' : scanlike s s' -> scanlike s' s'' -> scanlike s s''.
Proof. intros [] []. constructor; try congruence. eapply near_trans; eassumption. Qed.

Ltac nears := solve [constructor; cbn; try reflexivity; try (rewrite fupd_eq; reflexivity); try (intros d Hd; rewrite fupd_neq by exact Hd; reflexivity)].
Lemma set_pc_scanlike s p : scanlike s (set_con s c (c_set_pc (cons s c) p)).
Proof. constructor; try nears; cbn; rewrite ?fupd_eq; reflexivity. Qed.
Lemma set_pc_pc s k : cons (set_con s c k) c = k.
Proof. cbn. apply fupd_eq. Qed.

(** ** the scan *)
Lemma scan_alone m : forall s n b up r i cand,
  Rch s -> c_pc (cons s c) = CScan n b up r i cand -> i + m = ns ->
  exists s', alone s s' /\ scanlike s s' /\
    c_pc (cons s' c) = CScan n b up r ns (find_newest (c_last (cons s c)) up (map (slots s) (seq i m)) i cand).
Proof.
  induction m as [|m IH]; intros s n b up r i cand H HP E.
  - exists s. split; [apply alone_refl|]. split; [apply scanlike_refl|]. cbn. rewrite HP. f_equal. lia.
  - set (s1 := cstep ns s c false).
    assert (A1 : alone s s1) by (apply one; [exact H|reflexivity]).
    assert (E1 : s1 = set_con s c (c_set_pc (cons s c)
       (CScan n b up r (S i) (scan_newest (c_last (cons s c)) up cand i (slots s i))))).
    { unfold s1, cstep. rewrite HP. rewrite (proj2 (Nat.ltb_lt i ns)) by lia. reflexivity. }
    assert (Q1 : scanlike s s1) by (rewrite E1; apply set_pc_scanlike).
    assert (P1 : c_pc (cons s1 c) = CScan n b up r (S i) (scan_newest (c_last (cons s c)) up cand i (slots s i)))
      by (rewrite E1, set_pc_pc; reflexivity).
    destruct (IH s1 _ _ _ _ _ _ (Rch_alone _ _ A1 H) P1) as (s2 & A2 & Q2 & P2); [lia|].
    exists s2. split; [eapply alone_trans; eassumption|]. split; [eapply scanlike_trans; eassumption|].
    rewrite P2. rewrite (q_last _ _ Q1), (q_slots _ _ Q1). reflexivity.
Qed.

(** ** picking one sample *)
Definition quiet_ph (p : phase) : bool := match p with PhD1 _ _ | PhD2 => false | _ => true end.
Definition quiet_c (s : evst) : Prop := forall i, i < ns -> quiet_ph (c_ph (cons s c) i) = true.

Record picked (s s' : evst) : Prop := {
  k_near : near s s';
  k_last : c_last (cons s' c) = c_last (cons s c);
  k_deliv : c_deliv (cons s' c) = c_deliv (cons s c);
  k_quiet : quiet_c s'
}.

Lemma pick_alone s n b up r j w :
  Rch s -> quiet_c s -> c_pc (cons s c) = CScan n b up r ns (Some (j, w)) -> slots s j = w -> w <> (two64 - 1)%N ->
  exists s', alone s s' /\ picked s s' /\ slots s' = fupd (slots s) j (w_inc w) /\
    c_pc (cons s' c) = CLoad n b j.
Proof.
  intros H Q HP EW NW.
  pose proof (Rch_live s H ltac:(rewrite HP; reflexivity)) as L.
  assert (CO : cand_ok ns (cons s c) up j w /\ pickable (c_ph (cons s c) j)).
  { pose proof (L_pc _ _ _ L) as X. unfold pc_c_ok in X. rewrite HP in X. exact (proj2 X). }
  destruct CO as [(Hj & _) PK].
  assert (PN : c_ph (cons s c) j = PhNone).
  { destruct PK as [P|P]; [exact P|]. specialize (Q j Hj). rewrite P in Q. discriminate. }
  pose proof (L_bits _ _ _ L j Hj) as BT. rewrite PN in BT. cbn in BT. injection BT as B1 B2.
  (* end of the scan *)
  set (s1 := set_con s c (c_set_pc (cons s c) (CTx n b up r j w))).
  assert (A1 : alone s s1).
  { apply one; [exact H|]. unfold cstep. rewrite HP, Nat.ltb_irrefl, (proj2 (N.eqb_neq _ _) NW). reflexivity. }
  (* ReferenceTransactionBegin *)
  set (k1 := c_set_pc (cons s c) (CTx n b up r j w)) in s1.
  assert (C1 : cons s1 c = k1) by (apply set_pc_pc).
  set (k2 := c_set_pc (c_set_ph (c_set_begin k1 j true) j PhTx) (CCas n b up r j w)).
  set (s2 := set_con s1 c k2).
  assert (A2 : alone s1 s2).
  { apply one; [exact (Rch_alone _ _ A1 H)|]. unfold cstep. rewrite C1. unfold k1 at 1. cbn [c_pc c_set_pc].
    unfold k1 at 1. cbn [c_begin c_set_pc]. rewrite B1. unfold k1 at 1. cbn [c_end c_set_pc]. rewrite B2. reflexivity. }
  assert (C2 : cons s2 c = k2) by (apply set_pc_pc).
  (* compare exchange *)
  set (k3 := c_set_pc (c_set_ph k2 j (PhRef (sid s2 j) (ts_of w))) (CCommit n b j)).
  set (s3 := set_con (set_slots s2 (fupd (slots s2) j (w_inc w))) c k3).
  assert (A3 : alone s2 s3).
  { apply one; [exact (Rch_alone _ _ A2 (Rch_alone _ _ A1 H))|]. unfold cstep. rewrite C2.
    unfold k2 at 1. cbn [c_pc c_set_pc]. change (slots s2) with (slots s). rewrite EW, N.eqb_refl. reflexivity. }
  (* ReferenceTransactionCommit *)
  assert (C3 : cons s3 c = k3) by (apply set_pc_pc).
  assert (F2 : c_begin k2 j = true /\ c_end k2 j = false /\ c_last k2 = c_last (cons s c) /\
     c_cap k2 = c_cap (cons s c) /\ c_deliv k2 = c_deliv (cons s c) /\
     forall i, i <> j -> c_ph k2 i = c_ph (cons s c) i).
  { unfold k2, k1. cbn. rewrite fupd_eq. repeat split; try assumption.
    intros i Hi. rewrite fupd_neq by exact Hi. reflexivity. }
  destruct F2 as (F1 & F2 & F3 & F4 & F5 & F6).
  set (k4 := c_set_pc (c_set_ph (c_set_end k3 j true) j (PhBatch (sid s2 j) (ts_of w))) (CLoad n b j)).
  set (s4 := set_con s3 c k4).
  assert (A4 : alone s3 s4).
  { apply one; [exact (Rch_alone _ _ A3 (Rch_alone _ _ A2 (Rch_alone _ _ A1 H)))|]. unfold cstep. rewrite C3. unfold k3 at 1.
    cbn [c_pc c_set_pc]. change (c_begin k3 j) with (c_begin k2 j). rewrite F1.
    change (c_end k3 j) with (c_end k2 j). rewrite F2. cbn [negb].
    unfold k3 at 1. cbn [c_ph c_set_pc c_set_ph]. rewrite fupd_eq. reflexivity. }
  exists s4. split; [eapply alone_trans; [exact A1|]; eapply alone_trans; [exact A2|]; eapply alone_trans; eassumption|].
  assert (C4 : cons s4 c = k4) by (apply set_pc_pc).
  split; [|split; [reflexivity|rewrite C4; reflexivity]].
  constructor.
  - constructor; try reflexivity.
    + intros d Hd. cbn. rewrite !fupd_neq by exact Hd. reflexivity.
    + rewrite C4. exact F4.
  - rewrite C4. exact F3.
  - rewrite C4. exact F5.
  - intros i Hi. rewrite C4. unfold k4. cbn [c_ph c_set_pc c_set_ph c_set_end]. destruct (Nat.eq_dec i j) as [->|Hne].
    + rewrite fupd_eq. reflexivity.
    + rewrite fupd_neq by exact Hne. unfold k3. cbn [c_ph c_set_pc c_set_ph]. rewrite fupd_neq by exact Hne.
      rewrite F6 by exact Hne. exact (Q i Hi).
Qed.

(** ** CollectSlots *)
Lemma picked_trans s s' s'' : picked s s' -> picked s' s'' -> picked s s''.
Proof. intros [] []. constructor; try congruence; [eapply near_trans; eassumption|assumption]. Qed.
Lemma scanlike_picked s s' : quiet_c s -> scanlike s s' -> picked s s'.
Proof.
  intros Q S. destruct S. constructor; try assumption. intros i Hi. rewrite q_ph0. exact (Q i Hi).
Qed.

Lemma collect_alone n : forall s b up idx A',
  Rch s -> quiet_c s -> 0 < n -> length b < c_cap (cons s c) ->
  c_pc (cons s c) = CScan n b up 0 0 None ->
  CollectSlots_quiet n (c_cap (cons s c) - length b) (arr ns s) (c_last (cons s c)) up b = Some (idx, A') ->
  exists s', alone s s' /\ picked s s' /\ arr ns s' = A' /\
    c_pc (cons s' c) = CNewest idx idx (c_last (cons s c)).
Proof.
  induction n as [|n IH]; intros s b up idx A' H Q Hn Hb HP HQ; [lia|].
  destruct (scan_alone ns s (S n) b up 0 0 None H HP eq_refl) as (s1 & A1 & Q1 & P1).
  pose proof (Rch_alone _ _ A1 H) as H1.
  assert (K1 : picked s s1) by (apply scanlike_picked; assumption).
  replace (c_cap (cons s c) - length b) with (S (c_cap (cons s c) - S (length b))) in HQ by lia.
  cbn [CollectSlots_quiet] in HQ. unfold ReferenceNextEvent_quiet in HQ. unfold arr in HQ at 1.
  pose proof (find_newest_spec (c_last (cons s c)) up (map (slots s) (seq 0 ns)) 0 None _ (fun i w E => ltac:(discriminate E)) eq_refl) as HS.
  destruct (find_newest (c_last (cons s c)) up (map (slots s) (seq 0 ns)) 0 None) as [[j w]|].
  - destruct HS as (_ & [HC|[_ HN]] & _); [discriminate|]. rewrite Nat.sub_0_r in HN.
    destruct (arr_nth_inv ns s j w HN) as [Hj EW].
    destruct (N.eqb_spec w (two64 - 1)) as [|NW]; [discriminate|].
    rewrite lset_nth in HQ by (rewrite arr_length; exact Hj).
    destruct (pick_alone s1 (S n) b up 0 j w H1 (k_quiet _ _ K1) P1) as (s2 & A2 & K2 & S2 & P2); [rewrite (q_slots _ _ Q1); congruence|exact NW|].
    pose proof (Rch_alone _ _ A2 H1) as H2.
    assert (K02 : picked s s2) by (eapply picked_trans; eassumption).
    rewrite (q_slots _ _ Q1) in S2.
    assert (EA : arr ns s2 = lset (arr ns s) j (w_inc w)) by (apply arr_upd; assumption).
    assert (EJ : slots s2 j = w_inc w) by (rewrite S2; apply fupd_eq).
    assert (CP : c_cap (cons s2 c) = c_cap (cons s c)) by (exact (n_cap _ _ (k_near _ _ K02))).
    remember (cstep ns s2 c false) as s3 eqn:Xs3.
    assert (A3 : alone s2 s3) by (apply one; [exact H2|exact Xs3]).
    unfold cstep in Xs3. rewrite P2 in Xs3. rewrite EJ in Xs3.
    destruct ((length (j :: b) =? c_cap (cons s2 c)) || (S n <=? 1)) eqn:ED.
    + (* last one *)
      assert (Q3 : scanlike s2 s3) by (rewrite Xs3; apply set_pc_scanlike).
      exists s3. split; [eapply alone_trans; [exact A1|]; eapply alone_trans; eassumption|].
      split; [eapply picked_trans; [exact K02|]; apply scanlike_picked; [exact (k_quiet _ _ K02)|exact Q3]|].
      assert (HE : Some (j :: b, arr ns s2) = Some (idx, A')).
      { rewrite <- HQ, <- EA. apply orb_true_iff in ED. destruct ED as [ED|ED].
        - apply Nat.eqb_eq in ED. cbn [length] in ED. rewrite CP in ED. rewrite ED, Nat.sub_diag. destruct n; reflexivity.
        - apply Nat.leb_le in ED. replace n with 0 by lia. reflexivity. }
      injection HE as <- <-. split; [apply arr_same; exact (q_slots _ _ Q3)|].
      rewrite Xs3, set_pc_pc. cbn [c_finish c_pc c_set_pc]. rewrite (k_last _ _ K02). reflexivity.
    + assert (Q3 : scanlike s2 s3) by (rewrite Xs3; apply set_pc_scanlike).
      assert (P3 : c_pc (cons s3 c) = CScan n (j :: b) (ts_of (w_inc w)) 0 0 None).
      { rewrite Xs3, set_pc_pc. cbn [c_pc c_set_pc]. f_equal. lia. }
      pose proof (Rch_alone _ _ A3 H2) as H3.
      assert (K03 : picked s s3) by (eapply picked_trans; [exact K02|]; apply scanlike_picked; [exact (k_quiet _ _ K02)|exact Q3]).
      apply orb_false_iff in ED. destruct ED as [ED1 ED2]. apply Nat.eqb_neq in ED1. apply Nat.leb_gt in ED2.
      cbn [length] in ED1. rewrite CP in ED1.
      assert (CP3 : c_cap (cons s3 c) = c_cap (cons s c)) by (exact (n_cap _ _ (k_near _ _ K03))).
      destruct (IH s3 (j :: b) (ts_of (w_inc w)) idx A' H3 (k_quiet _ _ K03)) as (s4 & A4 & K4 & E4 & P4).
      * clear - ED2. lia.
      * cbn [length]. rewrite CP3. clear - ED1 Hb. lia.
      * exact P3.
      * rewrite CP3, (k_last _ _ K03), (arr_same _ _ _ (q_slots _ _ Q3)), EA. exact HQ.
      * exists s4. split; [eapply alone_trans; [exact A1|]; eapply alone_trans; [exact A2|]; eapply alone_trans; eassumption|].
        split; [eapply picked_trans; eassumption|]. split; [exact E4|]. rewrite P4, (k_last _ _ K03). reflexivity.
  - injection HQ as <- <-.
    remember (cstep ns s1 c false) as s2 eqn:Xs2.
    assert (A2 : alone s1 s2) by (apply one; [exact H1|exact Xs2]).
    unfold cstep in Xs2. rewrite P1, Nat.ltb_irrefl in Xs2.
    assert (Q2 : scanlike s1 s2) by (rewrite Xs2; apply set_pc_scanlike).
    exists s2. split; [eapply alone_trans; eassumption|].
    split; [eapply picked_trans; [exact K1|]; apply scanlike_picked; [exact (k_quiet _ _ K1)|exact Q2]|].
    split; [rewrite (arr_same _ _ _ (q_slots _ _ Q2)); apply arr_same; exact (q_slots _ _ Q1)|].
    rewrite Xs2, set_pc_pc. cbn [c_finish c_pc c_set_pc]. rewrite (k_last _ _ K1). reflexivity.
Qed.

(** ** the newest delivered timestamp *)
Lemma newest_alone todo : forall s b acc,
  Rch s -> c_pc (cons s c) = CNewest todo b acc ->
  exists s', alone s s' /\ near s s' /\ slots s' = slots s /\ c_ph (cons s' c) = c_ph (cons s c) /\
    c_deliv (cons s' c) = c_deliv (cons s c) /\
    c_last (cons s' c) = fold_left (fun a i => N.max a (ts_of (slots s i))) todo acc /\ c_pc (cons s' c) = CDeliver b.
Proof.
  induction todo as [|j todo IH]; intros s b acc H HP.
  - remember (cstep ns s c false) as s1 eqn:Xs1.
    assert (A1 : alone s s1) by (apply one; [exact H|exact Xs1]).
    unfold cstep in Xs1. rewrite HP in Xs1. exists s1. split; [exact A1|].
    split; [rewrite Xs1; nears|]. rewrite Xs1, set_pc_pc. repeat split; reflexivity.
  - remember (cstep ns s c false) as s1 eqn:Xs1.
    assert (A1 : alone s s1) by (apply one; [exact H|exact Xs1]).
    unfold cstep in Xs1. rewrite HP in Xs1.
    assert (Q1 : scanlike s s1) by (rewrite Xs1; apply set_pc_scanlike).
    destruct (IH s1 b (N.max acc (ts_of (slots s j))) (Rch_alone _ _ A1 H)) as (s2 & A2 & N2 & S2 & P2 & D2 & L2 & C2).
    { rewrite Xs1, set_pc_pc. reflexivity. }
    exists s2. split; [eapply alone_trans; eassumption|]. split; [eapply near_trans; [exact (q_near _ _ Q1)|exact N2]|].
    split; [rewrite S2; exact (q_slots _ _ Q1)|]. split; [rewrite P2; exact (q_ph _ _ Q1)|].
    split; [rewrite D2; exact (q_deliv _ _ Q1)|]. split; [|exact C2]. rewrite L2. rewrite (q_slots _ _ Q1). reflexivity.
Qed.

(** ** handing out *)
Lemma deliver_alone todo : forall s,
  Rch s -> c_pc (cons s c) = CDeliver todo ->
  exists s', alone s s' /\ near s s' /\ slots s' = slots s /\
    c_last (cons s' c) = c_last (cons s c) /\ c_pc (cons s' c) = CIdle /\
    c_deliv (cons s' c) = c_deliv (cons s c) ++ map (sid s) todo /\
    (forall i, In i todo -> c_ph (cons s' c) i = PhHeld (sid s i) (ts_of (slots s i))) /\
    (forall i, ~ In i todo -> c_ph (cons s' c) i = c_ph (cons s c) i).
Proof.
  induction todo as [|j todo IH]; intros s H HP.
  - remember (cstep ns s c false) as s1 eqn:Xs1.
    assert (A1 : alone s s1) by (apply one; [exact H|exact Xs1]).
    unfold cstep in Xs1. rewrite HP in Xs1. exists s1. split; [exact A1|].
    split; [rewrite Xs1; exact (q_near _ _ (set_pc_scanlike _ _))|]. rewrite Xs1, set_pc_pc. cbn [map].
    rewrite app_nil_r. repeat split; try reflexivity. intros i [].
  - pose proof (Rch_live s H ltac:(rewrite HP; reflexivity)) as L.
    assert (Hj : j < ns) by (apply (L_range _ _ _ L); rewrite HP; left; reflexivity).
    assert (KB : kind_of (c_ph (cons s c) j) = KBatch).
    { rewrite (L_kind _ _ _ L j Hj), HP. unfold exp_kind. cbn [tx_slot ref_slot oeqb batch_of inb existsb].
      rewrite Nat.eqb_refl. reflexivity. }
    destruct (c_ph (cons s c) j) as [| | |id t| | | |] eqn:PJ; try discriminate KB.
    destruct (K_tag _ _ _ (Rch_cons s H) j id t Hj ltac:(rewrite PJ; reflexivity)) as [-> ->].
    remember (cstep ns s c false) as s1 eqn:Xs1.
    assert (A1 : alone s s1) by (apply one; [exact H|exact Xs1]).
    unfold cstep in Xs1. rewrite HP, PJ in Xs1.
    assert (NJ : ~ In j todo).
    { intros HIn. pose proof (L_sorted _ _ _ L) as SS. rewrite HP in SS. cbn [batch_of] in SS.
      inversion SS as [|? ? _ SF]; subst. rewrite Forall_forall in SF. specialize (SF j HIn). clear - SF. lia. }
    destruct (IH s1 (Rch_alone _ _ A1 H)) as (s2 & A2 & N2 & S2 & L2 & C2 & D2 & PI & PO).
    { rewrite Xs1, set_pc_pc. reflexivity. }
    assert (CE : cons s1 c = c_set_pc (c_set_deliv (c_set_ph (cons s c) j (PhHeld (sid s j) (vts s j))) (c_deliv (cons s c) ++ [sid s j])) (CDeliver todo))
      by (rewrite Xs1; apply set_pc_pc).
    exists s2. split; [eapply alone_trans; eassumption|]. split; [eapply near_trans; [|exact N2]; rewrite Xs1; nears|].
    assert (SS1 : slots s1 = slots s /\ sid s1 = sid s) by (rewrite Xs1; split; reflexivity).
    destruct SS1 as [SS1 SI1]. rewrite SS1 in S2, PI. rewrite SI1 in D2, PI.
    split; [exact S2|]. split; [rewrite L2, CE; reflexivity|]. split; [exact C2|].
    split; [rewrite D2, CE; cbn [c_deliv c_set_pc c_set_deliv map]; rewrite <- app_assoc; reflexivity|]. split.
    + intros i [<-|HI]; [|exact (PI i HI)]. rewrite (PO j NJ), CE. cbn. rewrite fupd_eq. reflexivity.
    + intros i HI. rewrite PO by (intros X; apply HI; right; exact X). rewrite CE. cbn.
      rewrite fupd_neq; [reflexivity|]. intros ->. apply HI. left. reflexivity.
Qed.

(** ** the whole call *)
Lemma fold_newest s A l a : (forall i, In i l -> i < ns) -> arr ns s = A ->
  fold_left (fun a i => N.max a (ts_of (slots s i))) l a = newest_delivered A a l.
Proof.
  intros HI <-. unfold newest_delivered. revert a. induction l as [|x l IH]; intros a; [reflexivity|]. cbn [fold_left].
  rewrite IH by (intros i Hi; apply HI; right; exact Hi). do 3 f_equal. symmetry. apply nth_error_nth.
  apply arr_nth. apply HI. left. reflexivity.
Qed.

Lemma get_alone s n idx A' last' :
  Rch s -> quiet_c s -> 0 < c_cap (cons s c) -> c_pc (cons s c) = CIdle ->
  GetNewSamplesSlotIndices_quiet n (c_cap (cons s c)) (arr ns s) (c_last (cons s c)) = Some (idx, A', last') ->
  exists k s', s' = run ns nc s (LCGet c n :: repeat (LC c false) k) /\
    near s s' /\ arr ns s' = A' /\ c_last (cons s' c) = last' /\ c_pc (cons s' c) = CIdle /\
    c_deliv (cons s' c) = c_deliv (cons s c) ++ map (sid s) idx /\
    (forall i, In i idx -> exists t, c_ph (cons s' c) i = PhHeld (sid s i) t).
Proof.
  intros H Q HC HP E. unfold GetNewSamplesSlotIndices_quiet in E.
  destruct (CollectSlots_quiet n (c_cap (cons s c)) (arr ns s) (c_last (cons s c)) TIMESTAMP_MAX []) as [[idx0 A0]|] eqn:EC; [|discriminate].
  injection E as -> -> <-.
  set (s0 := step ns nc s (LCGet c n)).
  assert (H0 : Rch s0) by (exact (Rch_run s [LCGet c n] eq_refl H)).
  assert (X : exists s1, alone s0 s1 /\ picked s s1 /\ arr ns s1 = A' /\ c_pc (cons s1 c) = CNewest idx idx (c_last (cons s c))).
  { unfold s0 in *. unfold step in *. rewrite (Rch_abort s H), (proj2 (Nat.ltb_lt _ _) Hc), HP in *. destruct n as [|n].
    - cbn in EC. injection EC as <- <-. eexists. split; [apply alone_refl|].
      split; [apply scanlike_picked; [exact Q|apply set_pc_scanlike]|]. split; [reflexivity|]. rewrite set_pc_pc. reflexivity.
    - set (s1 := set_con s c (c_set_pc (cons s c) (CScan (S n) [] TIMESTAMP_MAX 0 0 None))) in *.
      assert (Q1 : scanlike s s1) by (apply set_pc_scanlike).
      assert (K1 : picked s s1) by (apply scanlike_picked; assumption).
      assert (CP : c_cap (cons s1 c) = c_cap (cons s c)) by (exact (n_cap _ _ (q_near _ _ Q1))).
      destruct (collect_alone (S n) s1 [] TIMESTAMP_MAX idx A' H0 (k_quiet _ _ K1)) as (s2 & A2 & K2 & E2 & P2).
      + clear; lia.
      + rewrite CP. exact HC.
      + unfold s1. rewrite set_pc_pc. reflexivity.
      + rewrite CP, (q_last _ _ Q1), (arr_same _ _ _ (q_slots _ _ Q1)). cbn [length]. rewrite Nat.sub_0_r. exact EC.
      + exists s2. split; [exact A2|]. split; [eapply picked_trans; eassumption|]. split; [exact E2|].
        rewrite P2, (q_last _ _ Q1). reflexivity. }
  destruct X as (s1 & A1 & K1 & E1 & P1).
  pose proof (Rch_alone _ _ A1 H0) as H1.
  destruct (newest_alone idx s1 idx _ H1 P1) as (s2 & A2 & N2 & S2 & PH2 & D2 & L2 & P2).
  pose proof (Rch_alone _ _ A2 H1) as H2.
  destruct (deliver_alone idx s2 H2 P2) as (s3 & A3 & N3 & S3 & L3 & P3 & D3 & PI & PO).
  pose proof (Rch_live s1 H1 ltac:(rewrite P1; reflexivity)) as L1.
  assert (RG : forall i, In i idx -> i < ns) by (intros i Hi; apply (L_range _ _ _ L1); rewrite P1; exact Hi).
  destruct (alone_trans _ _ _ A1 (alone_trans _ _ _ A2 A3)) as [k EK].
  exists k, s3. split; [exact EK|].
  assert (N13 : near s1 s3) by (eapply near_trans; eassumption).
  assert (SID : sid s2 = sid s) by (rewrite (n_sid _ _ N2); exact (n_sid _ _ (k_near _ _ K1))).
  split; [eapply near_trans; [exact (k_near _ _ K1)|exact N13]|].
  split; [rewrite <- E1; apply arr_same; congruence|].
  split; [rewrite L3, L2; apply fold_newest; assumption|].
  split; [exact P3|]. split; [rewrite D3, D2, (k_deliv _ _ K1), SID; reflexivity|].
  intros i Hi. exists (ts_of (slots s2 i)). rewrite (PI i Hi), SID. reflexivity.
Qed.

End Alone.
